(** Model of SystemTwo::initializeBasis (SystemTwo.cpp:202-649), setOneAtomBasisvectors
    (SystemTwo.cpp:183-195) and the setters of the symmetries.  No proofs.

    The one-atom systems enter as they are after lines 207-216 (diagonalised and restricted; the life
    cycle of a system is SystemModel.v).  Scalars are exact (Matrix.v). *)
From Verif Require Import Base StateModel Matrix LookupModel SystemModel RangeModel.
From Coq Require Import ZArith Bool String Arith List.
Import ListNotations.
Set Implicit Arguments.
Local Open Scope Z_scope.

(** SystemTwo.cpp:183-195: the indices are accepted unless a pair occurs twice (sort, then
    adjacent_find).  No other check, and no onStatesChange. *)
Definition idx_eqb (p q : nat * nat) : bool := Nat.eqb (fst p) (fst q) && Nat.eqb (snd p) (snd q).
Fixpoint idx_unique (ps : list (nat * nat)) : bool :=
  match ps with
  | [] => true
  | p :: ps' => negb (existsb (idx_eqb p) ps') && idx_unique ps'
  end.
Definition setOneAtomBasisvectors (ps old : list (nat * nat)) : list (nat * nat) * res unit :=
  if idx_unique ps then (ps, Ok tt) else (old, Throw).

Section Pair.
Context {K : StarRing}.
Variable hs : string -> N.
Variable hi : Z -> N.
Variable hf : Z -> N.
(** 1/sqrt(2) *)
Variable rt : K.
(** StateOne::getEnergy *)
Variable energy : state1 -> res K.

(** What initializeBasis reads of a one-atom system: the states by index, the stored entries
    (row, value) of each column of basisvectors, the diagonal of the Hamiltonian. *)
Record onesys : Type := OneSys { o_states : list state1; o_cols : list (list (nat * K)); o_en : list K }.

Variables sys1 sys2 : onesys.
Variables species1 species2 : string.
Variables sinv sref sperm : parity.
(** sym_rotation: [None] is {ARB}; total momenta (not doubled, SystemTwo.hpp:99). *)
Variable srot : option (list Z).
(** one_atom_basisvectors_indices *)
Variable chosen : list (nat * nat).
Variable thr : K.
Variable rq : @request K state2.

Definition isS (p : parity) : bool := match p with NA => false | _ => true end.

(** SystemTwo.cpp:232-253 *)
Definition artificial (s : onesys) (col : list (nat * K)) : bool :=
  existsb (fun e => match nth_error (o_states s) (fst e) with Some st => isArtificial st | None => false end) col.

(** SystemTwo.cpp:280-290 *)
Definition pairs : list (nat * nat) :=
  match chosen with
  | [] => list_prod (seq 0 (List.length (o_cols sys1))) (seq 0 (List.length (o_cols sys2)))
  | _ => chosen
  end.

(** std::pow(-1, k) for an integer k *)
Definition pm (k : Z) : Z := if Z.even k then 1 else -1.
(** v *= sign *)
Definition kz (z : Z) (v : K) : K := if z <? 0 then sopp v else v.

(** Factor between the two exchanged entries (SystemTwo.cpp:411-421), given parityL. *)
Definition sgn_inv (p : parity) (pL : Z) : Z := match p with EVEN => - pL | _ => pL end.
Definition sgn_perm (p : parity) : Z := match p with EVEN => -1 | _ => 1 end.
Definition sgn_ref (p : parity) (k : Z) : Z := match p with EVEN => k | _ => - k end.

(** SystemTwo.cpp:354-451: the calls of addBasisvectors for one pair of entries.  [art]: one of the
    two columns contains an artificial state.  M, parityL, ... keep old values if [art], but are
    not used then.  The conversion of pow(-1, half-integer) = NaN to int is undefined. *)
Definition entries (i j : nat) (art : bool) (a b : state1) (x : K) : res (list (state2 * K)) :=
  let inv := if art then NA else sinv in
  let ref := if art then NA else sref in
  let rot := if art then None else srot in
  if negb art && Z.odd (j2 a + j2 b) then UB else
  let M := Z.quot (m2 a + m2 b) 2 in
  let pL := pm (l a + l b) in
  let pJ := pm (Z.quot (j2 a + j2 b) 2) in
  let different := negb (Nat.eqb i j) in
  if match rot with None => false | Some ms => negb (existsb (Z.eqb M) ms) end then Ok [] else
  let sX := if isS inv then sgn_inv inv pL else sgn_perm sperm in
  let exch := different && (isS inv || isS sperm) in
  let sR := sgn_ref ref (pL * pJ * pm M) in
  if different && isS inv && isS sperm && negb (sgn_inv inv pL =? sgn_perm sperm) then Ok [] else
  do! rf <- (if isS ref then do! a' <- getReflected hs hi hf a ; do! b' <- getReflected hs hi hf b ; Ok (Some (a', b'))
             else Ok None) ;
  let both := exch && match rf with Some (a', b') => eq2 (mkTwo_pair a' b') (mkTwo_pair b a) | None => false end in
  if both && negb (sX =? sR) then Ok [] else
  let v := if exch then smul x rt else x in
  let v := if isS ref && negb both then smul v (smul rt rt) else v in
  Ok ((mkTwo_pair a b, v) :: (if exch then [(mkTwo_pair b a, kz sX v)] else []) ++
      match rf with
      | Some (a', b') =>
          if both then []
          else (mkTwo_pair a' b', kz sR v) :: (if exch then [(mkTwo_pair b' a', kz sX (kz sR v))] else [])
      | None => []
      end).

(** Variables of the function: states, basisvectors_triplets, hamiltonian_triplets, sqnorm_list,
    col_new. *)
Record acc2 := Acc2 { p_tbl : list (nat * state2); p_bt : list (nat * nat * K); p_ht : list (nat * nat * K);
                      p_sq : list K; p_col : nat }.

Fixpoint upd (i : nat) (f : K -> K) (xs : list K) : list K :=
  match xs, i with
  | [], _ => []
  | x :: xs', O => f x :: xs'
  | x :: xs', S i' => x :: upd i' f xs'
  end.

(** SystemTwo.cpp:1579-1596 addBasisvectors: sqnorm_list is indexed without a check. *)
Definition addB (x : state2) (v : K) (c : acc2) : acc2 * res unit :=
  let '(row, tbl) := match tfind eq2 (p_tbl c) x with
                     | Some r => (r, p_tbl c)
                     | None => (List.length (p_tbl c), p_tbl c ++ [(List.length (p_tbl c), x)])
                     end in
  if Nat.ltb row (List.length (p_sq c))
  then (Acc2 tbl (p_bt c ++ [(row, p_col c, v)]) (p_ht c)
             (upd row (fun q => sadd q (smul (sconj v) v)) (p_sq c)) (p_col c), Ok tt)
  else (Acc2 tbl (p_bt c ++ [(row, p_col c, v)]) (p_ht c) (p_sq c) (p_col c), UB).

Fixpoint loop2 {X : Type} (f : X -> acc2 -> acc2 * res unit) (xs : list X) (a : acc2) : acc2 * res unit :=
  match xs with
  | [] => (a, Ok tt)
  | x :: xs' => match f x a with (a1, Ok _) => loop2 f xs' a1 | r => r end
  end.
Definition addAll : list (state2 * K) -> acc2 -> acc2 * res unit := loop2 (fun e => addB (fst e) (snd e)).

(** checkIsEnergyValid (SystemBase.cpp:1414-1419) *)
Definition enValid2 (e : K) : bool :=
  (match rq_emin rq with None => true | Some a => sltre a e end) &&
  (match rq_emax rq with None => true | Some b => sltre e b end).

Definition skipped (inv perm : parity) (le lt : bool) : bool :=
  match inv with EVEN => le | ODD => lt | NA => false end ||
  match perm with EVEN => le | ODD => lt | NA => false end.

Definition next (e : K) (c : acc2) : acc2 :=
  Acc2 (p_tbl c) (p_bt c) (p_ht c ++ [(p_col c, p_col c, e)]) (p_sq c) (p_col c).
Definition closecol (c : acc2) : acc2 := Acc2 (p_tbl c) (p_bt c) (p_ht c) (p_sq c) (S (p_col c)).

(** SystemTwo.cpp:335-453: one pair of columns *)
Definition column (i j : nat) (art : bool) (c1 c2 : list (nat * K)) (c : acc2) : acc2 * res unit :=
  loop2 (fun e c =>
    let '((r1, v1), (r2, v2)) := e in
    match nth_error (o_states sys1) r1, nth_error (o_states sys2) r2 with
    | Some a, Some b =>
        match entries i j art a b (smul v1 v2) with
        | Ok es => addAll es c
        | Throw => (c, Throw)
        | UB => (c, UB)
        end
    | _, _ => (c, UB)
    end) (list_prod c1 c2) c.

(** SystemTwo.cpp:293-456.  Indices are not checked: vector<bool>::operator[] and
    SparseMatrix::coeff are undefined outside. *)
Definition pair_step (ij : nat * nat) (c : acc2) : acc2 * res unit :=
  let '(i, j) := ij in
  match nth_error (o_cols sys1) i with
  | None => (c, UB)
  | Some c1 =>
    let art1 := artificial sys1 c1 in
    match (if art1 then Ok true
           else match nth_error (o_cols sys2) j with None => UB | Some c2 => Ok (artificial sys2 c2) end) with
    | Ok art =>
        if skipped (if art then NA else sinv) sperm (Nat.leb i j) (Nat.ltb i j) then (c, Ok tt)
        else match nth_error (o_cols sys2) j, nth_error (o_en sys1) i, nth_error (o_en sys2) j with
             | Some c2, Some e1, Some e2 =>
                 let e := sadd e1 e2 in
                 if enValid2 e
                 then match column i j art c1 c2 (next e c) with
                      | (c', Ok _) => (closecol c', Ok tt)
                      | r => r
                      end
                 else (c, Ok tt)
             | _, _, _ => (c, UB)
             end
    | _ => (c, UB)
    end
  end.

(** SystemTwo.cpp:464-476 *)
Definition check_user (x : state2) (c : acc2) : acc2 * res unit :=
  match tfind eq2 (p_tbl c) x with
  | Some _ => (c, Throw)
  | None => if (negb (isArtificial (fst1 x)) && negb (String.eqb (species (fst1 x)) species1)) ||
               (negb (isArtificial (snd1 x)) && negb (String.eqb (species (snd1 x)) species2))
            then (c, Throw) else (c, Ok tt)
  end.

(** SystemTwo.cpp:484-567 *)
Definition user_energy (x : state2) : res K :=
  do! e1 <- (if isArtificial (fst1 x) then Ok s0 else energy (fst1 x)) ;
  do! e2 <- (if isArtificial (snd1 x) then Ok s0 else energy (snd1 x)) ; Ok (sadd e1 e2).
Definition user_step (x : state2) (c : acc2) : acc2 * res unit :=
  let a := fst1 x in let b := snd1 x in
  let different := neq1 a b in
  match user_energy x with
  | Throw => (c, Throw) | UB => (c, UB)
  | Ok e =>
    let art := isArtificial a || isArtificial b in
    let inv := if art then NA else sinv in
    let rot := if art then None else srot in
    let M := Z.quot (m2 a + m2 b) 2 in
    let pL := pm (l a + l b) in
    if match rot with None => false | Some ms => negb (existsb (Z.eqb M) ms) end then (c, Ok tt) else
    let sX := if isS inv then sgn_inv inv pL else sgn_perm sperm in
    let exch := (isS inv || isS sperm) && different in
    if isS inv && isS sperm && different && negb (sgn_inv inv pL =? sgn_perm sperm) then (c, Ok tt) else
    if exch && negb (existsb (eq2 (mkTwo_pair b a)) (rq_add rq)) then (c, Throw) else
    if skipped inv sperm (le1 a b) (lt1 a b) then (c, Ok tt) else
    let v := if exch then rt else s1 in
    match addAll ((x, v) :: (if exch then [(mkTwo_pair b a, kz sX v)] else [])) (next e c) with
    | (c', Ok _) => (closecol c', Ok tt)
    | r => r
    end
  end.

(** SystemTwo.cpp:569-622: matrices, removal of short columns, removal of states that barely
    occur (applyRightsideTransformator and removeRestrictedStates as in SystemModel.v). *)
Definition finish (c : acc2) : list (nat * state2) * res (mat K * mat K) :=
  let B := mtrip (List.length (p_tbl c)) (p_col c) (p_bt c) in
  let H := mtrip (p_col c) (p_col c) (p_ht c) in
  let T := msel (p_col c) (filter (fun k => sltre thr (colsq B k)) (seq 0 (p_col c))) in
  let kept := filter (fun e => sltre thr (nth (fst e) (p_sq c) s0)) (p_tbl c) in
  (enum_push eq2 [] 0 kept,
   Ok (mmul (madj (msel (nr B) (map fst kept))) (mmul B T), mconj T H)).

Definition capacity : nat :=
  (List.length (o_states sys1) * List.length (o_states sys2) + List.length (rq_add rq))%nat.

(** SystemTwo.cpp:202-649 *)
Definition initBasis2 : list (nat * state2) * res (mat K * mat K) :=
  let step1 := loop2 pair_step pairs (Acc2 [] [] [] (repeat s0 capacity) 0) in
  let step2 := match step1 with (c, Ok _) => loop2 check_user (rq_add rq) c | r => r end in
  let step3 := match step2 with (c, Ok _) => loop2 user_step (rq_add rq) c | r => r end in
  match step3 with
  | (c, Ok _) => finish c
  | (c, Throw) => (p_tbl c, Throw)
  | (c, UB) => (p_tbl c, UB)
  end.
End Pair.
