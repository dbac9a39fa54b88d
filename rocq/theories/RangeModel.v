(** Model of the restriction helpers of SystemBase and of
    SystemOne::initializeBasis.  No proofs in this file.

    std::set<int> / std::set<float> are modelled by their elements in
    ascending order (floats by doubled values).  The finite range of int is not modelled
    (restrictN(a, INT_MAX) does not terminate in the code). *)
From Verif Require Import Base StateModel Matrix LookupModel SystemModel.
From Coq Require Import ZArith Bool String Ascii List.
Import ListNotations.
Set Implicit Arguments.
Local Open Scope Z_scope.

(** SystemBase.hpp:363-369 range(rset, rmin, rmax): rmin, rmin+1, ... <= rmax.
    [step] is 1 for int and 2 for doubled half-integers. *)
Definition zrange (step lo hi : Z) : list Z :=
  if hi <? lo then [] else map (fun k => lo + step * Z.of_nat k) (seq 0 (Z.to_nat ((hi - lo) / step + 1))).

(** SystemBase.hpp:331-334 checkIsQuantumnumberValid *)
Definition qnumValid (q : Z) (r : list Z) : bool := is_nil r || existsb (Z.eqb q) r.

(** SystemBase.cpp:1390-1396 *)
Definition qvalid1 (g : ranges) (s : state1) : bool :=
  isArtificial s ||
  (qnumValid (n s) (rg_n g) && qnumValid (l s) (rg_l g) &&
   qnumValid (j2 s) (rg_j g) && qnumValid (m2 s) (rg_m g)).

(** SystemBase.cpp:1398-1411 *)
Definition qvalid2 (g : ranges) (s : state2) : bool := qvalid1 g (fst1 s) && qvalid1 g (snd1 s).

(** SystemBase.cpp:97-134: the (min,max) overloads; [jlo], [mlo], ... are doubled. *)
Definition restrictN (lo hi : Z) (g : ranges) := Ranges (zrange 1 lo hi) (rg_l g) (rg_j g) (rg_m g).
Definition restrictL (lo hi : Z) (g : ranges) := Ranges (rg_n g) (zrange 1 lo hi) (rg_j g) (rg_m g).
Definition restrictJ (lo hi : Z) (g : ranges) := Ranges (rg_n g) (rg_l g) (zrange 2 lo hi) (rg_m g).
Definition restrictM (lo hi : Z) (g : ranges) := Ranges (rg_n g) (rg_l g) (rg_j g) (zrange 2 lo hi).

(** parity_t (SystemBase.hpp / Symmetry.hpp:23): NA, EVEN, ODD *)
Inductive parity := NA | EVEN | ODD.

Section Basis.
Context {K : StarRing}.
Variable hs : string -> N.
Variable hi : Z -> N.
Variable hf : Z -> N.

(** 1/sqrt(2) and utils::imaginary_unit<Scalar>() (utils.hpp:57-66: throws for real scalars). *)
Variable rt : K.
Variable iu : option K.
(** StateOne::getEnergy: depends on species, n, l, j only (QuantumDefect.cpp); may throw. *)
Variable energy : string -> Z -> Z -> Z -> res K.

Variable species : string.
Variable sref : parity.
(** sym_rotation: [None] is {ARB}; otherwise the doubled momenta. *)
Variable srot : option (list Z).

(** Variables of the loop: states, idx, basisvectors_triplets, hamiltonian_triplets. *)
Record acc := Acc { a_tbl : list (nat * state1); a_idx : nat;
                    a_bt : list (nat * nat * K); a_ht : list (nat * nat * K) }.

(** SystemOne.cpp:812-826 addBasisvectors *)
Definition addBasisvectors (st : state1) (v : K) (a : acc) : acc :=
  match tfind eq1 (a_tbl a) st with
  | Some row => Acc (a_tbl a) (a_idx a) (a_bt a ++ [(row, a_idx a, v)]) (a_ht a)
  | None => Acc (a_tbl a ++ [(length (a_tbl a), st)]) (a_idx a)
                (a_bt a ++ [(length (a_tbl a), a_idx a, v)]) (a_ht a)
  end.

(** (-1)^(L + M - J) of integer exponent *)
Definition sgnZ (k : Z) : K := if Z.even k then s1 else sopp s1.

(** SystemOne.cpp:775-809 addSymmetrizedBasisvectors *)
Definition addSymmetrized (st : state1) (e : K) (sy : parity) (a : acc) : acc * res unit :=
  match sy with
  | NA => let a1 := Acc (a_tbl a) (a_idx a) (a_bt a) (a_ht a ++ [(a_idx a, a_idx a, e)]) in
          let a2 := addBasisvectors st s1 a1 in
          (Acc (a_tbl a2) (S (a_idx a2)) (a_bt a2) (a_ht a2), Ok tt)
  | _ =>
    match getM2 st with
    | Ok mm =>
      if mm <? 0 then (a, Ok tt)
      else
        let a1 := Acc (a_tbl a) (a_idx a) (a_bt a) (a_ht a ++ [(a_idx a, a_idx a, e)]) in
        let v := if mm =? 0 then s1 else rt in
        let a2 := addBasisvectors st v a1 in
        if mm =? 0 then (Acc (a_tbl a2) (S (a_idx a2)) (a_bt a2) (a_ht a2), Ok tt)
        else match iu, getReflected hs hi hf st with
             | Some i, Ok str =>
                 let w := smul (smul v (smul (sgnZ (l st + (m2 st - j2 st) / 2)) i))
                               (match sy with EVEN => s1 | _ => sopp s1 end) in
                 let a3 := addBasisvectors str w a2 in
                 (Acc (a_tbl a3) (S (a_idx a3)) (a_bt a3) (a_ht a3), Ok tt)
             | _, _ => (a2, Throw)
             end
    | _ => (a, Throw)
    end
  end.

(** Loop with early exit by exception. *)
Fixpoint loop {X : Type} (f : X -> acc -> acc * res unit) (xs : list X) (a : acc) : acc * res unit :=
  match xs with
  | [] => (a, Ok tt)
  | x :: xs' => match f x a with (a1, Ok _) => loop f xs' a1 | r => r end
  end.

(** SystemOne.cpp:178-181 *)
Definition spin2 : res Z :=
  match str_last species with
  | None => UB
  | Some c => if is_digit c then Ok (Z.of_N (N_of_ascii c) - 48 - 1) else Ok 1
  end.

Variable rq : @request K state1.

(** checkIsEnergyValid (SystemBase.cpp:1414-1419) *)
Definition enValid (e : K) : bool :=
  (match rq_emin rq with None => true | Some a => sltre a e end) &&
  (match rq_emax rq with None => true | Some b => sltre e b end).

(** SystemOne.cpp:236-244 range_allowed_m *)
Definition allowed_m (jj : Z) : list Z :=
  let ra := if is_nil (rg_m (rq_rg rq)) then zrange 2 (- jj) jj else rg_m (rq_rg rq) in
  match srot with
  | None => ra
  | Some ms => filter (fun m => existsb (Z.eqb m) ra) ms
  end.

(** SystemOne.cpp:246-264 *)
Definition loop_m (nn ll jj : Z) (e : K) : acc -> acc * res unit :=
  loop (fun mm a =>
    if jj <? Z.abs mm then (a, Ok tt)
    else match mkOne hs hi hf species nn ll jj mm with
         | Ok st =>
             match sref with
             | NA => addSymmetrized st e sref a
             | _ => if negb (mm =? 0) && negb (existsb (Z.eqb (- mm)) (allowed_m jj))
                    then (a, Throw) else addSymmetrized st e sref a
             end
         | Throw => (a, Throw)
         | UB => (a, UB)
         end) (allowed_m jj).

(** SystemOne.cpp:216-266 *)
Definition loop_j (s2 nn ll : Z) : acc -> acc * res unit :=
  loop (fun jj a =>
    if (s2 <? Z.abs (jj - 2 * ll)) || (jj <? 0) then (a, Ok tt)
    else match energy species nn ll jj with
         | Ok e => if enValid e then loop_m nn ll jj e a else (a, Ok tt)
         | Throw => (a, Throw)
         | UB => (a, UB)
         end)
    (if is_nil (rg_j (rq_rg rq)) then zrange 2 (Z.abs (2 * ll - s2)) (2 * ll + s2) else rg_j (rq_rg rq)).

(** SystemOne.cpp:203-267 *)
Definition loop_l (s2 nn : Z) : acc -> acc * res unit :=
  loop (fun ll a =>
    if (nn - 1 <? ll) || (ll <? 0) then (a, Ok tt) else loop_j s2 nn ll a)
    (if is_nil (rg_l (rq_rg rq)) then zrange 1 0 (nn - 1) else rg_l (rq_rg rq)).

Definition loop_n (s2 : Z) : acc -> acc * res unit := loop (loop_l s2) (rg_n (rq_rg rq)).

(** SystemOne.cpp:273-283 *)
Definition check_added (st : state1) (a : acc) : acc * res unit :=
  match tfind eq1 (a_tbl a) st with
  | Some _ => (a, Throw)
  | None => if negb (isArtificial st) && negb (String.eqb (StateModel.species st) species) then (a, Throw) else (a, Ok tt)
  end.

(** SystemOne.cpp:285-318 *)
Definition add_one (st : state1) (a : acc) : acc * res unit :=
  match (if isArtificial st then Ok s0 else energy (StateModel.species st) (n st) (l st) (j2 st)) with
  | Throw => (a, Throw)
  | UB => (a, UB)
  | Ok e =>
    let sy := if isArtificial st then NA else sref in
    let ro := if isArtificial st then None else srot in
    if match ro with None => false | Some ms => negb (existsb (Z.eqb (m2 st)) ms) end then (a, Ok tt)
    else match sy with
         | NA => addSymmetrized st e sy a
         | _ => if negb (m2 st =? 0) then
                  match getReflected hs hi hf st with
                  | Ok str => if existsb (eq1 str) (rq_add rq) then addSymmetrized st e sy a else (a, Throw)
                  | _ => (a, Throw)
                  end
                else addSymmetrized st e sy a
         end
  end.

(** SystemOne.cpp:163-331: states and, unless it threw, (basisvectors, hamiltonian). *)
Definition initBasis1 : list (nat * state1) * res (mat K * mat K) :=
  if is_nil (rg_n (rq_rg rq)) then ([], Throw)
  else match spin2 with
       | UB => ([], UB) | Throw => ([], Throw)
       | Ok s2 =>
         let step1 := loop_n s2 (Acc [] 0 [] []) in
         let step2 := match step1 with (a, Ok _) => loop check_added (rq_add rq) a | r => r end in
         let step3 := match step2 with (a, Ok _) => loop add_one (rq_add rq) a | r => r end in
         match step3 with
         | (a, Ok _) => (a_tbl a, Ok (mtrip (length (a_tbl a)) (a_idx a) (a_bt a),
                                      mtrip (a_idx a) (a_idx a) (a_ht a)))
         | (a, Throw) => (a_tbl a, Throw)
         | (a, UB) => (a_tbl a, UB)
         end
       end.

End Basis.
