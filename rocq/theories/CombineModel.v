(** Model of the pair basis of the command line program: Hamiltonianmatrix.cpp combine (538-757), energycutoff (759-787),
    removeUnnecessaryStates (227-250), removeUnnecessaryBasisvectors (192-225), HamiltonianTwo.cpp (186-390).  No proofs.

    Quantum numbers j and m are doubled integers as in BasisnamesModel. *)
From Verif Require Import Base Matrix BasisnamesModel.
From Coq Require Import ZArith Lia Bool List.
Import ListNotations.
Set Implicit Arguments.

(** Symmetry.hpp:26-37; rotation is an int, NA = INT_MAX is [None] *)
Inductive par := NA | EVEN | ODD.
Record symmetry := Sym { inv : par; ref : par; per : par; rot : option Z }.
Definition used (p : par) : bool := match p with NA => false | _ => true end.

(** int parity = std::pow(-1, x) for an integer x *)
Definition sg (x : Z) : Z := if Z.even x then 1%Z else (-1)%Z.
(** the same for a doubled number; pow(-1, 1.5) is NaN, its conversion to int is undefined *)
Definition psign (x2 : Z) : res Z := if Z.even x2 then Ok (sg (x2 / 2)) else UB.

Section Combine.
Variable K : StarRing.
(** 1/sqrt(2) *)
Variable rt : K.
(** std::abs(val) < deltaE + 1e-11 || deltaE < 0 *)
Variable keep : K -> bool.

(** A Hamiltonianmatrix whose entries are diagonal (the code assumes it: line 575): number of coordinates, columns of the
    sparse matrix basis() in the order of the InnerIterator, entries().diagonal().  After [combine] a column is the list
    of the triplets of that column; setFromTriplets adds up triplets with equal row, [coef] in CombineSpec does so. *)
Record hmat := HMat { coords : nat; bcols : list (list (nat * K)); ediag : list K }.

(** multiplication with an int that is 1 or -1 *)
Definition sc (z : Z) (x : K) : K := if (z =? 1)%Z then x else sopp x.

(** vector::operator[] *)
Definition at_vec {A} (l : list A) (i : nat) : res A := match nth_error l i with Some x => Ok x | None => UB end.
Fixpoint set_vec {A} (l : list A) (i : nat) (x : A) : res (list A) :=
  match l, i with
  | [], _ => UB
  | _ :: l, O => Ok (x :: l)
  | y :: l, S i => do! r <- set_vec l i x; Ok (y :: r)
  end.

(** mapping for the reflection (Hamiltonianmatrix.cpp:549-573) *)
Definition neg_m (s : one) : one := One (idx s) (n_ s) (l_ s) (jj s) (- mm s)%Z.
Definition flip (t : two) : two := Two (idx2 t) (neg_m (fst_ t)) (neg_m (snd_ t)).
(** buffer[state] = state.idx: later assignments first *)
Definition buffer (names : list two) : list (two * Z) :=
  fold_left (fun b t => if (mm (fst_ t) <? 0)%Z then b else (flip t, idx2 t) :: b) names [].
(** buffer[state]: a missing key is inserted with the value 0 *)
Definition buf_get (b : list (two * Z)) (t : two) : Z :=
  match find (fun e => teqb t (fst e)) b with Some e => snd e | None => 0%Z end.
(** the value size_t(-1) of an entry that was not set is [None] *)
Fixpoint map_loop (b : list (two * Z)) (twoways : bool) (names : list two) (m : list (option nat)) : res (list (option nat)) :=
  match names with
  | [] => Ok m
  | t :: ts =>
      if (0 <? mm (fst_ t))%Z then map_loop b twoways ts m else
      do! m <- set_vec m (Z.to_nat (buf_get b t)) (Some (Z.to_nat (idx2 t)));
      do! m <- (if twoways then set_vec m (Z.to_nat (idx2 t)) (Some (Z.to_nat (buf_get b t))) else Ok m);
      map_loop b twoways ts m
  end.
Definition mapping (sym : symmetry) (names : list two) (num : nat) : res (list (option nat)) :=
  if used (ref sym) then map_loop (buffer names) (used (inv sym) || used (per sym)) names (repeat None num)
  else Ok (repeat None num).

(** the signs of lines 641-652, 661-666, 675-680 *)
Definition invsign (sym : symmetry) (pL : Z) : Z := match inv sym with EVEN => (- pL)%Z | _ => pL end.
Definition refsign (sym : symmetry) (pL pJ pM : Z) : Z := match ref sym with EVEN => (pL * pJ * pM)%Z | _ => (- pL * pJ * pM)%Z end.
Definition persign (sym : symmetry) : Z := match per sym with EVEN => (-1)%Z | _ => 1%Z end.

(** mat.addBasis(row, ...): a row that does not exist (size_t(-1) converted to idx_t, or too large) is stored by
    compress() outside of the matrix *)
Definition put (num : nat) (r : option nat) (v : K) : res (list (nat * K)) :=
  match r with Some r => if Nat.ltb r num then Ok [(r, v)] else UB | None => UB end.

(** Body of the two inner loops (Hamiltonianmatrix.cpp:623-737): what a pair of entries (r1, v1) of column col_1 and (r2, v2) of
    column col_2 adds to the column of the result; [dif] is col_1 != col_2 *)
Definition one_entry (sym : symmetry) (names : list two) (map : list (option nat)) (n2 num : nat) (dif : bool)
    (e1 e2 : nat * K) : res (list (nat * K)) :=
  let row := (n2 * fst e1 + fst e2)%nat in
  let swp := (n2 * fst e2 + fst e1)%nat in
  do! t <- at_vec names row;
  let M2 := (mm (fst_ t) + mm (snd_ t))%Z in
  let pL := sg (l_ (fst_ t) + l_ (snd_ t)) in
  do! pJ <- psign (jj (fst_ t) + jj (snd_ t));
  do! pM <- psign M2;
  do! mr <- (if used (ref sym) then at_vec map row else Ok None);
  let self := match mr with Some r => Nat.eqb r swp | None => false end in
  let invref := used (inv sym) && dif && used (ref sym) && self in
  let perref := used (per sym) && dif && used (ref sym) && self in
  let invper := used (inv sym) && used (per sym) && dif in
  let rs := refsign sym pL pJ pM in
  let is := invsign sym pL in
  if invref && negb (is =? rs)%Z then Ok [] else
  if perref && negb (persign sym =? rs)%Z then Ok [] else
  let skip_reflection := invref || perref in
  if invper && negb (is =? persign sym)%Z then Ok [] else
  let skip_permutation := invper in
  if match rot sym with
     | Some R => negb (2 * R =? M2)%Z && (negb (used (ref sym)) || negb (2 * R =? - M2)%Z)
     | None => false
     end then Ok [] else
  if used (ref sym) && (mm (fst_ t) <? 0)%Z && negb skip_reflection then Ok [] else
  let v := smul (snd e1) (snd e2) in
  let v := if used (ref sym) && negb skip_reflection then smul v rt else v in
  let v := if used (inv sym) && dif then smul v rt else v in
  let v := if used (per sym) && dif && negb skip_permutation then smul v rt else v in
  do! a0 <- put num (Some row) v;
  do! a1 <- (if used (ref sym) && negb skip_reflection then put num mr (sc rs v) else Ok []);
  do! a2 <- (if used (inv sym) && dif then put num (Some swp) (sc is v) else Ok []);
  do! a3 <- (if used (inv sym) && dif && used (ref sym) && negb skip_reflection
             then do! r <- at_vec map swp; put num r (sc is (sc rs v)) else Ok []);
  do! a4 <- (if used (per sym) && dif && negb skip_permutation then put num (Some swp) (sc (persign sym) v) else Ok []);
  do! a5 <- (if used (per sym) && dif && negb skip_permutation && used (ref sym) && negb skip_reflection
             then do! r <- at_vec map swp; put num r (sc (persign sym) (sc rs v)) else Ok []);
  Ok (a0 ++ a1 ++ a2 ++ a3 ++ a4 ++ a5).

(** for triple_1, for triple_2 *)
Fixpoint mapR {A B} (f : A -> res (list B)) (l : list A) : res (list B) :=
  match l with [] => Ok [] | x :: l => do! a <- f x; do! b <- mapR f l; Ok (a ++ b) end.
Definition column (sym : symmetry) (names : list two) (map : list (option nat)) (n2 num : nat) (dif : bool)
    (c1 c2 : list (nat * K)) : res (list (nat * K)) :=
  mapR (fun e1 => mapR (fun e2 => one_entry sym names map n2 num dif e1 e2) c2) c1.

(** the pairs that are skipped (lines 596-607) *)
Definition skipped (sym : symmetry) (c1 c2 : nat) : bool :=
  match inv sym with EVEN => Nat.leb c1 c2 | ODD => Nat.ltb c1 c2 | NA => false end ||
  match per sym with EVEN => Nat.leb c1 c2 | ODD => Nat.ltb c1 c2 | NA => false end.

(** the loops over col_1 and col_2 (lines 591-750); [existing] is true exactly if the column got an entry *)
Fixpoint combine_loop (lhs rhs : hmat) (names : list two) (sym : symmetry) (map : list (option nat)) (ps : list (nat * nat))
    : res (list (list (nat * K) * K)) :=
  match ps with
  | [] => Ok []
  | (c1, c2) :: ps =>
      if skipped sym c1 c2 then combine_loop lhs rhs names sym map ps else
      do! d1 <- at_vec (ediag lhs) c1;
      do! d2 <- at_vec (ediag rhs) c2;
      if keep (sadd d1 d2) then
        do! b1 <- at_vec (bcols lhs) c1;
        do! b2 <- at_vec (bcols rhs) c2;
        do! c <- column sym names map (coords rhs) (coords lhs * coords rhs) (negb (Nat.eqb c1 c2)) b1 b2;
        do! r <- combine_loop lhs rhs names sym map ps;
        Ok (match c with [] => r | _ => (c, sadd d1 d2) :: r end)
      else combine_loop lhs rhs names sym map ps
  end.
Definition all_pairs (n1 n2 : nat) : list (nat * nat) := flat_map (fun a => List.map (fun b => (a, b)) (seq 0 n2)) (seq 0 n1).
(** combine (Hamiltonianmatrix.cpp:538-757) *)
Definition combine (lhs rhs : hmat) (names : list two) (sym : symmetry) : res hmat :=
  do! map <- mapping sym names (coords lhs * coords rhs);
  do! r <- combine_loop lhs rhs names sym map (all_pairs (length (bcols lhs)) (length (bcols rhs)));
  Ok (HMat (coords lhs * coords rhs) (List.map fst r) (List.map snd r)).

(** energycutoff (Hamiltonianmatrix.cpp:759-787): the coordinates written with [necessary[row] = true], in the order of the writes *)
Fixpoint cutoff_loop (lhs rhs : hmat) (ps : list (nat * nat)) : res (list nat) :=
  match ps with
  | [] => Ok []
  | (c1, c2) :: ps =>
      do! d1 <- at_vec (ediag lhs) c1;
      do! d2 <- at_vec (ediag rhs) c2;
      if keep (sadd d1 d2) then
        do! b1 <- at_vec (bcols lhs) c1;
        do! b2 <- at_vec (bcols rhs) c2;
        do! r <- cutoff_loop lhs rhs ps;
        Ok (flat_map (fun e1 => List.map (fun e2 => (coords rhs * fst e1 + fst e2)%nat) b2) b1 ++ r)
      else cutoff_loop lhs rhs ps
  end.
Definition cutoff_writes (lhs rhs : hmat) : res (list nat) :=
  cutoff_loop lhs rhs (all_pairs (length (bcols lhs)) (length (bcols rhs))).
Fixpoint write_all (m : list bool) (ws : list nat) : res (list bool) :=
  match ws with [] => Ok m | w :: ws => do! m <- set_vec m w true; write_all m ws end.
Definition energycutoff (lhs rhs : hmat) (necessary : list bool) : res (list bool) :=
  do! ws <- cutoff_writes lhs rhs; write_all necessary ws.

(** Hamiltonianmatrix::removeUnnecessaryStates (227-250): the coordinates that are marked remain, in their order *)
Fixpoint rank (mask : list bool) (i : nat) : nat :=
  match mask, i with
  | b :: mask, S i => (if b then 1 else 0) + rank mask i
  | _, _ => 0
  end%nat.
Definition keep_rows (mask : list bool) (c : list (nat * K)) : list (nat * K) :=
  flat_map (fun e => if nth (fst e) mask false then [(rank mask (fst e), snd e)] else []) c.
Definition remove_states (h : hmat) (mask : list bool) : res hmat :=
  if Nat.ltb (length mask) (coords h) then UB else
  Ok (HMat (rank (firstn (coords h) mask) (coords h)) (List.map (keep_rows (firstn (coords h) mask)) (bcols h)) (ediag h)).

(** the value of basis().coeff(row, column): setFromTriplets (Hamiltonianmatrix.cpp:86-94) adds up the triplets of a position *)
Definition coef (c : list (nat * K)) (r : nat) : K :=
  fold_right (fun e a => if Nat.eqb (fst e) r then sadd (snd e) a else a) s0 c.

(** Hamiltonianmatrix::removeUnnecessaryBasisvectors() (192-225); [big] x: x > 0.05 *)
Variable big : K -> bool.
Definition weight (h : hmat) (c : list (nat * K)) : K := bsum (coords h) (fun r => smul (sconj (coef c r)) (coef c r)).
Definition remove_small (h : hmat) : hmat :=
  let r := filter (fun c => big (weight h (fst c))) (List.combine (bcols h) (ediag h)) in
  HMat (coords h) (List.map fst r) (List.map snd r).
End Combine.
Arguments coef {K} c r.
Arguments sc {K} z x.
Arguments bcols {K} h.
Arguments ediag {K} h.
Arguments coords {K} h.
Arguments HMat {K} coords bcols ediag.
Arguments combine {K} rt keep lhs rhs names sym.
Arguments combine_loop {K} rt keep lhs rhs names sym map ps.
Arguments column {K} rt sym names map n2 num dif c1 c2.
Arguments one_entry {K} rt sym names map n2 num dif e1 e2.
Arguments put {K} num r v.
Arguments energycutoff {K} keep lhs rhs necessary.
Arguments cutoff_writes {K} keep lhs rhs.
Arguments cutoff_loop {K} keep lhs rhs ps.
Arguments keep_rows {K} mask c.
Arguments remove_states {K} h mask.
Arguments weight {K} h c.
Arguments remove_small {K} big h.
