(** Model of the bases of the command line program: Basisnames.hpp/.cpp, StateOld.hpp/.cpp.  No proofs.

    Quantum numbers j and m are floats in the code; here they are doubled integers (2j, 2m).  Sums and differences of
    half-integers below 2^22 are exact in float and double, the model is meant for those. *)
From Verif Require Import Base.
From Coq Require Import ZArith Lia Bool List.
Import ListNotations.
Set Implicit Arguments.
Local Open Scope Z_scope.

(** idx_t is uint32_t (StateOld.hpp:33) *)
Definition wrap (x : Z) : Z := x mod 2 ^ 32.

(** StateOneOld (StateOld.hpp:46-60); species is not set by the constructor used here (StateOld.cpp:62-65) *)
Record one := One { idx : Z; n_ : Z; l_ : Z; jj : Z; mm : Z }.
Definition set_idx (s : one) (i : Z) : one := One i (n_ s) (l_ s) (jj s) (mm s).
(** operator== (StateOld.cpp:88-91) and operator< (103-108) *)
Definition oeqb (a b : one) : bool := (n_ a =? n_ b) && (l_ a =? l_ b) && (jj a =? jj b) && (mm a =? mm b).
Definition oltb (a b : one) : bool :=
  (n_ a <? n_ b) || ((n_ a =? n_ b) && ((l_ a <? l_ b) || ((l_ a =? l_ b) && ((jj a <? jj b) || ((jj a =? jj b) && (mm a <? mm b)))))).

(** StateTwoOld, built from two StateOneOld (StateOld.cpp:171-174): first and second component with their own quantum numbers *)
Record two := Two { idx2 : Z; fst_ : one; snd_ : one }.
Definition set_idx2 (s : two) (i : Z) : two := Two i (fst_ s) (snd_ s).
(** operator== (StateOld.cpp:226-229) *)
Definition teqb (a b : two) : bool := oeqb (fst_ a) (fst_ b) && oeqb (snd_ a) (snd_ b).
(** order() (StateOld.cpp:249-257) *)
Definition order (a b : one) : one * one :=
  if (n_ a <? n_ b) || ((n_ a =? n_ b) && ((l_ a <? l_ b) || ((l_ a =? l_ b) && ((jj a <? jj b) || ((jj a =? jj b) && (mm a <=? mm b))))))
  then (a, b) else (b, a).

(** for (x = lo; x <= hi; x += step) *)
Definition upto (lo hi step : Z) : list Z :=
  map (fun k => lo + step * Z.of_nat k) (seq 0 (Z.to_nat ((hi - lo) / step + 1))).

(** deltaNSingle etc. are ints (Basisnames.hpp:63) *)
Record deltas := Deltas { dn : Z; dl : Z; dj : Z; dm : Z }.

(** Basisnames.cpp:192-200: the value of a double assigned to an int is truncated (Z.quot).  2 delta_j = 2j + 2n + 2 delta_n - 1 *)
Definition fill (d : deltas) (l j m n : Z) : deltas :=
  Deltas (dn d) (if dl d <? 0 then l + n + dn d - 1 else dl d)
    (if dj d <? 0 then Z.quot (j + 2 * n + 2 * dn d - 1) 2 else dj d)
    (if dm d <? 0 then Z.quot (m + 2 * n + 2 * dn d - 1) 2 else dm d).

(** The four nested loops (Basisnames.cpp:203-214): all (n, l, j, m) in the order in which they are visited *)
Definition ranges (s : one) (d : deltas) : list (Z * Z * Z * Z) :=
  flat_map (fun n => flat_map (fun l => flat_map (fun j => map (fun m => (n, l, j, m))
      (upto (Z.max (- j) (mm s - 2 * dm d)) (Z.min j (mm s + 2 * dm d)) 2))
    (upto (Z.max (Z.abs (2 * l - 1)) (jj s - 2 * dj d)) (Z.min (2 * l + 1) (jj s + 2 * dj d)) 2))
    (upto (Z.max 0 (l_ s - dl d)) (Z.min (n - 1) (l_ s + dl d)) 1))
    (upto (Z.max 0 (n_ s - dn d)) (n_ s + dn d) 1).

(** names_.emplace_back(idx++, n, l, j, m) *)
Fixpoint number (i : Z) (qs : list (Z * Z * Z * Z)) : list one :=
  match qs with [] => [] | (n, l, j, m) :: qs => One i n l j m :: number (wrap (i + 1)) qs end.

(** A BasisnamesOne: dim_, names_, states_initial *)
Record names_one := NamesOne { dim1 : Z; names1 : list one; initial1 : list one }.
Record names_two := NamesTwo { dim2 : Z; names2 : list two; initial2 : two }.

(** build(StateOneOld, species) (Basisnames.cpp:177-217).  The idx of a start state is 0 (StateOld.cpp:60). *)
Definition build1 (s : one) (d : deltas) : names_one :=
  let qs := ranges s (fill d (l_ s) (jj s) (mm s) (n_ s)) in
  NamesOne (wrap (Z.of_nat (length qs))) (number 0 qs) [s].

(** names_set.insert(StateOneOld(idx, ...)); idx++ if it was new (Basisnames.cpp:149-153, 163-168, 239-246) *)
Fixpoint insert_all (i : Z) (set : list one) (qs : list (Z * Z * Z * Z)) : Z * list one :=
  match qs with
  | [] => (i, set)
  | (n, l, j, m) :: qs =>
      let s := One i n l j m in
      if existsb (oeqb s) set then insert_all i set qs else insert_all (wrap (i + 1)) (set ++ [s]) qs
  end.
(** std::set<StateOneOld>: ordered by operator<, equivalent elements are not inserted *)
Fixpoint oinsert (s : one) (l : list one) : list one :=
  match l with [] => [s] | x :: r => if oltb s x then s :: l else if oltb x s then x :: oinsert s r else l end.
Definition osort (l : list one) : list one := fold_left (fun a s => oinsert s a) l [].

(** build(StateTwoOld, species) (Basisnames.cpp:113-176), called with startstate.order() (line 95) *)
Definition build_both (a b : one) (d : deltas) : names_one :=
  let s := order a b in
  let d := fill d (Z.max (l_ (fst s)) (l_ (snd s))) (Z.max (jj (fst s)) (jj (snd s))) (Z.max (mm (fst s)) (mm (snd s))) (Z.max (n_ (fst s)) (n_ (snd s))) in
  let r := insert_all 0 [] (ranges (fst s) d ++ ranges (snd s) d) in
  NamesOne (fst r) (osort (snd r)) [fst s; snd s].

Definition quad (s : one) : Z * Z * Z * Z := (n_ s, l_ s, jj s, mm s).
(** build(StateOneOld, species, basis_two, i) (Basisnames.cpp:218-252) *)
Definition build_from_two (s : one) (b : names_two) (second : bool) : names_one :=
  let r := insert_all 0 [] (map (fun t => quad (if second then snd_ t else fst_ t)) (names2 b)) in
  NamesOne (fst r) (osort (snd r)) [s].

(** vector<bool>::operator[]: out of range is undefined *)
Definition mask_at (mask : list bool) (i : Z) : res bool :=
  if i <? 0 then UB else match nth_error mask (Z.to_nat i) with Some b => Ok b | None => UB end.

(** BasisnamesOne::removeUnnecessaryStates (Basisnames.cpp:254-272); states_initial is not updated *)
Fixpoint remove1_loop (mask : list bool) (i : Z) (l : list one) : res (list one * Z) :=
  match l with
  | [] => Ok ([], i)
  | s :: l =>
      do! b <- mask_at mask (idx s);
      if b then do! r <- remove1_loop mask (wrap (i + 1)) l; Ok (set_idx s i :: fst r, snd r)
      else remove1_loop mask i l
  end.
Definition remove1 (b : names_one) (mask : list bool) : res names_one :=
  do! r <- remove1_loop mask 0 (names1 b); Ok (NamesOne (snd r) (fst r) (initial1 b)).

(** BasisnamesTwo::build (Basisnames.cpp:395-432) *)
Fixpoint scan_initial (init : two) (found : bool) (l : list two) : two :=
  match l with
  | [] => init
  | t :: l => if negb found && teqb t init then scan_initial (set_idx2 init (idx2 t)) true l else scan_initial init found l
  end.
Fixpoint number2 (i : Z) (ps : list (one * one)) : list two :=
  match ps with [] => [] | (a, b) :: ps => Two i a b :: number2 (wrap (i + 1)) ps end.
Definition build2 (start : one * one) (b1 b2 : names_one) : names_two :=
  let ps := flat_map (fun a => map (fun b => (a, b)) (names1 b2)) (names1 b1) in
  let l := number2 0 ps in
  NamesTwo (wrap (Z.of_nat (length ps))) l (scan_initial (Two 0 (fst start) (snd start)) false l).

(** BasisnamesTwo::removeUnnecessaryStates (Basisnames.cpp:352-376) *)
Fixpoint remove2_loop (mask : list bool) (i : Z) (l : list two) : res (list two * Z) :=
  match l with
  | [] => Ok ([], i)
  | s :: l =>
      do! b <- mask_at mask (idx2 s);
      if b then do! r <- remove2_loop mask (wrap (i + 1)) l; Ok (set_idx2 s i :: fst r, snd r)
      else remove2_loop mask i l
  end.
Definition remove2 (b : names_two) (mask : list bool) : res names_two :=
  do! r <- remove2_loop mask 0 (names2 b); Ok (NamesTwo (snd r) (fst r) (scan_initial (initial2 b) false (fst r))).
(** BasisnamesTwo::removeUnnecessaryStatesKeepIdx (Basisnames.cpp:378-392) *)
Fixpoint keep_loop (mask : list bool) (l : list two) : res (list two) :=
  match l with
  | [] => Ok []
  | s :: l => do! b <- mask_at mask (idx2 s); do! r <- keep_loop mask l; Ok (if b then s :: r else r)
  end.
Definition remove2_keep (b : names_two) (mask : list bool) : res names_two :=
  do! r <- keep_loop mask (names2 b); Ok (NamesTwo (dim2 b) r (initial2 b)).
