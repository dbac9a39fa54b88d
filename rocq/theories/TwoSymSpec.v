(** Symmetries of the interaction of two atoms, in terms of the data of one pair of states.  No proofs. *)
From Coq Require Import ZArith Bool Reals String List.
Import ListNotations.
From Verif Require Import Base StateModel MEModel MESpec Matrix OverlapProofs FieldModel GreenModel TwoModel.
Set Implicit Arguments.
Local Open Scope R_scope.

(** (-1)^q *)
Definition par (q : Z) : R := if Z.even q then 1 else -1.
Definition rmap (f : cx -> cx) (r : res cx) : res cx := match r with Ok v => Ok (f v) | Throw => Throw | UB => UB end.
Definition times (s : R) (v : cx) : cx := (s * fst v, s * snd v).

(** Row and column interchanged: q changes its sign and the elements get the factor (-1)^q. *)
Definition transposed (p p' : pdata) : Prop :=
  pq1 p' = (- pq1 p)%Z /\ pq2 p' = (- pq2 p)%Z /\
  (forall k, psel1 p' k = psel1 p k) /\ (forall k, psel2 p' k = psel2 p k) /\
  (forall k, pM1 p' k = par (pq1 p) * pM1 p k) /\ (forall k, pM2 p' k = par (pq2 p) * pM2 p k).
(** The atoms interchanged *)
Definition swapped (p : pdata) : pdata := PData (pq2 p) (pq1 p) (psel2 p) (psel1 p) (pM2 p) (pM1 p).
(** Parity: an operator of rank k connects states whose orbital momenta add up to a number of the parity of k. *)
Definition parity_law (p : pdata) (l1 l2 : Z) : Prop :=
  (forall k, psel1 p k = true -> Z.even (Z.of_nat k + l1) = true) /\ (forall k, psel2 p k = true -> Z.even (Z.of_nat k + l2) = true).
(** Both states reflected at the xz plane: q changes its sign and the elements of one atom get a common factor +-1. *)
Definition reflected_data (p p' : pdata) (f1 f2 : R) : Prop :=
  pq1 p' = (- pq1 p)%Z /\ pq2 p' = (- pq2 p)%Z /\
  (forall k, psel1 p' k = psel1 p k) /\ (forall k, psel2 p' k = psel2 p k) /\
  (forall k, pM1 p' k = f1 * pM1 p k) /\ (forall k, pM2 p' k = f2 * pM2 p k).

(** ** States and matrix elements of one atom *)
(** The states of an atom: artificial ones, and physical ones of one species *)
Definition atom_states (ss : list state1) : Prop :=
  (forall a, In a ss -> isArtificial a = true \/ physical a) /\
  (forall a c, In a ss -> In c ss -> isArtificial a = false -> isArtificial c = false -> same_atom a c).
(** [el a c k] is what getElectricMultipole(a, c, k) returns (getElectricMultipole(a, c, 2, 0) for k = 0) *)
Definition calculated (radial : string -> Z -> string -> Z -> Z -> Z -> Z -> Z -> Z -> Z -> res R) (e : R) (dn : string) (mth : Z)
    (ss : list state1) (el : state1 -> state1 -> nat -> R) : Prop :=
  forall a c k, In a ss -> In c ss -> isArtificial a = false -> isArtificial c = false ->
  MESpec.multipole radial e dn mth a c (if Nat.eqb k 0 then 2 else Z.of_nat k) (Z.of_nat k) = Ok (el a c k).
(** Both atoms of the pair state are in states of these lists. *)
Definition pair_of (ss1 ss2 : list state1) (x : state2) : Prop := In (fst1 x) ss1 /\ In (snd1 x) ss2.
(** (-1)^(l1 + l2) *)
Definition parity2 (x : state2) : R := par (l (fst1 x) + l (snd1 x)).
(** The same state with opposite magnetic quantum number *)
Definition mirror1 (a a' : state1) : Prop :=
  species a' = species a /\ n a' = n a /\ l a' = l a /\ j2 a' = j2 a /\ s2 a' = s2 a /\ m2 a' = (- m2 a)%Z.
Definition mirror2 (x x' : state2) : Prop := mirror1 (fst1 x) (fst1 x') /\ mirror1 (snd1 x) (snd1 x').
(** Reflection at the xz plane maps |l j m> to (-1)^(l + j - m) |l j -m>. *)
Definition reflection_sign (a : state1) : R := par (l a + (j2 a - m2 a) / 2).
Definition reflection_sign2 (x : state2) : R := reflection_sign (fst1 x) * reflection_sign (snd1 x).
(** Total magnetic quantum number, doubled *)
Definition momentum2 (x : state2) : Z := (m2 (fst1 x) + m2 (snd1 x))%Z.

(** <u|V|w> for vectors u, w given by their components on the states of two tables (index, state) *)
Definition coupling (V : state2 -> state2 -> CR) (tbl tbl' : list (nat * state2)) (u w : nat -> CR) : CR :=
  lsum (fun e => lsum (fun e' => smul (s := CR) (sconj (s := CR) (u (fst e))) (smul (s := CR) (V (snd e) (snd e')) (w (fst e')))) tbl') tbl.
