(** Specification of the Schrieffer-Wolff transformation: what the library functions used by the
    code are assumed to compute, and the notions in which the result is described.  No proofs. *)
From Verif Require Import Base Matrix FieldModel.
From Coq Require Import ZArith Bool Arith Reals List Permutation.
Import ListNotations.
Set Implicit Arguments.
Local Open Scope R_scope.

(** <x, M x> *)
Definition qform (n : nat) (M : mat CR) (x : nat -> CR) : CR :=
  bsum (K := CR) n (fun i => smul (sconj (x i)) (bsum (K := CR) n (fun j => smul (at_ M i j) (x j)))).
(** Re <x, M x> > 0 for all vectors x that are not zero. *)
Definition accretive (n : nat) (M : mat CR) : Prop :=
  forall x : nat -> CR, (exists i, (i < n)%nat /\ x i <> @s0 CR) -> 0 < fst (qform n M x).


(** A square matrix of dimension k that is Hermitian and positive definite. *)
Definition posdef (k : nat) (M : mat CR) : Prop := nr M = k /\ nc M = k /\ hermitian M /\ accretive k M.
(** M x = 0 only for x = 0. *)
Definition injective (M : mat CR) : Prop :=
  forall x, nr x = nc M -> nc x = 1%nat -> meq (mmul M x) (mzero (nr M) 1) -> meq x (mzero (nc M) 1).
(** No vector but 0 in the space spanned by the columns of A is orthogonal to all columns of B, and
    the other way round. *)
Definition transversal (A B : mat CR) : Prop := injective (mmul (madj B) A) /\ injective (mmul (madj A) B).

(** The principal square root of a unitary matrix. *)
Definition principal_root (n : nat) (W U : mat CR) : Prop :=
  unitary n U /\ meq (mmul U U) W /\ accretive n U.
(** -1 is not an eigenvalue. *)
Definition minus_one_free (n : nat) (W : mat CR) : Prop :=
  forall x, nr x = n -> nc x = 1%nat -> meq (mmul W x) (mscale (sopp s1) x) -> meq x (mzero n 1).
(** Eigen's matrix square root, for unitary matrices (for which -1 is the only possible eigenvalue on
    the branch cut). *)
Definition root_ok (msqrt : mat CR -> option (mat CR)) : Prop :=
  forall n W U, unitary n W -> minus_one_free n W -> msqrt W = Some U -> principal_root n W U.

(** std::nth_element with the comparison key(a) > key(b). *)
Definition select_ok (nth_element : nat -> nat -> (nat -> CR) -> list nat) : Prop :=
  forall k n key, (k <= n)%nat ->
    Permutation (nth_element k n key) (seq 0 n) /\
    forall a b, In a (firstn k (nth_element k n key)) -> In b (skipn k (nth_element k n key)) -> fst (key b) <= fst (key a).

(** The columns of M with the given numbers. *)
Definition columns (M : mat CR) (idx : list nat) : mat CR :=
  Mat (nr M) (length idx) (fun i c => at_ M i (nth c idx 0%nat)).
(** The total probability of the vectors B0 in the vector x. *)
Definition weight (B0 : mat CR) (x : nat -> CR) : R :=
  fold_right Rplus 0 (map (fun c =>
     let z := bsum (K := CR) (nr B0) (fun i => smul (sconj (at_ B0 i c)) (x i)) in fst z * fst z + snd z * snd z) (seq 0 (nc B0))).
