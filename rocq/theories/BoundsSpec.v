(** Specification vocabulary for C103: diagonalization with a threshold and in an energy window.  Nothing here refers to the code. *)
From Coq Require Import Bool Arith Reals List.
Import ListNotations.
From Verif Require Import Base Matrix FieldModel.
Set Implicit Arguments.
Local Open Scope R_scope.

(** [f 0 + ... + f (n-1)] *)
Fixpoint total (n : nat) (f : nat -> R) : R := match n with O => 0 | S k => total k f + f k end.
(** |z|^2 *)
Definition square_of (z : CR) : R := fst z * fst z + snd z * snd z.
(** The squared norm of column [j]. *)
Definition norm2 (B : mat CR) (j : nat) : R := total (nr B) (fun i => square_of (at_ B i j)).
(** The diagonal matrix with the entries [es]. *)
Definition diagm (es : list R) : mat CR :=
  Mat (length es) (length es) (fun i j => if Nat.eqb i j then ofR (nth i es 0) else (0, 0)).
(** [X] holds orthonormal eigenvectors of [H] with the eigenvalues [es]. *)
Definition eigenpairs (H X : mat CR) (es : list R) : Prop :=
  nr X = nr H /\ nc X = length es /\ isometry X /\ meq (mmul H X) (mmul X (diagm es)).
Definition inside (lo hi e : R) : Prop := lo <= e <= hi.
Definition insideb (lo hi e : R) : bool := if Rle_dec lo e then (if Rle_dec e hi then true else false) else false.
(** Every eigenvector of [H] with an eigenvalue in the window that is orthogonal to the columns of [X] vanishes. *)
Definition all_found (H X : mat CR) (lo hi : R) : Prop :=
  forall (v : mat CR) e, nr v = nr H -> nc v = 1%nat -> inside lo hi e -> meq (mmul H v) (mscale (ofR e) v) ->
  meq (mmul (madj X) v) (mzero (nc X) 1) -> meq v (mzero (nr H) 1).

(** What Intel documents of FEAST for one call on the matrix [H] with room for [m] eigenvalues and the answer [r]:
    if the window contains at most [m] eigenvalues, they are all returned with orthonormal eigenvectors. *)
Definition feast_contract (H : mat CR) (lo hi : R) (m : nat) (r : option (list R * mat CR)) : Prop :=
  forall U ds, eigenpairs H U ds -> length ds = nr H -> (length (filter (insideb lo hi) ds) <= m)%nat ->
  exists es X, r = Some (es, X) /\ eigenpairs H X es /\ Forall (inside lo hi) es /\ all_found H X lo hi.
(** ... and if [m] orthonormal eigenvectors are fewer than there are, it reports an error (info = 3). *)
Definition feast_refuses (H : mat CR) (lo hi : R) (m : nat) (r : option (list R * mat CR)) : Prop :=
  forall X es, eigenpairs H X es -> Forall (inside lo hi) es -> (m < length es)%nat -> r = None.
