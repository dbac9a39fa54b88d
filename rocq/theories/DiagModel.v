(** Model of Hamiltonianmatrix::diagonalize, with which the command line program diagonalizes the one-atom and pair Hamiltonians
    (Hamiltonianmatrix.cpp:268-290, called at HamiltonianOne.cpp:623 and HamiltonianTwo.cpp:855).  No proofs in this file.

    Numbers are exact complex numbers; Scalar = double is the case of imaginary parts 0.  Eigen's SelfAdjointEigenSolver is an oracle; its
    info() is not looked at, neither by the code nor here. *)
From Coq Require Import ZArith Bool Arith Reals List.
Import ListNotations.
From Verif Require Import Base Matrix FieldModel.
Set Implicit Arguments.
Local Open Scope R_scope.

(** entries() and basis() of a Hamiltonianmatrix (Hamiltonianmatrix.hpp:90-93) *)
Record hmat := HMat { entries : mat CR; basis : mat CR }.

(** Eigen's sparseView(1e-4, 0.5) and pruned(1e-4, 0.5) (lines 277, 286): coefficients with |x| <= 1e-4 * 0.5 are removed *)
Definition cut : R := 1 / 10000 * (1 / 2).
Definition pruned (A : mat CR) : mat CR :=
  Mat (nr A) (nc A) (fun i j => let x := at_ A i j in
    if Rle_dec (sqrt (fst x * fst x + snd x * snd x)) cut then ((0, 0) : CR) else x).

(** lines 280-284: the diagonal matrix of the eigenvalues *)
Definition diagonal_of (es : list R) : mat CR :=
  Mat (length es) (length es) (fun i j => if Nat.eqb i j then ofR (nth i es 0) else ofR 0).

(** Hamiltonianmatrix.cpp:268-290.  [solver]: eigenvalues and eigenvectors of the self-adjoint matrix whose lower triangle is given *)
Definition diagonalize (solver : mat CR -> list R * mat CR) (m : hmat) : hmat :=
  if (1 <? nc (basis m))%nat then
    let (es, U) := solver (lowerView (entries m)) in
    HMat (diagonal_of es) (pruned (mmul (basis m) (pruned U)))
  else m.
