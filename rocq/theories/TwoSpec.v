(** Physics of the interaction of two atoms, independently of the code.  No proofs. *)
From Verif Require Import Base FieldModel GreenModel TwoModel.
From Coq Require Import ZArith Bool Reals List.
Import ListNotations.
Local Open Scope R_scope.

(** Spherical components of a vector, Racah normalisation: r C_{1,q} and r^2 C_{2,q} of the point
    (x, y, z). *)
Definition rC1 (x y z : R) (q : Z) : cx :=
  if Z.eqb q 1 then (- x / sqrt 2, - y / sqrt 2)
  else if Z.eqb q 0 then (z, 0)
  else if Z.eqb q (-1) then (x / sqrt 2, - y / sqrt 2)
  else (0, 0).
Definition rC2 (x y z : R) (q : Z) : cx :=
  if Z.eqb q 2 then (sqrt (3 / 8) * (x * x - y * y), sqrt (3 / 8) * (2 * x * y))
  else if Z.eqb q 1 then (- sqrt (3 / 2) * x * z, - sqrt (3 / 2) * y * z)
  else if Z.eqb q 0 then ((3 * z * z - (x * x + y * y + z * z)) / 2, 0)
  else if Z.eqb q (-1) then (sqrt (3 / 2) * x * z, - sqrt (3 / 2) * y * z)
  else if Z.eqb q (-2) then (sqrt (3 / 8) * (x * x - y * y), - sqrt (3 / 8) * (2 * x * y))
  else (0, 0).

(** Cartesian component i of a vector operator whose only spherical component is q, with value 1:
    x = (v_{-1} - v_{+1})/sqrt 2, y = i (v_{-1} + v_{+1})/sqrt 2, z = v_0. *)
Definition cart (i : nat) (q : Z) : cx :=
  match i with
  | O => if Z.eqb q 1 then (- (1 / sqrt 2), 0) else if Z.eqb q (-1) then (1 / sqrt 2, 0) else (0, 0)
  | S O => if Z.eqb q 1 || Z.eqb q (-1) then (0, 1 / sqrt 2) else (0, 0)
  | _ => if Z.eqb q 0 then (1, 0) else (0, 0)
  end.

Definition rmul (a : R) (v : cx) : cx := (a * fst v, a * snd v).
Definition csum3 (f : nat -> cx) : cx := cadd (cadd (f 0%nat) (f 1%nat)) (f 2%nat).
(** Bilinear product of two complex vectors. *)
Definition dot (a b : nat -> cx) : cx := csum3 (fun i => cmul (a i) (b i)).

(** Dipole-dipole energy of (complex) dipole vectors a and b separated by (x, y, z):
    kC (a.b / r^3 - 3 (a.R)(b.R) / r^5). *)
Definition dipole_dipole (kC x y z : R) (a b : nat -> cx) : cx :=
  let r := sqrt (x * x + y * y + z * z) in
  let R := fun i => (vec3 x y z i, 0) in
  csub (rmul (kC / r ^ 3) (dot a b)) (rmul (3 * kC / r ^ 5) (cmul (dot a R) (dot b R))).

(** Dipole vectors of the two atoms between the two pair states. *)
Definition dip1 (p : pdata) (i : nat) : cx := rmul (pM1 p 1%nat) (cart i (pq1 p)).
Definition dip2 (p : pdata) (i : nat) : cx := rmul (pM2 p 1%nat) (cart i (pq2 p)).

(** Wigner-Eckart: the matrix elements of rank kappa vanish unless the selection rule holds, and
    the selection rule implies |m_r - m_c| <= kappa. *)
Definition lawful (p : pdata) : Prop :=
  (forall k, psel1 p k = false -> pM1 p k = 0) /\ (forall k, psel2 p k = false -> pM2 p k = 0) /\
  (forall k, psel1 p k = true -> (Z.abs (pq1 p) <= Z.of_nat k)%Z) /\
  (forall k, psel2 p k = true -> (Z.abs (pq2 p) <= Z.of_nat k)%Z).

Definition close (e : R) (a b : cx) : Prop := Rabs (fst a - fst b) <= e /\ Rabs (snd a - snd b) <= e.

(** The cut-off [tol] does not remove a non-zero number. *)
Definition kept (tol v : R) : Prop := v = 0 \/ tol < Rabs v.
(** The cut-off removes no tensor element and no product of a dipole and a quadrupole matrix
    element.  Always true for tol = 0. *)
Definition no_cutoff (tol x y z : R) (p : pdata) : Prop :=
  forall i j k, (i < 3)%nat -> (j < 3)%nat -> (k < 3)%nat ->
    kept tol (DDvac x y z i j) /\ kept tol (DQvac x y z i j k) /\ kept tol (QDvac x y z i j k) /\
    (forall v, vecentry i (pq1 p) (pM1 p 1%nat) = Some v ->
       kept tol (v * matentry j k (pq2 p) (pM2 p 2%nat) (pM2 p 0%nat))) /\
    (forall v, vecentry i (pq2 p) (pM2 p 1%nat) = Some v ->
       kept tol (v * matentry j k (pq1 p) (pM1 p 2%nat) (pM1 p 0%nat))).

(** Every setDistance has a positive argument, every setDistanceVector a non-zero vector. *)
Definition positive_args (h : list gset) : Prop :=
  forall c, In c h -> match c with
                      | SetDistance d => 0 < d
                      | SetVector x y z => ~ (x = 0 /\ y = 0 /\ z = 0)
                      | _ => True
                      end.

