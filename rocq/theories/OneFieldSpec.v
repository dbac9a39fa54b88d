(** An atom in homogeneous fields, independently of the program. *)
From Coq Require Import ZArith Lia Bool List Reals.
Import ListNotations.
From Verif Require Import Base Matrix FieldModel FieldSpec BasisnamesModel InteractSpec.
Set Implicit Arguments.
Local Open Scope R_scope.

(** coefficient of the spherical component q of d in - F.d, see C62_dipole_cartesian *)
Definition minus_dot (F : sph) (q : Z) : cx :=
  if (q =? 0)%Z then copp (s_0 F) else if (q =? 1)%Z then s_m F else if (q =? -1)%Z then s_p F else (0, 0).
(** coefficients of r^2 C_(k,q) in 3/2 (B x r)^2 of rank k, see C62_diamagnetic_cartesian *)
Definition dia_rank0 (B : sph) (q : Z) : cx := if (q =? 0)%Z then t00 (diaTerms B) else (0, 0).
Definition dia_rank2 (B : sph) (q : Z) : cx :=
  let t := diaTerms B in
  if (q =? 0)%Z then copp (t20 t)
  else if (q =? 1)%Z then cmul (sqrt 3, 0) (t21 t) else if (q =? -1)%Z then cmul (sqrt 3, 0) (t2m1 t)
  else if (q =? 2)%Z then copp (cmul (sqrt (3/2), 0) (t22 t)) else if (q =? -2)%Z then copp (cmul (sqrt (3/2), 0) (t2m2 t)) else (0, 0).
(** Matrix elements between s and t (of the component q = m_s - m_t): electric dipole, magnetic moment (its negative: the energy in a
    field is + B.dB), diamagnetism of rank 0 and 2 *)
Section H.
Variables dE dB : one -> one -> R.
Variable dD : nat -> one -> one -> R.
Definition in_fields (E B : vec) (dia : bool) (s t : one) : cx :=
  let q := ((mm s - mm t) / 2)%Z in
  cadd (cmul (minus_dot (spherical E) q) (dE s t, 0))
 (cadd (copp (cmul (minus_dot (spherical B) q) (dB s t, 0)))
       (if dia then cadd (cmul (dia_rank0 (spherical B) q) (dD 0 s t, 0)) (cmul (dia_rank2 (spherical B) q) (dD 2 s t, 0)) else (0, 0))).
End H.
(** selection rules and Hermiticity of the elements between the states of an atom *)
Definition hermitian_elements (b : names_one) (el : one -> one -> R) : Prop :=
  forall s t, In s (names1 b) -> In t (names1 b) -> Z.Even (mm s - mm t) -> el t s = (if Z.even ((mm s - mm t) / 2) then 1 else -1) * el s t.
Definition moment_allowed (s t : one) : Prop := (l_ s = l_ t /\ Z.abs (jj s - jj t) <= 2 /\ Z.abs (mm s - mm t) <= 2)%Z.
Definition atom_ok (b : names_one) (dE dB : one -> one -> R) (dD : nat -> one -> one -> R) : Prop :=
  (forall s t, In s (names1 b) -> In t (names1 b) -> (~ allowed s t 1 -> dE s t = 0) /\ (~ moment_allowed s t -> dB s t = 0) /\
     (forall k, ~ allowed s t k -> dD k s t = 0)) /\
  hermitian_elements b dE /\ hermitian_elements b dB /\ (forall k, hermitian_elements b (dD k)).
(** a point on the way from v to w *)
Definition along (v w : vec) (t : R) : vec := (vx v + t * (vx w - vx v), vy v + t * (vy w - vy v), vz v + t * (vz w - vz v)).
(** v without the values up to tol *)
Definition rounded (tol x y : R) : Prop := y = x \/ (y = 0 /\ Rabs x <= tol).
(** same l, j, m *)
Definition same_ljm (s t : one) : Prop := l_ s = l_ t /\ jj s = jj t /\ mm s = mm t.
