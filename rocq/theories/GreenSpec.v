(** What the Green tensors should be, independently of the code: derivatives of the Coulomb
    potential, and the electrostatics of a mirror charge.  No proofs. *)
From Verif Require Import Base GreenModel.
From Coq Require Import Reals List.
From Coquelicot Require Import Coquelicot.
Import ListNotations.
Local Open Scope R_scope.

(** Partial derivative of f along the axis k (0: x, 1: y, otherwise z) at (x, y, z). *)
Definition partial (k : nat) (f : R -> R -> R -> R) (x y z v : R) : Prop :=
  match k with
  | O => is_derive (fun t => f t y z) x v
  | S O => is_derive (fun t => f x t z) y v
  | _ => is_derive (fun t => f x y t) z v
  end.

(** Potential of a unit charge. *)
Definition coulomb (x y z : R) : R := 1 / sqrt (x * x + y * y + z * z).

(** Electrostatic energy, in units of the Coulomb constant, of a dipole (a1,a2,a3) and a dipole
    (b1,b2,b3) separated by (x,y,z): a.b/r^3 - 3 (a.R)(b.R)/r^5. *)
Definition dipole_energy (a1 a2 a3 b1 b2 b3 x y z : R) : R :=
  let r := sqrt (x * x + y * y + z * z) in
  (a1 * b1 + a2 * b2 + a3 * b3) / r ^ 3
  - 3 * (a1 * x + a2 * y + a3 * z) * (b1 * x + b2 * y + b3 * z) / r ^ 5.

Definition sum3 (f : nat -> R) : R := f 0%nat + f 1%nat + f 2%nat.

(** Energy tensor of a dipole of the second atom in the field of the mirror image of a dipole of
    the first atom, with the plate perpendicular to z.  (x, y): horizontal position of the first
    atom relative to the second, zp: sum of the heights.  The mirror image of the dipole
    (a1, a2, a3) is (-a1, -a2, a3), its position relative to the second atom is (x, y, -zp).
    Energy = - sum_ij a_i G_ij b_j. *)
Definition mirror_sign (i : nat) : R := match i with O => -1 | S O => -1 | _ => 1 end.
Definition unit3 (i : nat) (k : nat) : R := if Nat.eqb i k then 1 else 0.
Definition image_tensor (x y zp : R) (i j : nat) : R :=
  - dipole_energy (mirror_sign 0 * unit3 i 0) (mirror_sign 1 * unit3 i 1) (mirror_sign 2 * unit3 i 2)
                  (unit3 j 0) (unit3 j 1) (unit3 j 2) x y (- zp).

(** The tensors of a geometry: separation (x, y, z) and, if there is a plate, the height [d] of
    the middle between the atoms. *)
Definition spec_dd (x y z : R) (s : option R) : mat3 := fun i j =>
  match s with None => DDvac x y z i j | Some d => DDvac x y z i j + DDplate x d d i j end.
Definition spec_dq (x y z : R) (s : option R) : ten3 := fun i j k =>
  match s with None => DQvac x y z i j k | Some d => DQvac x y z i j k + DQplate x d d i j k end.
Definition spec_qd (x y z : R) (s : option R) : ten3 := fun i j k =>
  match s with None => QDvac x y z i j k | Some d => QDvac x y z i j k + QDplate x d d i j k end.


(** The answers [outs] to the calls [h] are those of the separation (x, y, z) and of the plate
    given by the last addSurface that did not throw ([s]: the one before these calls). *)
Fixpoint tracks (x y z : R) (s : option R) (h : list gcall) (outs : list gout) : Prop :=
  match h, outs with
  | [], [] => True
  | CSurface d :: h', OUnit (Ok _) :: os => tracks x y z (Some d) h' os
  | CSurface _ :: h', OUnit Throw :: os => tracks x y z s h' os
  | CDD :: h', OMat m :: os => (forall i j, m i j = spec_dd x y z s i j) /\ tracks x y z s h' os
  | CDQ :: h', OTen t :: os => (forall i j k, t i j k = spec_dq x y z s i j k) /\ tracks x y z s h' os
  | CQD :: h', OTen t :: os => (forall i j k, t i j k = spec_qd x y z s i j k) /\ tracks x y z s h' os
  | _, _ => False
  end.
