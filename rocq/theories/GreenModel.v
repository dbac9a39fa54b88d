(** Model of GreenTensor.hpp/.cpp over the real numbers.  No proofs. *)
From Verif Require Import Base.
From Coq Require Import Bool Arith Reals List.
Import ListNotations.
Set Implicit Arguments.
Local Open Scope R_scope.

(** Eigen::Matrix3<double> and Eigen::TensorFixedSize<double, 3, 3, 3>; the indices are 0, 1, 2. *)
Definition mat3 := nat -> nat -> R.
Definition ten3 := nat -> nat -> nat -> R.
Definition vec3 (x y z : R) (i : nat) : R := match i with O => x | S O => y | _ => z end.
(** Matrix3::Identity *)
Definition eye (i j : nat) : R := if Nat.eqb i j then 1 else 0.
(** distance.norm() *)
Definition norm3 (x y z : R) : R := sqrt (x * x + y * y + z * z).

(** GreenTensor.cpp:89-100 getDDTensorVacuum *)
Definition DDvac (x y z : R) : mat3 := fun i j =>
  - eye i j / norm3 x y z ^ 3 + 3 * vec3 x y z i * vec3 x y z j / norm3 x y z ^ 5.

(** Vector3({1, 1, 2}).asDiagonal() (GreenTensor.cpp:111-113, 174-175, 213-214) *)
Definition plateDiag : mat3 := fun i j =>
  match i, j with O, O => 1 | S O, S O => 1 | S (S O), S (S O) => 2 | _, _ => 0 end.
(** plate_tensor_second_matrix (GreenTensor.cpp:108-109, 176-177, 215-216) *)
Definition plateSecond (x zp : R) : mat3 := fun i j =>
  match i, j with
  | O, O => x * x | O, S (S O) => - x * zp
  | S (S O), O => x * zp | S (S O), S (S O) => x * x
  | _, _ => 0
  end.
(** GreenTensor.cpp:102-116 getDDTensorPlate *)
Definition DDplate (x zA zB : R) : mat3 := fun i j =>
  let zp := zA + zB in let rp := sqrt (x * x + zp * zp) in
  plateDiag i j / rp ^ 3 - 3 * plateSecond x zp i j / rp ^ 5.

(** GreenTensor.cpp:118-139 getDQTensorVacuum *)
Definition DQvac (x y z : R) : ten3 := fun i j k =>
  let d := vec3 x y z in
  -3 / norm3 x y z ^ 5 * (eye i j * d k + d i * eye j k + d j * eye i k)
  + 15 / norm3 x y z ^ 7 * d i * d j * d k.
(** GreenTensor.cpp:141-163 getQDTensorVacuum *)
Definition QDvac (x y z : R) : ten3 := fun i j k =>
  let d := vec3 x y z in
  3 / norm3 x y z ^ 5 * (d i * eye j k + eye i j * d k + eye i k * d j)
  - 15 / norm3 x y z ^ 7 * d i * d j * d k.

(** plate_tensor_second_gradient (GreenTensor.cpp:179-186) *)
Definition gradDQ (x zp : R) : ten3 := fun i j k =>
  match i, j, k with
  | O, O, O => -2 * x | S (S O), S (S O), O => -2 * x
  | O, S (S O), O => zp | S (S O), O, O => - zp
  | O, S (S O), S (S O) => - x | S (S O), O, S (S O) => x
  | _, _, _ => 0
  end.
(** GreenTensor.cpp:165-202 getDQTensorPlate *)
Definition DQplate (x zA zB : R) : ten3 := fun i j k =>
  let zp := zA + zB in let d := vec3 (- x) 0 zp in let rp := norm3 (- x) 0 zp in
  -3 * plateDiag i j * d k / rp ^ 5 + 15 * plateSecond x zp i j * d k / rp ^ 7
  + -3 * gradDQ x zp i j k / rp ^ 5.

(** gradient_plate_tensor_second (GreenTensor.cpp:218-225) *)
Definition gradQD (x zp : R) : ten3 := fun i j k =>
  match i, j, k with
  | O, O, O => 2 * x | O, S (S O), S (S O) => 2 * x
  | O, O, S (S O) => - zp | O, S (S O), O => zp
  | S (S O), O, S (S O) => - x | S (S O), S (S O), O => x
  | _, _, _ => 0
  end.
(** GreenTensor.cpp:204-241 getQDTensorPlate *)
Definition QDplate (x zA zB : R) : ten3 := fun i j k =>
  let zp := zA + zB in let d := vec3 x 0 zp in let rp := norm3 x 0 zp in
  -3 * d i * plateDiag j k / rp ^ 5 + 15 * d i * plateSecond x zp j k / rp ^ 7
  + -3 * gradQD x zp i j k / rp ^ 5.

(** ** The object with its lazily evaluated tensors *)

(** GreenTensor.hpp:49-61.  [g_plate]: zA and zB, [None] when they hold the maximal double. *)
Record green : Type := Green {
  g_x : R; g_y : R; g_z : R; g_plate : option (R * R);
  g_dd : option mat3; g_dq : option ten3; g_qd : option ten3 }.

(** GreenTensor.cpp:30-33.  A tensor is [None] while its flag is false. *)
Definition newGreen (x y z : R) : green := Green x y z None None None None.

Definition add2 (a b : mat3) : mat3 := fun i j => a i j + b i j.
Definition add3 (a b : ten3) : ten3 := fun i j k => a i j k + b i j k.

(** Height offset of addSurface (GreenTensor.cpp:40-43).  For z = 0 the double x/z is infinite,
    the sine is 1 or -1 and the product with z is 0; so is this expression. *)
Definition offset (x z : R) : R := z * sin (atan (x / z)) / 2.

(** GreenTensor.cpp:35-53 addSurface: zA and zB are assigned before the check that throws. *)
Definition addSurface (d : R) (g : green) : green * res unit :=
  if Req_EM_T (g_y g) 0 then
    let zA := d - offset (g_x g) (g_z g) in
    let zB := d + offset (g_x g) (g_z g) in
    if Rlt_dec zA 0 then (Green (g_x g) (g_y g) (g_z g) (Some (zA, zB)) (g_dd g) (g_dq g) (g_qd g), Throw)
    else if Rlt_dec zB 0 then
      (Green (g_x g) (g_y g) (g_z g) (Some (zA, zB)) (g_dd g) (g_dq g) (g_qd g), Throw)
    else (Green (g_x g) (g_y g) (g_z g) (Some (zA, zB)) None None None, Ok tt)
  else (g, Throw).

(** The assignments inside the conditionals of GreenTensor.cpp:56-62, 68-74, 79-85 *)
Definition calcDD (g : green) : mat3 :=
  match g_plate g with
  | None => DDvac (g_x g) (g_y g) (g_z g)
  | Some (zA, zB) => add2 (DDvac (g_x g) (g_y g) (g_z g)) (DDplate (g_x g) zA zB)
  end.
Definition calcDQ (g : green) : ten3 :=
  match g_plate g with
  | None => DQvac (g_x g) (g_y g) (g_z g)
  | Some (zA, zB) => add3 (DQvac (g_x g) (g_y g) (g_z g)) (DQplate (g_x g) zA zB)
  end.
Definition calcQD (g : green) : ten3 :=
  match g_plate g with
  | None => QDvac (g_x g) (g_y g) (g_z g)
  | Some (zA, zB) => add3 (QDvac (g_x g) (g_y g) (g_z g)) (QDplate (g_x g) zA zB)
  end.

(** GreenTensor.cpp:55-65 getDDTensor *)
Definition getDD (g : green) : green * mat3 :=
  match g_dd g with
  | Some t => (g, t)
  | None => let t := calcDD g in
            (Green (g_x g) (g_y g) (g_z g) (g_plate g) (Some t) (g_dq g) (g_qd g), t)
  end.
(** GreenTensor.cpp:67-76 getDQTensor *)
Definition getDQ (g : green) : green * ten3 :=
  match g_dq g with
  | Some t => (g, t)
  | None => let t := calcDQ g in
            (Green (g_x g) (g_y g) (g_z g) (g_plate g) (g_dd g) (Some t) (g_qd g), t)
  end.
(** GreenTensor.cpp:78-87 getQDTensor *)
Definition getQD (g : green) : green * ten3 :=
  match g_qd g with
  | Some t => (g, t)
  | None => let t := calcQD g in
            (Green (g_x g) (g_y g) (g_z g) (g_plate g) (g_dd g) (g_dq g) (Some t), t)
  end.

Inductive gcall : Type := CSurface (d : R) | CDD | CDQ | CQD.
Inductive gout : Type := OUnit (r : res unit) | OMat (m : mat3) | OTen (t : ten3).

Definition gstep (g : green) (c : gcall) : green * gout :=
  match c with
  | CSurface d => let (g1, r) := addSurface d g in (g1, OUnit r)
  | CDD => let (g1, m) := getDD g in (g1, OMat m)
  | CDQ => let (g1, t) := getDQ g in (g1, OTen t)
  | CQD => let (g1, t) := getQD g in (g1, OTen t)
  end.

Fixpoint grun (g : green) (h : list gcall) : green * list gout :=
  match h with
  | [] => (g, [])
  | c :: h' => let (g1, o) := gstep g c in let (g2, os) := grun g1 h' in (g2, o :: os)
  end.
