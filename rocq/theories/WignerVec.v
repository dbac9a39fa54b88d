(** Rotation of vectors, and its relation to the rotation of the states with j = 1. *)
From Verif Require Import Base StateModel Matrix FieldModel WignerModel WignerSpec WignerPoly WignerProofs WignerProofs2 WignerProofs3 WignerRot.
From Coq Require Import ZArith Lia Bool Arith Reals Lra Nsatz List.
Import ListNotations.
Set Implicit Arguments.
Local Open Scope R_scope.

Lemma sqrt2_2 : sqrt 2 * sqrt 2 = 2.
Proof. apply sqrt_sqrt; lra. Qed.
Lemma sqrt2_nz : sqrt 2 <> 0.
Proof. intro H. pose proof sqrt2_2. rewrite H in H0. lra. Qed.

(** d^1 *)
Definition d1 (a b : nat) (x : R) : R :=
  let c := cos (x / 2) in let s := sin (x / 2) in
  match a with
  | 0%nat => match b with 0%nat => c * c | 1%nat => sqrt 2 * c * s | _ => s * s end
  | 1%nat => match b with 0%nat => - sqrt 2 * c * s | 1%nat => c * c - s * s | _ => sqrt 2 * c * s end
  | _ => match b with 0%nat => s * s | 1%nat => - sqrt 2 * c * s | _ => c * c end
  end.
Lemma dpoly_1 : forall a b x, (a <= 2)%nat -> (b <= 2)%nat -> dpoly 2 a b x = d1 a b x.
Proof.
  intros a b x Ha Hb. rewrite dpoly_formula by auto.
  assert (S1 : sqrt (2 * 1 * 1 * 1) = sqrt 2) by (f_equal; ring).
  assert (S4 : sqrt 4 = 2) by (replace 4 with (2 * 2) by ring; apply sqrt_square; lra).
  pose proof sqrt2_2. pose proof sqrt2_nz.
  assert (F0 : INR (fact 0) = 1) by reflexivity. assert (F1 : INR (fact 1) = 1) by reflexivity. assert (F2 : INR (fact 2) = 2) by (cbn; ring).
  unfold wigner_formula, sumR.
  destruct a as [|[|[|a]]]; [| | |lia]; destruct b as [|[|[|b]]]; try lia; cbn [seq map fold_right Nat.leb andb Nat.sub Nat.add Nat.mul d1 pow];
  rewrite ?F0, ?F1, ?F2; rewrite ?Rmult_1_r, ?Rmult_1_l; rewrite ?sqrt_1; try replace (2 * 2) with 4 by ring; rewrite ?S4; field.
Qed.

(** Components of a vector with respect to the states with j = 1 (m = -1, 0, 1):
    e_{+1} = -(e_x + i e_y)/sqrt 2, e_0 = e_z, e_{-1} = (e_x - i e_y)/sqrt 2. *)
Definition spherical (v : vec) (a : nat) : CR :=
  match a with
  | 0%nat => (vx v / sqrt 2, vy v / sqrt 2)
  | 1%nat => (vz v, 0)
  | _ => (- vx v / sqrt 2, vy v / sqrt 2)
  end.

Lemma tmul_mul : forall A B v, tmulv (mul3 A B) v = tmulv B (tmulv A v).
Proof.
  intros [[[[a b] c] [[d e] f]] [[g h] i]] [[[[a' b'] c'] [[d' e'] f']] [[g' h'] i']] [[x y] z].
  unfold mul3, tmulv, col, row, dot, mk3, vx, vy, vz. cbn [fst snd].
  apply injective_projections; [apply injective_projections|]; cbn [fst snd]; ring.
Qed.
Lemma tmul_Z : forall t x y z, tmulv (axisZ t) (x, y, z) = (cos t * x + sin t * y, - sin t * x + cos t * y, z).
Proof.
  intros. unfold axisZ, tmulv, col, row, dot, mk3, vx, vy, vz. cbn [fst snd].
  apply injective_projections; [apply injective_projections|]; cbn [fst snd]; ring.
Qed.
Lemma tmul_Y : forall t x y z, tmulv (axisY t) (x, y, z) = (cos t * x - sin t * z, y, sin t * x + cos t * z).
Proof.
  intros. unfold axisY, tmulv, col, row, dot, mk3, vx, vy, vz. cbn [fst snd].
  apply injective_projections; [apply injective_projections|]; cbn [fst snd]; ring.
Qed.

Lemma mh_2 : mh 2 0 = - 1 /\ mh 2 1 = 0 /\ mh 2 2 = 1.
Proof. unfold mh, mq. cbn. repeat split; lra. Qed.

Lemma sph_Z : forall t v a, (a <= 2)%nat -> spherical (tmulv (axisZ t) v) a = smul (s := CR) (cis (- mh 2 a * - t)) (spherical v a).
Proof.
  intros t [[x y] z] a Ha. destruct mh_2 as (M0 & M1 & M2). rewrite tmul_Z. pose proof sqrt2_nz.
  destruct a as [|[|[|a]]]; [| | |lia]; rewrite ?M0, ?M1, ?M2; unfold cis, spherical, vx, vy, vz; cbn [fst snd].
  - replace (- -1 * - t) with (- t) by ring. rewrite cos_neg, sin_neg. apply injective_projections; cbn; field; auto.
  - replace (-0 * - t) with 0 by ring. rewrite cos_0, sin_0. apply injective_projections; cbn; ring.
  - replace (- (1) * - t) with t by ring. apply injective_projections; cbn; field; auto.
Qed.

Lemma half_angle : forall t, cos t = cos (t / 2) * cos (t / 2) - sin (t / 2) * sin (t / 2) /\ sin t = 2 * sin (t / 2) * cos (t / 2) /\
  cos (t / 2) * cos (t / 2) + sin (t / 2) * sin (t / 2) = 1.
Proof.
  intro t. repeat split.
  - rewrite <- cos_2a. f_equal. field.
  - rewrite <- sin_2a. f_equal. field.
  - pose proof (sin2_cos2 (t / 2)) as Q. unfold Rsqr in Q. lra.
Qed.

Lemma sph_Y : forall t v a, (a <= 2)%nat ->
  spherical (tmulv (axisY t) v) a = bsum (K := CR) 3 (fun b => smul (s := CR) (ofR (d1 a b (- t))) (spherical v b)).
Proof.
  intros t [[x y] z] a Ha. rewrite tmul_Y. destruct (half_angle t) as (-> & -> & One). unfold d1. replace (- t / 2) with (- (t / 2)) by field.
  rewrite cos_neg, sin_neg. revert One. generalize (cos (t / 2)) (sin (t / 2)). intros c s One.
  assert (W2 : sqrt 2 * / sqrt 2 = 1) by (field; exact sqrt2_nz). pose proof sqrt2_2 as W.
  assert (W3 : 2 * / sqrt 2 = sqrt 2) by (rewrite <- W at 1; rewrite Rmult_assoc, W2; ring).
  destruct a as [|[|[|a]]]; [| | |lia]; unfold spherical, vx, vy, vz; cbn [fst snd bsum]; unfold Rdiv;
  revert W W2 W3; generalize (/ sqrt 2) (sqrt 2); intros w' w W W2 W3;
  apply injective_projections; cbn [sadd smul s0 CR cadd cmul fst snd ofR]; unfold cadd, cmul, ofR; cbn [fst snd];
  clear - W W2 W3 One; nsatz.
Qed.

Theorem vector_rotation : forall v alpha beta gamma a, regular beta -> (a <= 2)%nat ->
  spherical (tmulv (buildRotatorE alpha beta gamma) v) a =
  bsum (K := CR) 3 (fun b => smul (Dm 2 (- gamma) (- beta) (- alpha) a b) (spherical v b)).
Proof.
  intros v al be ga a [R1 R2] Ha. unfold buildRotatorE. rewrite !tmul_mul, sph_Z, sph_Y by auto.
  rewrite (@bsum_mul_l CR). apply (@bsum_ext CR). intros b Hb. rewrite sph_Z by lia. rewrite Dm_closed by lia. rewrite R2, dpoly_1 by lia. WignerProofs2.cring.
Qed.

(** The matrix of Euler angles is a rotation: its transpose is its inverse. *)
Lemma dot_Z : forall t v w, dot (tmulv (axisZ t) v) (tmulv (axisZ t) w) = dot v w.
Proof.
  intros t [[x y] z] [[x' y'] z']. rewrite !tmul_Z. pose proof (sin2_cos2 t) as A. unfold Rsqr in A. unfold dot, vx, vy, vz. cbn [fst snd].
  revert A. generalize (cos t) (sin t). intros. nsatz.
Qed.
Lemma dot_Y : forall t v w, dot (tmulv (axisY t) v) (tmulv (axisY t) w) = dot v w.
Proof.
  intros t [[x y] z] [[x' y'] z']. rewrite !tmul_Y. pose proof (sin2_cos2 t) as A. unfold Rsqr in A. unfold dot, vx, vy, vz. cbn [fst snd].
  revert A. generalize (cos t) (sin t). intros. nsatz.
Qed.
Lemma euler_dot : forall al be ga v w, dot (tmulv (buildRotatorE al be ga) v) (tmulv (buildRotatorE al be ga) w) = dot v w.
Proof. intros. unfold buildRotatorE. rewrite !tmul_mul, dot_Z, dot_Y, dot_Z. reflexivity. Qed.
Lemma euler_zero : forall v, tmulv (buildRotatorE 0 0 0) v = v.
Proof.
  intros [[x y] z]. unfold buildRotatorE. rewrite !tmul_mul, tmul_Z, tmul_Y, tmul_Z, cos_0, sin_0.
  apply injective_projections; [apply injective_projections|]; cbn; ring.
Qed.
Lemma back_Z : forall t v, tmulv (axisZ (- t)) (tmulv (axisZ t) v) = v.
Proof.
  intros t [[x y] z]. rewrite !tmul_Z, cos_neg, sin_neg. pose proof (sin2_cos2 t) as A. unfold Rsqr in A.
  revert A. generalize (cos t) (sin t). intros. apply injective_projections; [apply injective_projections|]; cbn [fst snd]; nsatz.
Qed.
Lemma back_Y : forall t v, tmulv (axisY (- t)) (tmulv (axisY t) v) = v.
Proof.
  intros t [[x y] z]. rewrite !tmul_Y, cos_neg, sin_neg. pose proof (sin2_cos2 t) as A. unfold Rsqr in A.
  revert A. generalize (cos t) (sin t). intros. apply injective_projections; [apply injective_projections|]; cbn [fst snd]; nsatz.
Qed.
Lemma euler_back : forall al be ga v, tmulv (buildRotatorE (- ga) (- be) (- al)) (tmulv (buildRotatorE al be ga) v) = v.
Proof. intros. unfold buildRotatorE. rewrite !tmul_mul, back_Z, back_Y, back_Z. reflexivity. Qed.

Definition scale3 (c : R) (v : vec) : vec := (c * vx v, c * vy v, c * vz v).
Definition add3 (v w : vec) : vec := (vx v + vx w, vy v + vy w, vz v + vz w).

Lemma dot_nonneg : forall v, 0 <= dot v v.
Proof. intros [[x y] z]. unfold dot, vx, vy, vz. cbn. nra. Qed.
Lemma dot_zero : forall v, dot v v = 0 -> v = (0, 0, 0).
Proof.
  intros [[x y] z]. unfold dot, vx, vy, vz. cbn [fst snd]. intro H.
  assert (x = 0) by nra. assert (y = 0) by nra. assert (z = 0) by nra. subst. reflexivity.
Qed.
Lemma norm3_zero : forall v, norm3 v = 0 <-> v = (0, 0, 0).
Proof.
  intro v. unfold norm3. split.
  - intro H. apply dot_zero. apply sqrt_eq_0; auto using dot_nonneg.
  - intros ->. unfold dot, vx, vy, vz. cbn. replace (0 * 0 + 0 * 0 + 0 * 0) with 0 by ring. apply sqrt_0.
Qed.
Lemma norm3_sq : forall v, norm3 v * norm3 v = dot v v.
Proof. intro. unfold norm3. apply sqrt_sqrt. apply dot_nonneg. Qed.

Lemma normalized_unit : forall v, v <> (0, 0, 0) -> normalized v = scale3 (/ norm3 v) v /\ dot (normalized v) (normalized v) = 1.
Proof.
  intros v H. assert (P : 0 < dot v v). { destruct (dot_nonneg v); auto. exfalso. apply H, dot_zero. auto. }
  assert (N : norm3 v <> 0) by (rewrite norm3_zero; auto).
  unfold normalized. destruct (Rlt_dec 0 (dot v v)); [|contradiction].
  assert (E : mk3 (vx v / norm3 v) (vy v / norm3 v) (vz v / norm3 v) = scale3 (/ norm3 v) v).
  { unfold mk3, scale3. apply injective_projections; [apply injective_projections|]; cbn [fst snd]; field; auto. }
  rewrite E. split; auto. transitivity (dot v v / (norm3 v * norm3 v)).
  - unfold dot, scale3, vx, vy, vz. cbn [fst snd]. field. auto.
  - rewrite norm3_sq. field. lra.
Qed.

(** Axes: the stored components are those along y x z, y and z (normalised). *)
Lemma axes_components : forall v to_z to_y,
  v <> (0, 0, 0) -> to_z <> (0, 0, 0) -> to_y <> (0, 0, 0) -> dot to_z to_y = 0 ->
  exists w, rotateVectorA v to_z to_y = Ok w /\ dot w w = dot v v /\
    let ez := scale3 (/ norm3 to_z) to_z in let ey := scale3 (/ norm3 to_y) to_y in
    vy w = dot v ey /\ vz w = dot v ez /\ vx w = dot v (cross ey ez) /\
    v = add3 (add3 (scale3 (vx w) (cross ey ez)) (scale3 (vy w) ey)) (scale3 (vz w) ez).
Proof.
  intros v tz ty Hv Hz Hy O. unfold rotateVectorA. destruct (Req_EM_T (norm3 v) 0) as [E|_]. { apply norm3_zero in E. contradiction. }
  destruct (normalized_unit Hz) as [Ez Uz]. destruct (normalized_unit Hy) as [Ey Uy]. rewrite Ez in Uz. rewrite Ey in Uy.
  unfold buildRotatorA. rewrite Ez, Ey.
  assert (Z0 : dot (scale3 (/ norm3 tz) tz) (scale3 (/ norm3 ty) ty) = 0).
  { transitivity (/ norm3 tz * / norm3 ty * dot tz ty). { unfold dot, scale3, vx, vy, vz. cbn [fst snd]. ring. } rewrite O. ring. }
  set (ez := scale3 _ tz) in *. set (ey := scale3 _ ty) in *. clearbody ez ey. clear Ez Ey.
  rewrite Z0, Rabs_R0. destruct (Rlt_dec tolW 0) as [L|_].
  { exfalso. unfold tolW in L. assert (0 < / IZR (10 ^ 16)) by (apply Rinv_0_lt_compat, IZR_lt; reflexivity). lra. }
  cbn [bind]. eexists. split; [reflexivity|]. cbv zeta.
  destruct v as [[x y] z], ez as [[zx zy] zz], ey as [[yx yy] yz].
  unfold tmulv, col, row, dot, cross, mk3, add3, scale3, vx, vy, vz in *. cbn [fst snd] in *.
  split; [|split; [ring|split; [ring|split; [ring|]]]].
  - clear - Uz Uy Z0. nsatz.
  - clear - Uz Uy Z0. apply injective_projections; [apply injective_projections|]; cbn [fst snd]; nsatz.
Qed.

Lemma tolW_pos : 0 < tolW.
Proof. unfold tolW. apply Rinv_0_lt_compat, IZR_lt. reflexivity. Qed.

(** Axes that are not orthogonal (beyond the tolerance) are refused. *)
Lemma axes_refused : forall v to_z to_y, v <> (0, 0, 0) -> to_z <> (0, 0, 0) -> to_y <> (0, 0, 0) ->
  (rotateVectorA v to_z to_y = Throw <-> tolW < Rabs (dot to_z to_y) / (norm3 to_z * norm3 to_y)).
Proof.
  intros v tz ty Hv Hz Hy. unfold rotateVectorA. destruct (Req_EM_T (norm3 v) 0) as [E|_]. { apply norm3_zero in E. contradiction. }
  unfold buildRotatorA. destruct (normalized_unit Hz) as [-> _]. destruct (normalized_unit Hy) as [-> _].
  assert (Pz : 0 < norm3 tz). { unfold norm3. apply sqrt_lt_R0. destruct (dot_nonneg tz); auto. exfalso. apply Hz, dot_zero. auto. }
  assert (Py : 0 < norm3 ty). { unfold norm3. apply sqrt_lt_R0. destruct (dot_nonneg ty); auto. exfalso. apply Hy, dot_zero. auto. }
  replace (Rabs (dot (scale3 (/ norm3 tz) tz) (scale3 (/ norm3 ty) ty))) with (Rabs (dot tz ty) / (norm3 tz * norm3 ty)).
  - destruct (Rlt_dec _ _); cbn [bind]; split; intro; auto; try discriminate. contradiction.
  - rewrite <- (Rabs_right (norm3 tz * norm3 ty)) by (apply Rle_ge, Rmult_le_pos; lra).
    unfold Rdiv. rewrite <- Rabs_inv, <- Rabs_mult. f_equal.
    unfold dot, scale3, vx, vy, vz. cbn [fst snd]. field. lra.
Qed.

(** The zero vector is accepted as an axis: the component of the field along it is lost. *)
Lemma axes_zero : forall v to_y, v <> (0, 0, 0) -> to_y <> (0, 0, 0) ->
  exists w, rotateVectorA v (0, 0, 0) to_y = Ok w /\ vx w = 0 /\ vz w = 0.
Proof.
  intros v ty Hv Hy. unfold rotateVectorA. destruct (Req_EM_T (norm3 v) 0) as [E|_]. { apply norm3_zero in E. contradiction. }
  assert (Z : normalized (0, 0, 0) = (0, 0, 0)).
  { unfold normalized. destruct (Rlt_dec _ _); auto. exfalso. unfold dot, vx, vy, vz in r. cbn in r. lra. }
  unfold buildRotatorA. rewrite Z. destruct (normalized ty) as [[a b] c].
  replace (dot (0, 0, 0) (a, b, c)) with 0 by (unfold dot, vx, vy, vz; cbn; ring). rewrite Rabs_R0.
  destruct (Rlt_dec tolW 0). { pose proof tolW_pos. lra. }
  cbn [bind]. eexists. split; [reflexivity|]. destruct v as [[x y] z]. unfold tmulv, col, row, dot, cross, mk3, vx, vy, vz. cbn [fst snd]. split; ring.
Qed.

(** The matrix of Euler angles, written out. *)
Lemma euler_cols : forall al be ga, let R := buildRotatorE al be ga in
  col 0 R = (cos al * cos be * cos ga - sin al * sin ga, sin al * cos be * cos ga + cos al * sin ga, - sin be * cos ga) /\
  col 1 R = (- cos al * cos be * sin ga - sin al * cos ga, - sin al * cos be * sin ga + cos al * cos ga, sin be * sin ga) /\
  col 2 R = (cos al * sin be, sin al * sin be, cos be).
Proof.
  intros al be ga. cbv zeta. unfold buildRotatorE, mul3, axisZ, axisY, col, row, dot, mk3, vx, vy, vz. cbn [fst snd].
  split; [|split]; apply injective_projections; [apply injective_projections| |apply injective_projections| |apply injective_projections|]; cbn [fst snd]; ring.
Qed.
Lemma euler_frame : forall al be ga, let R := buildRotatorE al be ga in
  dot (col 1 R) (col 1 R) = 1 /\ dot (col 2 R) (col 2 R) = 1 /\ dot (col 2 R) (col 1 R) = 0 /\ cross (col 1 R) (col 2 R) = col 0 R.
Proof.
  intros al be ga. cbv zeta. destruct (euler_cols al be ga) as (E0 & E1 & E2). cbv zeta in E0, E1, E2. rewrite E0, E1, E2.
  pose proof (sin2_cos2 al) as A. pose proof (sin2_cos2 be) as B. pose proof (sin2_cos2 ga) as C. unfold Rsqr in A, B, C.
  unfold dot, cross, mk3, vx, vy, vz. cbn [fst snd]. clear E0 E1 E2.
  revert A B C. generalize (cos be) (sin be) (cos al) (sin al) (cos ga) (sin ga). intros cb sb ca sa cg sg A B C.
  split; [|split; [|split]].
  - transitivity ((sa * sa + ca * ca) * (cb * cb * sg * sg + cg * cg) + sb * sb * sg * sg); [ring|]. rewrite A.
    transitivity ((sb * sb + cb * cb) * (sg * sg) + cg * cg); [ring|]. rewrite B. lra.
  - transitivity ((sa * sa + ca * ca) * (sb * sb) + cb * cb); [ring|]. rewrite A. lra.
  - transitivity ((1 - (sa * sa + ca * ca)) * (cb * sg * sb)); [ring|]. rewrite A. ring.
  - apply injective_projections; [apply injective_projections|]; cbn [fst snd].
    + transitivity (ca * cb * cg * (1) + - sa * sg * (sb * sb + cb * cb)); [ring|]. rewrite B. ring.
    + transitivity (sa * cb * cg * (1) + ca * sg * (sb * sb + cb * cb)); [ring|]. rewrite B. ring.
    + transitivity (- sb * cg * (sa * sa + ca * ca)); [ring|]. rewrite A. ring.
Qed.

Lemma normalized_of_unit : forall z, dot z z = 1 -> normalized z = z.
Proof.
  intros z H. unfold normalized, norm3. rewrite H, sqrt_1. destruct (Rlt_dec 0 1); auto. destruct z as [[a b] c]. unfold mk3, vx, vy, vz. cbn [fst snd].
  unfold Rdiv. rewrite Rinv_1, !Rmult_1_r. reflexivity.
Qed.

(** Axes and angles describe the same rotation: with the rotated z and y axis of the Euler angles as axes. *)
Lemma axes_angles : forall v al be ga,
  rotateVectorA v (col 2 (buildRotatorE al be ga)) (col 1 (buildRotatorE al be ga)) = Ok (rotateVectorE v al be ga).
Proof.
  intros v al be ga. unfold rotateVectorA, rotateVectorE. destruct (Req_EM_T (norm3 v) 0) as [E|_]; auto.
  destruct (euler_frame al be ga) as (Uy & Uz & O & X). cbv zeta in Uy, Uz, O, X.
  unfold buildRotatorA. rewrite !normalized_of_unit by auto. rewrite O, X, Rabs_R0. destruct (Rlt_dec tolW 0). { pose proof tolW_pos. lra. }
  reflexivity.
Qed.
