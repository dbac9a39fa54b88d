(** The angle terms are the dipole-dipole interaction. *)
From Verif Require Import Base FieldModel GreenModel TwoModel TwoSpec PerturbModel.
From Coq Require Import ZArith Reals Lra Lia Nsatz Bool List.
Local Open Scope list_scope.
Local Open Scope R_scope.

Lemma r1 : forall a, sqrt (sin a * sin a + 0 * 0 + cos a * cos a) = 1.
Proof. intros. replace (sin a * sin a + 0 * 0 + cos a * cos a) with 1; [apply sqrt_1|]. pose proof (sin2_cos2 a). unfold Rsqr in H. lra. Qed.

Definition dd (kC angle d0 d1 : R) (q0 q1 : Z) : cx :=
  dipole_dipole kC (sin angle) 0 (cos angle) (fun i => rmul d0 (cart i q0)) (fun i => rmul d1 (cart i q1)).

(** General coefficient. *)
Definition T (angle : R) (q0 q1 : Z) : R :=
  let u q := if Z.eqb q 0 then cos angle else if Z.eqb q 1 then - sin angle / sqrt 2 else sin angle / sqrt 2 in
  (if Z.eqb q0 0 then (if Z.eqb q1 0 then 1 else 0) else if Z.eqb (q0 + q1) 0 then -1 else 0) - 3 * u q0 * u q1.

Lemma s2sq : / sqrt 2 * / sqrt 2 = / 2.
Proof. rewrite <- Rinv_mult. f_equal. apply sqrt_sqrt. lra. Qed.
Lemma s2ne : sqrt 2 <> 0.
Proof. intro H. pose proof (sqrt_lt_R0 2). lra. Qed.

Lemma dd_T : forall kC angle d0 d1 q0 q1, (Z.abs q0 <= 1)%Z -> (Z.abs q1 <= 1)%Z ->
  dd kC angle d0 d1 q0 q1 = (kC * T angle q0 q1 * d0 * d1, 0).
Proof.
  intros kC a d0 d1 q0 q1 H0 H1. unfold dd, dipole_dipole. cbv zeta. rewrite r1.
  pose proof s2sq as S. pose proof s2ne as N.
  assert (D3 : forall x, x / 1 ^ 3 = x) by (intros; field). assert (D5 : forall x, x / 1 ^ 5 = x) by (intros; field).
  rewrite D3, D5.
  assert (E0 : (q0 = -1 \/ q0 = 0 \/ q0 = 1)%Z) by lia. assert (E1 : (q1 = -1 \/ q1 = 0 \/ q1 = 1)%Z) by lia.
  unfold T, dot, csum3, cart, vec3, rmul, csub, cadd, cmul, Rdiv.
  set (i := / sqrt 2) in *. clearbody i.
  destruct E0 as [-> |[-> | ->]]; destruct E1 as [-> |[-> | ->]]; cbn [Z.eqb Pos.eqb fst snd orb Z.add Z.opp Pos.add Z.pos_sub];
    f_equal; try ring.
  all: assert (S2 : 2 * (i * i) = 1) by lra; clear - S2; generalize dependent (sin a); generalize dependent (cos a); intros; nsatz.
Qed.

Lemma geo_in : forall angle q0 q1, In (q0, q1) (array_q (initializeAngleTerms angle)) ->
  (Z.abs q0 <= 1)%Z /\ (Z.abs q1 <= 1)%Z /\
  array_angle_term (initializeAngleTerms angle) q0 q1 = Ok (T angle q0 q1).
Proof.
  intros angle q0 q1. unfold initializeAngleTerms. pose proof s2sq as S. pose proof s2ne as N.
  pose proof (sin2_cos2 angle) as P. unfold Rsqr in P.
  destruct (Req_EM_T angle 0) as [-> |_]; cbn [array_q array_angle_term In].
  - intros H. unfold T, Rdiv. rewrite sin_0, cos_0.
    intuition (match goal with H : (_, _) = (_, _) |- _ => injection H as <- <- end; cbn; try lia; try reflexivity; f_equal; ring).
  - intros H.
    assert (X : forall s c : R, s * s + c * c = 1 -> c * c = 1 - s * s) by (intros; lra).
    unfold T, Rdiv. set (i := / sqrt 2) in *. clearbody i.
    intuition (match goal with H : (_, _) = (_, _) |- _ => injection H as <- <- end; cbn [Z.eqb Pos.eqb andb Z.abs Z.add Z.opp Pos.add Z.pos_sub]; try lia; try reflexivity; f_equal;
      ring_simplify; try replace (i ^ 2) with (/ 2) by (rewrite <- S; ring); try ring; try lra).
Qed.

Lemma geo_out : forall angle q0 q1, (Z.abs q0 <= 1)%Z -> (Z.abs q1 <= 1)%Z ->
  ~ In (q0, q1) (array_q (initializeAngleTerms angle)) -> T angle q0 q1 = 0.
Proof.
  intros angle q0 q1 H0 H1. unfold initializeAngleTerms.
  assert (E0 : (q0 = -1 \/ q0 = 0 \/ q0 = 1)%Z) by lia. assert (E1 : (q1 = -1 \/ q1 = 0 \/ q1 = 1)%Z) by lia.
  destruct (Req_EM_T angle 0) as [-> |_]; cbn [array_q array_angle_term In]; intros H.
  - unfold T, Rdiv. rewrite sin_0, cos_0.
    destruct E0 as [-> |[-> | ->]]; destruct E1 as [-> |[-> | ->]]; cbn [Z.eqb Pos.eqb Z.add Z.opp Pos.add Z.pos_sub]; try ring; exfalso; apply H; tauto.
  - exfalso. destruct E0 as [-> |[-> | ->]]; destruct E1 as [-> |[-> | ->]]; apply H; tauto.
Qed.

Lemma geo_size : forall angle, length (array_q (initializeAngleTerms angle)) = 3%nat /\ (forall q0 q1, (Z.abs q0 <= 1)%Z -> (Z.abs q1 <= 1)%Z ->
    (In (q0, q1) (array_q (initializeAngleTerms angle)) <-> (q0 + q1 = 0)%Z))
  \/ length (array_q (initializeAngleTerms angle)) = 9%nat /\ (forall q0 q1, (Z.abs q0 <= 1)%Z -> (Z.abs q1 <= 1)%Z ->
    In (q0, q1) (array_q (initializeAngleTerms angle))).
Proof.
  intros angle. unfold initializeAngleTerms.
  destruct (Req_EM_T angle 0) as [-> |_]; cbn [array_q In]; [left|right]; (split; [reflexivity|]); intros q0 q1 H0 H1;
  assert (E0 : (q0 = -1 \/ q0 = 0 \/ q0 = 1)%Z) by lia; assert (E1 : (q1 = -1 \/ q1 = 0 \/ q1 = 1)%Z) by lia;
  destruct E0 as [-> |[-> | ->]]; destruct E1 as [-> |[-> | ->]]; try tauto;
  split; intros H; try lia; try tauto; repeat destruct H as [H|H]; try discriminate H; try lia; tauto.
Qed.

Lemma geo_nodup : forall angle, NoDup (array_q (initializeAngleTerms angle)).
Proof.
  intros. unfold initializeAngleTerms. destruct (Req_EM_T angle 0); cbn; repeat constructor; cbn; intuition discriminate.
Qed.

(** Reversal of the transition. *)
Lemma T_opp : forall angle q0 q1, (Z.abs q0 <= 1)%Z -> (Z.abs q1 <= 1)%Z ->
  T angle (- q0) (- q1) = (if Z.even (q0 + q1) then 1 else -1) * T angle q0 q1.
Proof.
  intros angle q0 q1 H0 H1. unfold T, Rdiv.
  assert (E0 : (q0 = -1 \/ q0 = 0 \/ q0 = 1)%Z) by lia. assert (E1 : (q1 = -1 \/ q1 = 0 \/ q1 = 1)%Z) by lia.
  destruct E0 as [-> |[-> | ->]]; destruct E1 as [-> |[-> | ->]]; cbn [Z.eqb Pos.eqb Z.add Z.opp Pos.add Z.pos_sub Z.even]; ring.
Qed.
Lemma T_swap : forall angle q0 q1, (Z.abs q0 <= 1)%Z -> (Z.abs q1 <= 1)%Z -> T angle q0 q1 = T angle q1 q0.
Proof.
  intros angle q0 q1 H0 H1. unfold T, Rdiv.
  assert (E0 : (q0 = -1 \/ q0 = 0 \/ q0 = 1)%Z) by lia. assert (E1 : (q1 = -1 \/ q1 = 0 \/ q1 = 1)%Z) by lia.
  destruct E0 as [-> |[-> | ->]]; destruct E1 as [-> |[-> | ->]]; cbn [Z.eqb Pos.eqb Z.add Z.opp Pos.add Z.pos_sub]; ring.
Qed.
