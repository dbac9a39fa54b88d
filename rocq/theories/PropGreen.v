(** C45-C47: Green tensors. *)
From Verif Require Import Base GreenModel GreenSpec GreenProofs.
From Coq Require Import Bool Arith Reals Lra Psatz List.
From Coquelicot Require Import Coquelicot.
Import ListNotations.
Local Open Scope R_scope.

(** The dipole-dipole tensor is the Hessian of 1/r ... *)
Theorem C45_hessian : exists grad : nat -> R -> R -> R -> R,
  forall i j x y z, (i < 3)%nat -> (j < 3)%nat -> ~ (x = 0 /\ y = 0 /\ z = 0) ->
    partial i coulomb x y z (grad i x y z) /\
    partial j (grad i) x y z (DDvac x y z i j).
Proof.
  exists grad0. intros i j x y z Hi Hj H. split.
  - apply coulomb_gradient; assumption.
  - apply gradient_hessian; assumption.
Qed.
Print Assumptions C45_hessian.

(** ... the quadrupole tensors are plus and minus its gradient ... *)
Theorem C45_gradient : forall i j k x y z, (i < 3)%nat -> (j < 3)%nat -> (k < 3)%nat ->
  ~ (x = 0 /\ y = 0 /\ z = 0) ->
  partial k (fun u v w => DDvac u v w i j) x y z (QDvac x y z i j k) /\
  DQvac x y z i j k = - QDvac x y z i j k.
Proof.
  intros. split; [apply hessian_gradient; assumption | apply dq_is_minus_qd].
Qed.
Print Assumptions C45_gradient.

(** ... symmetric in all indices and traceless. *)
Theorem C45_symmetric_traceless : forall x y z, ~ (x = 0 /\ y = 0 /\ z = 0) ->
  (forall i j, DDvac x y z i j = DDvac x y z j i) /\
  (forall i j k, QDvac x y z i j k = QDvac x y z j i k /\ QDvac x y z i j k = QDvac x y z i k j) /\
  sum3 (fun i => DDvac x y z i i) = 0 /\
  (forall k, (k < 3)%nat -> sum3 (fun i => QDvac x y z i i k) = 0 /\ sum3 (fun i => DQvac x y z k i i) = 0).
Proof.
  intros x y z H. refine (conj _ (conj _ (conj _ _))).
  - intros. apply DD_sym.
  - intros. apply QD_sym.
  - apply DD_traceless; exact H.
  - intros k Hk. split; [apply QD_traceless; assumption|].
    pose proof (QD_traceless x y z k Hk H) as T. unfold sum3 in *.
    rewrite !dq_is_minus_qd.
    destruct (QD_sym x y z k 0%nat 0%nat) as [E0 _]. destruct (QD_sym x y z k 1%nat 1%nat) as [E1 _].
    destruct (QD_sym x y z k 2%nat 2%nat) as [E2 _].
    destruct (QD_sym x y z 0%nat k 0%nat) as [_ F0]. destruct (QD_sym x y z 1%nat k 1%nat) as [_ F1].
    destruct (QD_sym x y z 2%nat k 2%nat) as [_ F2]. lra.
Qed.
Print Assumptions C45_symmetric_traceless.

(** Atoms on the z axis: -1, -1, 2. *)
Example C45_value : DDvac 0 0 1 0%nat 0%nat = -1 /\ DDvac 0 0 1 1%nat 1%nat = -1 /\ DDvac 0 0 1 2%nat 2%nat = 2.
Proof.
  assert (norm3 0 0 1 = 1) as N.
  { unfold norm3. replace (0 * 0 + 0 * 0 + 1 * 1) with 1 by ring. apply sqrt_1. }
  unfold DDvac. rewrite N. unfold eye. cbn. repeat split; lra.
Qed.

(** With a plate the dipole of the second atom sees the mirror image of the dipole of the first
    one; (x, 0) is the horizontal position of the first atom relative to the second. *)
Theorem C46_dipole_image : forall x zA zB, 0 < zA + zB ->
  (forall i j, (i < 3)%nat -> (j < 3)%nat ->
     DDplate x zA zB i j = image_tensor x 0 (zA + zB) i j) /\
  (forall a1 a2 a3 b1 b2 b3,
     sum3 (fun i => sum3 (fun j => vec3 a1 a2 a3 i * DDplate x zA zB i j * vec3 b1 b2 b3 j))
     = - dipole_energy (- a1) (- a2) a3 b1 b2 b3 (- x) 0 (zA + zB)).
Proof.
  intros x zA zB H. split.
  - intros. apply DDplate_is_image; assumption.
  - intros. apply DDplate_image; exact H.
Qed.
Print Assumptions C46_dipole_image.

(** The quadrupole tensors contain the derivatives with respect to x and to the heights of the
    first (QD) and second (DQ) atom.  Missing in the code: the derivatives with respect to y, see
    [C46_y_derivative_refuted]. *)
Theorem C46_gradients_partial : forall x zA zB i j, (i < 3)%nat -> (j < 3)%nat -> 0 < zA + zB ->
  is_derive (fun t => DDplate t zA zB i j) x (QDplate x zA zB 0%nat i j) /\
  is_derive (fun t => DDplate x t zB i j) zA (QDplate x zA zB 2%nat i j) /\
  is_derive (fun t => DDplate t zA zB i j) x (- DQplate x zA zB i j 0%nat) /\
  is_derive (fun t => DDplate x zA t i j) zB (DQplate x zA zB i j 2%nat).
Proof.
  intros x zA zB i j Hi Hj H.
  destruct (plate_QD x zA zB 0%nat i j) as [A _]; auto. destruct (plate_QD x zA zB 2%nat i j) as [_ B]; auto.
  destruct (plate_DQ x zA zB i j 0%nat) as [C _]; auto. destruct (plate_DQ x zA zB i j 2%nat) as [_ D]; auto.
Qed.
Print Assumptions C46_gradients_partial.

(** The component of the quadrupole-dipole tensor that belongs to the y direction is not the
    derivative of the image tensor, whenever x is not zero. *)
Theorem C46_y_derivative_refuted : forall x zA zB, 0 < zA + zB -> x <> 0 ->
  exists j k v, (j < 3)%nat /\ (k < 3)%nat /\
    is_derive (fun t => image_tensor x t (zA + zB) j k) 0 v /\
    (forall i' j', (i' < 3)%nat -> (j' < 3)%nat -> image_tensor x 0 (zA + zB) i' j' = DDplate x zA zB i' j') /\
    QDplate x zA zB 1%nat j k <> v.
Proof.
  intros x zA zB H X. exists 1%nat, 0%nat, (- 3 * x / sqrt (x * x + (zA + zB) * (zA + zB)) ^ 5).
  split; [lia|]. split; [lia|]. split; [apply image_y_derivative; exact H|].
  split; [intros; symmetry; apply DDplate_is_image; assumption|].
  pose proof (rp_pos x (zA + zB) H) as P.
  set (r := sqrt (x * x + (zA + zB) * (zA + zB))) in *.
  assert (0 < r ^ 5) as P5 by (apply pow_lt; exact P).
  unfold QDplate. cbv zeta. rewrite norm_plate. fold r. cbn [vec3 plateDiag plateSecond gradQD].
  intros E.
  assert (- 3 * x / r ^ 5 * r ^ 5 = 0) as Z.
  { rewrite <- E. field. lra. }
  unfold Rdiv in Z. rewrite Rmult_assoc, Rinv_l in Z by lra. lra.
Qed.
Print Assumptions C46_y_derivative_refuted.

(** As a consequence the tensor is not divergence-free although no charge is present. *)
Theorem C46_divergence_refuted : forall x zA zB, 0 < zA + zB -> x <> 0 ->
  sum3 (fun i => QDplate x zA zB i i 0%nat) <> 0.
Proof.
  intros x zA zB H X E. rewrite plate_trace in E by exact H.
  pose proof (rp_pos x (zA + zB) H) as P.
  set (r := sqrt (x * x + (zA + zB) * (zA + zB))) in *.
  assert (0 < r ^ 5) as P5 by (apply pow_lt; exact P).
  assert (3 * x / r ^ 5 * r ^ 5 = 0) as Z by (rewrite E; ring).
  unfold Rdiv in Z. rewrite Rmult_assoc, Rinv_l in Z by lra. lra.
Qed.
Print Assumptions C46_divergence_refuted.

(** Lazy evaluation: every tensor returned belongs to the separation and to the plate of the last
    successful addSurface, provided every height is at least half the distance of the atoms along
    z (then addSurface does not throw), or the atoms are not in the xz-plane (then every
    addSurface throws).  Missing: the histories of [C47_failed_surface_refuted]. *)
Theorem C47_tensors_current_partial : forall x y z h g outs,
  (y <> 0 \/ forall d, In (CSurface d) h -> Rabs z / 2 <= d) ->
  grun (newGreen x y z) h = (g, outs) -> tracks x y z None h outs.
Proof.
  intros x y z h g outs H E. apply (run_tracks h (newGreen x y z) None g outs); cbn.
  - apply consistent_new.
  - destruct H as [H|H]; [left; exact H | right].
    intros d I. eapply Rle_trans; [apply offset_abs | apply H; exact I].
  - exact E.
Qed.
Print Assumptions C47_tensors_current_partial.

(** A history that meets the hypothesis and changes the plate after the tensor was evaluated. *)
Example C47_changes : exists g outs, grun (newGreen 3 0 4) [CDD; CSurface 5; CDD; CSurface 2; CDD] = (g, outs) /\
  tracks 3 0 4 None [CDD; CSurface 5; CDD; CSurface 2; CDD] outs.
Proof.
  destruct (grun (newGreen 3 0 4) [CDD; CSurface 5; CDD; CSurface 2; CDD]) as [g outs] eqn:E.
  exists g, outs. split; [reflexivity|]. eapply C47_tensors_current_partial; [|exact E].
  right. intros d I. rewrite Rabs_right by lra.
  cbn in I. destruct I as [F|[F|[F|[F|[F|[]]]]]]; try discriminate F; injection F as <-; lra.
Qed.

(** An addSurface that throws is remembered nevertheless. *)
Theorem C47_failed_surface_refuted : exists x y z h g outs,
  grun (newGreen x y z) h = (g, outs) /\ ~ tracks x y z None h outs.
Proof.
  exists 1, 0, 0, [CSurface (-1); CDD].
  destruct (grun (newGreen 1 0 0) [CSurface (-1); CDD]) as [g outs] eqn:E.
  exists g, outs. split; [reflexivity|]. intros T.
  cbn [grun gstep] in E. unfold addSurface in E. cbn [g_y newGreen g_x g_z] in E.
  destruct (Req_EM_T 0 0) as [_|N]; [|lra]. cbv zeta in E.
  assert (offset 1 0 = 0) as O by (unfold offset; lra). rewrite O in E.
  destruct (Rlt_dec (-1 - 0) 0) as [_|N]; [|lra].
  unfold getDD in E. cbn [g_dd g_plate] in E. injection E as <- <-.
  cbn [tracks] in T. destruct T as [T _]. specialize (T 1%nat 1%nat).
  unfold calcDD, add2 in T. cbn [g_plate g_x g_y g_z spec_dd] in T.
  assert (DDplate 1 (-1 - 0) (-1 + 0) 1%nat 1%nat = 0) as Z by lra.
  unfold DDplate in Z. cbv zeta in Z. cbn [plateDiag plateSecond] in Z.
  assert (0 < sqrt (1 * 1 + (-1 - 0 + (-1 + 0)) * (-1 - 0 + (-1 + 0)))) as P by (apply sqrt_lt_R0; lra).
  set (r := sqrt _) in *.
  assert (0 < / r ^ 3) by (apply Rinv_0_lt_compat; apply pow_lt; exact P).
  unfold Rdiv in Z. lra.
Qed.
Print Assumptions C47_failed_surface_refuted.

(** The heights of the atoms above the plate are d - z/2 and d + z/2, but an atom inside the plate
    is not detected: one atom above the other at distance 10, the middle at height 1. *)
Theorem C47_inside_plate_refuted : exists x z d,
  d - z / 2 < 0 /\ snd (addSurface d (newGreen x 0 z)) = Ok tt.
Proof.
  exists 0, 10, 1. split; [lra|]. unfold addSurface. cbn [g_y newGreen g_x g_z].
  destruct (Req_EM_T 0 0) as [_|N]; [|lra]. cbv zeta.
  assert (offset 0 10 = 0) as O.
  { unfold offset. replace (0 / 10) with 0 by lra. rewrite atan_0, sin_0. lra. }
  rewrite O.
  destruct (Rlt_dec (1 - 0) 0) as [N|_]; [lra|]. destruct (Rlt_dec (1 + 0) 0) as [N|_]; [lra|]. reflexivity.
Qed.
Print Assumptions C47_inside_plate_refuted.

(** The check is too lax but never too strict: if addSurface throws for atoms in the xz-plane then
    one of them is inside the plate. *)
Theorem C47_rejection_sound : forall x z d, snd (addSurface d (newGreen x 0 z)) = Throw ->
  d - Rabs z / 2 < 0.
Proof.
  intros x z d. unfold addSurface. cbn [g_y newGreen g_x g_z].
  destruct (Req_EM_T 0 0) as [_|N]; [|lra]. cbv zeta.
  pose proof (offset_abs x z) as B. apply Rabs_le_between in B.
  destruct (Rlt_dec _ _) as [L|L]; [intros _; lra|].
  destruct (Rlt_dec _ _) as [L'|L']; [intros _; lra|]. cbn. discriminate.
Qed.
Print Assumptions C47_rejection_sound.
