From Verif Require Import Base GreenModel GreenSpec.
From Coq Require Import Bool Arith Reals Lra Psatz List.
From Coquelicot Require Import Coquelicot.
Import ListNotations.
Local Open Scope R_scope.

Definition nz (x y z : R) : Prop := ~ (x = 0 /\ y = 0 /\ z = 0).

Lemma nz_pos : forall x y z, nz x y z -> 0 < x * x + y * y + z * z.
Proof.
  intros x y z H. destruct (Req_dec x 0) as [->|Hx].
  - destruct (Req_dec y 0) as [->|Hy].
    + assert (z <> 0) by (intros ->; apply H; auto). nra.
    + nra.
  - nra.
Qed.

Lemma norm_pos : forall x y z, nz x y z -> 0 < norm3 x y z.
Proof. intros. unfold norm3. apply sqrt_lt_R0. apply nz_pos; assumption. Qed.

Lemma norm_sq : forall x y z, norm3 x y z * norm3 x y z = x * x + y * y + z * z.
Proof. intros. unfold norm3. apply sqrt_sqrt. nra. Qed.

Lemma idx3 : forall i, (i < 3)%nat -> i = 0%nat \/ i = 1%nat \/ i = 2%nat.
Proof. intros. destruct i as [|[|[|]]]; auto; lia. Qed.

(* derivative of norm3 along an axis *)
Ltac solve_derive :=
  match goal with
  | |- is_derive ?f ?p ?v =>
      evar_last; [auto_derive; [repeat split; auto | reflexivity] | idtac]
  end.

Lemma partial_norm : forall k x y z, (k < 3)%nat -> nz x y z ->
  partial k norm3 x y z (vec3 x y z k / norm3 x y z).
Proof.
  intros k x y z Hk H. pose proof (nz_pos _ _ _ H) as P. pose proof (norm_pos _ _ _ H) as N.
  destruct (idx3 _ Hk) as [ -> | [ -> | -> ] ]; cbn [partial vec3]; unfold norm3 in *.
  all: evar_last; [auto_derive; [exact P | reflexivity] | field; lra].
Qed.

(* power rule packaged: derivative of c / norm3^n etc. through the chain *)
Lemma partial_ext : forall k f g x y z v,
  (forall a b c, f a b c = g a b c) -> partial k f x y z v -> partial k g x y z v.
Proof.
  intros k f g x y z v E H. destruct k as [|[|k]]; cbn in *;
  eapply is_derive_ext; try exact H; intros; apply E.
Qed.

Definition fgen (A : R -> R -> R -> R) (n : nat) (x y z : R) : R := A x y z / norm3 x y z ^ n.

Lemma partial_quot : forall k A n x y z a, (k < 3)%nat -> nz x y z ->
  partial k A x y z a ->
  partial k (fgen A n) x y z
    (a / norm3 x y z ^ n - INR n * A x y z * vec3 x y z k / norm3 x y z ^ (n + 2)).
Proof.
  intros k A n x y z a Hk H HA. pose proof (partial_norm _ _ _ _ Hk H) as HN.
  pose proof (norm_pos _ _ _ H) as N.
  assert (forall (u w : R -> R) p du dw, is_derive u p du -> is_derive w p dw -> 0 < w p ->
    is_derive (fun t => u t / w t ^ n) p (du / w p ^ n - INR n * u p * (dw * w p) / w p ^ (n + 2))) as Q.
  { intros u w p du dw Hu Hw Wp.
    evar_last.
    - apply is_derive_div; [exact Hu | apply (is_derive_pow w n p dw Hw) |].
      apply pow_nonzero. lra.
    - destruct n as [|n].
      + cbn. field. lra.
      + replace (S n + 2)%nat with (3 + n)%nat by lia. rewrite !pow_add. cbn [pow Nat.pred].
        assert (w p ^ n <> 0) by (apply pow_nonzero; lra). field. repeat split; try lra; assumption. }
  destruct (idx3 _ Hk) as [ -> | [ -> | -> ] ]; cbn [partial] in *; unfold fgen.
  all: evar_last; [apply Q; [exact HA | exact HN | exact N] |].
  all: cbn [vec3]; f_equal; f_equal; f_equal; field; lra.
Qed.

Definition grad0 (i : nat) (x y z : R) : R := - vec3 x y z i / norm3 x y z ^ 3.

Lemma partial_opp : forall k A x y z a, partial k A x y z a ->
  partial k (fun u v w => - A u v w) x y z (- a).
Proof.
  intros k A x y z a H. destruct k as [|[|k]]; cbn [partial] in *;
  exact (is_derive_opp _ _ _ H).
Qed.
Lemma partial_plus : forall k A B x y z a b, partial k A x y z a -> partial k B x y z b ->
  partial k (fun u v w => A u v w + B u v w) x y z (a + b).
Proof.
  intros k A B x y z a b HA HB. destruct k as [|[|k]]; cbn [partial] in *;
  exact (is_derive_plus _ _ _ _ _ HA HB).
Qed.
Lemma partial_mult : forall k A B x y z a b, partial k A x y z a -> partial k B x y z b ->
  partial k (fun u v w => A u v w * B u v w) x y z (a * B x y z + A x y z * b).
Proof.
  intros k A B x y z a b HA HB. destruct k as [|[|k]]; cbn [partial] in *.
  - refine (is_derive_mult _ _ _ _ _ HA HB _). intros; apply Rmult_comm.
  - refine (is_derive_mult _ _ _ _ _ HA HB _). intros; apply Rmult_comm.
  - refine (is_derive_mult _ _ _ _ _ HA HB _). intros; apply Rmult_comm.
Qed.
Lemma partial_const : forall k c x y z, partial k (fun _ _ _ => c) x y z 0.
Proof. intros k c x y z. destruct k as [|[|k]]; cbn [partial]; exact (is_derive_const _ _). Qed.
Lemma partial_vec : forall k i x y z, (k < 3)%nat -> (i < 3)%nat ->
  partial k (fun u v w => vec3 u v w i) x y z (eye i k).
Proof.
  intros k i x y z Hk Hi. destruct (idx3 _ Hk) as [ -> | [ -> | -> ] ];
  destruct (idx3 _ Hi) as [ -> | [ -> | -> ] ]; cbn;
  first [exact (is_derive_id _) | exact (is_derive_const _ _)].
Qed.

Lemma partial_eq : forall k f x y z a b, partial k f x y z a -> a = b -> partial k f x y z b.
Proof. intros; subst; assumption. Qed.

Lemma eye_sym : forall i j, eye i j = eye j i.
Proof. intros. unfold eye. rewrite Nat.eqb_sym. reflexivity. Qed.

Lemma coulomb_gradient : forall i x y z, (i < 3)%nat -> nz x y z ->
  partial i coulomb x y z (grad0 i x y z).
Proof.
  intros i x y z Hi H. pose proof (norm_pos _ _ _ H) as N.
  eapply partial_eq.
  - apply partial_ext with (f := fgen (fun _ _ _ => 1) 1).
    { intros. unfold fgen, coulomb, norm3. rewrite pow_1. reflexivity. }
    apply partial_quot; [exact Hi | exact H | apply partial_const].
  - unfold grad0. change (1 + 2)%nat with 3%nat. change (INR 1) with 1. field. lra.
Qed.

Lemma gradient_hessian : forall i j x y z, (i < 3)%nat -> (j < 3)%nat -> nz x y z ->
  partial j (grad0 i) x y z (DDvac x y z i j).
Proof.
  intros i j x y z Hi Hj H. pose proof (norm_pos _ _ _ H) as N.
  eapply partial_eq.
  - apply partial_ext with (f := fgen (fun u v w => - vec3 u v w i) 3).
    { reflexivity. }
    apply partial_quot; [exact Hj | exact H |].
    apply partial_opp. apply partial_vec; assumption.
  - unfold DDvac. replace (INR 3) with 3 by (cbn; lra). change (3 + 2)%nat with 5%nat. field. lra.
Qed.

Lemma hessian_gradient : forall i j k x y z, (i < 3)%nat -> (j < 3)%nat -> (k < 3)%nat -> nz x y z ->
  partial k (fun u v w => DDvac u v w i j) x y z (QDvac x y z i j k).
Proof.
  intros i j k x y z Hi Hj Hk H. pose proof (norm_pos _ _ _ H) as N.
  eapply partial_eq.
  - apply partial_ext with (f := fun u v w =>
      fgen (fun _ _ _ => - eye i j) 3 u v w + fgen (fun u v w => 3 * vec3 u v w i * vec3 u v w j) 5 u v w).
    { reflexivity. }
    apply partial_plus.
    + apply partial_quot; [exact Hk | exact H | apply partial_const].
    + apply partial_quot; [exact Hk | exact H |].
      apply partial_mult; [|apply partial_vec; assumption].
      apply partial_mult; [apply partial_const | apply partial_vec; assumption].
  - unfold QDvac. replace (INR 3) with 3 by (cbn; lra). replace (INR 5) with 5 by (cbn; lra).
    change (3 + 2)%nat with 5%nat. change (5 + 2)%nat with 7%nat.
    field. lra.
Qed.

Lemma dq_is_minus_qd : forall x y z i j k, DQvac x y z i j k = - QDvac x y z i j k.
Proof. intros. unfold DQvac, QDvac. cbv zeta. unfold Rdiv. ring. Qed.

Lemma DD_sym : forall x y z i j, DDvac x y z i j = DDvac x y z j i.
Proof. intros. unfold DDvac. rewrite (eye_sym i j). unfold Rdiv. ring. Qed.

Lemma QD_sym : forall x y z i j k, QDvac x y z i j k = QDvac x y z j i k /\
  QDvac x y z i j k = QDvac x y z i k j.
Proof.
  intros. unfold QDvac. cbv zeta. rewrite (eye_sym j i), (eye_sym k j).
  split; unfold Rdiv; ring.
Qed.

Lemma DD_traceless : forall x y z, nz x y z -> sum3 (fun i => DDvac x y z i i) = 0.
Proof.
  intros x y z H. pose proof (norm_pos _ _ _ H) as N. pose proof (norm_sq x y z) as S.
  unfold sum3, DDvac. cbn [eye Nat.eqb vec3]. unfold eye. cbn [Nat.eqb].
  set (r := norm3 x y z) in *.
  transitivity (3 * (x * x + y * y + z * z) / r ^ 5 - 3 / r ^ 3); [field; lra|].
  rewrite <- S. field. lra.
Qed.

Lemma QD_traceless : forall x y z k, (k < 3)%nat -> nz x y z ->
  sum3 (fun i => QDvac x y z i i k) = 0.
Proof.
  intros x y z k Hk H. pose proof (norm_pos _ _ _ H) as N. pose proof (norm_sq x y z) as S.
  unfold sum3, QDvac. cbv zeta.
  set (r := norm3 x y z) in *.
  destruct (idx3 _ Hk) as [ -> | [ -> | -> ] ]; unfold eye; cbn [Nat.eqb vec3].
  - transitivity (15 * x / r ^ 5 - 15 * x * (x * x + y * y + z * z) / r ^ 7); [field; lra|].
    rewrite <- S. field. lra.
  - transitivity (15 * y / r ^ 5 - 15 * y * (x * x + y * y + z * z) / r ^ 7); [field; lra|].
    rewrite <- S. field. lra.
  - transitivity (15 * z / r ^ 5 - 15 * z * (x * x + y * y + z * z) / r ^ 7); [field; lra|].
    rewrite <- S. field. lra.
Qed.

(** ** Plate *)

Lemma norm_plate : forall x zp, norm3 x 0 zp = sqrt (x * x + zp * zp).
Proof. intros. unfold norm3. f_equal. ring. Qed.
Lemma norm_plate' : forall x zp, norm3 (- x) 0 zp = sqrt (x * x + zp * zp).
Proof. intros. unfold norm3. f_equal. ring. Qed.

Lemma rp_pos : forall x zp, 0 < zp -> 0 < sqrt (x * x + zp * zp).
Proof. intros. apply sqrt_lt_R0. nra. Qed.

Lemma DDplate_image : forall x zA zB a1 a2 a3 b1 b2 b3, 0 < zA + zB ->
  sum3 (fun i => sum3 (fun j => vec3 a1 a2 a3 i * DDplate x zA zB i j * vec3 b1 b2 b3 j))
  = - dipole_energy (- a1) (- a2) a3 b1 b2 b3 (- x) 0 (zA + zB).
Proof.
  intros x zA zB a1 a2 a3 b1 b2 b3 H. unfold dipole_energy, sum3, DDplate. cbv zeta.
  set (zp := zA + zB) in *.
  replace (- x * - x + 0 * 0 + zp * zp) with (x * x + zp * zp) by ring.
  pose proof (rp_pos x zp H) as P.
  assert (sqrt (x * x + zp * zp) * sqrt (x * x + zp * zp) = x * x + zp * zp) as S by (apply sqrt_sqrt; nra).
  set (r := sqrt (x * x + zp * zp)) in *.
  assert (x * x = r * r - zp * zp) as X by lra.
  cbn [vec3 plateDiag plateSecond].
  replace (2 / r ^ 3 - 3 * (x * x) / r ^ 5) with (- (1 / r ^ 3) + 3 * (zp * zp) / r ^ 5)
    by (rewrite X; field; lra).
  field. lra.
Qed.

Lemma plate_QD : forall x zA zB i j k, (i < 3)%nat -> (j < 3)%nat -> (k < 3)%nat -> 0 < zA + zB ->
  (i = 0%nat -> is_derive (fun t => DDplate t zA zB j k) x (QDplate x zA zB i j k)) /\
  (i = 2%nat -> is_derive (fun t => DDplate x t zB j k) zA (QDplate x zA zB i j k)).
Proof.
  intros x zA zB i j k Hi Hj Hk H.
  assert (0 < x * x + (zA + zB) * (zA + zB)) as P by nra.
  pose proof (rp_pos x (zA + zB) H) as N.
  assert (sqrt (x * x + (zA + zB) * (zA + zB)) <> 0) as N0 by lra.
  unfold QDplate. cbv zeta. rewrite norm_plate.
  split; intros ->; destruct (idx3 _ Hj) as [ -> | [ -> | -> ] ]; destruct (idx3 _ Hk) as [ -> | [ -> | -> ] ];
  unfold DDplate; cbv zeta; cbn [vec3 plateDiag plateSecond gradQD].
  all: evar_last; [auto_derive; [repeat split; first [exact P | apply Rmult_integral_contrapositive_currified; repeat apply Rmult_integral_contrapositive_currified; lra | lra] | reflexivity] |].
  all: field; exact N0.
Qed.

Lemma plate_DQ : forall x zA zB i j k, (i < 3)%nat -> (j < 3)%nat -> (k < 3)%nat -> 0 < zA + zB ->
  (k = 0%nat -> is_derive (fun t => DDplate t zA zB i j) x (- DQplate x zA zB i j k)) /\
  (k = 2%nat -> is_derive (fun t => DDplate x zA t i j) zB (DQplate x zA zB i j k)).
Proof.
  intros x zA zB i j k Hi Hj Hk H.
  assert (0 < x * x + (zA + zB) * (zA + zB)) as P by nra.
  pose proof (rp_pos x (zA + zB) H) as N.
  assert (sqrt (x * x + (zA + zB) * (zA + zB)) <> 0) as N0 by lra.
  unfold DQplate. cbv zeta. rewrite norm_plate'.
  split; intros ->; destruct (idx3 _ Hi) as [ -> | [ -> | -> ] ]; destruct (idx3 _ Hj) as [ -> | [ -> | -> ] ];
  unfold DDplate; cbv zeta; cbn [vec3 plateDiag plateSecond gradDQ].
  all: evar_last; [auto_derive; [repeat split; first [exact P | apply Rmult_integral_contrapositive_currified; repeat apply Rmult_integral_contrapositive_currified; lra | lra] | reflexivity] |].
  all: field; exact N0.
Qed.

Lemma DDplate_is_image : forall x zA zB i j, (i < 3)%nat -> (j < 3)%nat -> 0 < zA + zB ->
  DDplate x zA zB i j = image_tensor x 0 (zA + zB) i j.
Proof.
  intros x zA zB i j Hi Hj H. unfold image_tensor, dipole_energy, DDplate. cbv zeta.
  set (zp := zA + zB) in *.
  replace (x * x + 0 * 0 + - zp * - zp) with (x * x + zp * zp) by ring.
  pose proof (rp_pos x zp H) as P.
  assert (sqrt (x * x + zp * zp) * sqrt (x * x + zp * zp) = x * x + zp * zp) as S by (apply sqrt_sqrt; nra).
  set (r := sqrt (x * x + zp * zp)) in *.
  assert (x * x = r * r - zp * zp) as X by lra.
  destruct (idx3 _ Hi) as [ -> | [ -> | -> ] ]; destruct (idx3 _ Hj) as [ -> | [ -> | -> ] ];
  unfold unit3; cbn [mirror_sign Nat.eqb plateDiag plateSecond].
  9: rewrite X.
  all: field; lra.
Qed.

Lemma image_y_derivative : forall x zp, 0 < zp ->
  is_derive (fun t => image_tensor x t zp 1%nat 0%nat) 0 (- 3 * x / sqrt (x * x + zp * zp) ^ 5).
Proof.
  intros x zp H. unfold image_tensor, dipole_energy, unit3. cbv zeta. cbn [mirror_sign Nat.eqb].
  assert (0 < x * x + 0 * 0 + - zp * - zp) as P by nra.
  assert (0 < sqrt (x * x + 0 * 0 + - zp * - zp)) as N by (apply sqrt_lt_R0; exact P).
  replace (x * x + zp * zp) with (x * x + 0 * 0 + - zp * - zp) by ring.
  evar_last; [auto_derive; [repeat split; first [exact P | apply Rmult_integral_contrapositive_currified; repeat apply Rmult_integral_contrapositive_currified; lra | lra] | reflexivity] |].
  field. lra.
Qed.

Lemma plate_trace : forall x zA zB, 0 < zA + zB ->
  sum3 (fun i => QDplate x zA zB i i 0%nat) = 3 * x / sqrt (x * x + (zA + zB) * (zA + zB)) ^ 5.
Proof.
  intros x zA zB H. unfold sum3, QDplate. cbv zeta. rewrite norm_plate.
  set (zp := zA + zB) in *.
  pose proof (rp_pos x zp H) as P.
  assert (sqrt (x * x + zp * zp) * sqrt (x * x + zp * zp) = x * x + zp * zp) as S by (apply sqrt_sqrt; nra).
  set (r := sqrt (x * x + zp * zp)) in *.
  cbn [vec3 plateDiag plateSecond gradQD].
  transitivity (- 12 * x / r ^ 5 + 15 * x * (x * x + zp * zp) / r ^ 7); [field; lra|].
  rewrite <- S. field. lra.
Qed.

(** ** Histories *)
Lemma DDplate_sum : forall x a b c d i j, a + b = c + d -> DDplate x a b i j = DDplate x c d i j.
Proof. intros. unfold DDplate. rewrite H. reflexivity. Qed.
Lemma DQplate_sum : forall x a b c d i j k, a + b = c + d -> DQplate x a b i j k = DQplate x c d i j k.
Proof. intros. unfold DQplate. rewrite H. reflexivity. Qed.
Lemma QDplate_sum : forall x a b c d i j k, a + b = c + d -> QDplate x a b i j k = QDplate x c d i j k.
Proof. intros. unfold QDplate. rewrite H. reflexivity. Qed.

Definition consistent (g : green) (s : option R) : Prop :=
  (match g_plate g, s with
   | None, None => True
   | Some (zA, zB), Some d => zA + zB = d + d
   | _, _ => False
   end) /\
  (forall m, g_dd g = Some m -> forall i j, m i j = spec_dd (g_x g) (g_y g) (g_z g) s i j) /\
  (forall m, g_dq g = Some m -> forall i j k, m i j k = spec_dq (g_x g) (g_y g) (g_z g) s i j k) /\
  (forall m, g_qd g = Some m -> forall i j k, m i j k = spec_qd (g_x g) (g_y g) (g_z g) s i j k).

Lemma calcDD_spec : forall g s i j, consistent g s ->
  calcDD g i j = spec_dd (g_x g) (g_y g) (g_z g) s i j.
Proof.
  intros g s i j (P & _). unfold calcDD, spec_dd, add2.
  destruct (g_plate g) as [[zA zB]|]; destruct s as [d|]; try contradiction; [|reflexivity].
  f_equal. apply DDplate_sum. exact P.
Qed.
Lemma calcDQ_spec : forall g s i j k, consistent g s ->
  calcDQ g i j k = spec_dq (g_x g) (g_y g) (g_z g) s i j k.
Proof.
  intros g s i j k (P & _). unfold calcDQ, spec_dq, add3.
  destruct (g_plate g) as [[zA zB]|]; destruct s as [d|]; try contradiction; [|reflexivity].
  f_equal. apply DQplate_sum. exact P.
Qed.
Lemma calcQD_spec : forall g s i j k, consistent g s ->
  calcQD g i j k = spec_qd (g_x g) (g_y g) (g_z g) s i j k.
Proof.
  intros g s i j k (P & _). unfold calcQD, spec_qd, add3.
  destruct (g_plate g) as [[zA zB]|]; destruct s as [d|]; try contradiction; [|reflexivity].
  f_equal. apply QDplate_sum. exact P.
Qed.

Lemma run_tracks : forall h g s g' outs,
  consistent g s ->
  (g_y g <> 0 \/ forall d, In (CSurface d) h -> Rabs (offset (g_x g) (g_z g)) <= d) ->
  grun g h = (g', outs) -> tracks (g_x g) (g_y g) (g_z g) s h outs.
Proof.
  induction h as [|c h IH]; intros g s g' outs C Hs E.
  - cbn in E. injection E as <- <-. exact I.
  - cbn [grun] in E. destruct (gstep g c) as [g1 o] eqn:G. destruct (grun g1 h) as [g2 os] eqn:R.
    injection E as <- <-. destruct c as [d| | |]; cbn [gstep] in G.
    + destruct (addSurface d g) as [g3 r] eqn:A. injection G as <- <-. unfold addSurface in A.
      destruct (Req_EM_T (g_y g) 0) as [Y|Y].
      * destruct Hs as [Hs|Hs]; [contradiction|].
        assert (Rabs (offset (g_x g) (g_z g)) <= d) as B by (apply Hs; left; reflexivity).
        apply Rabs_le_between in B. cbv zeta in A.
        destruct (Rlt_dec _ _) as [L|L] in A; [lra|].
        destruct (Rlt_dec _ _) as [L'|L'] in A; [lra|].
        injection A as <- <-. cbn [tracks].
        refine (IH _ (Some d) _ _ _ _ R).
        -- unfold consistent; cbn. split; [ring | split; [discriminate | split; discriminate]].
        -- right. cbn. intros d' I'. apply Hs. right. exact I'.
      * injection A as <- <-. cbn [tracks]. eapply IH; eauto.
    + unfold getDD in G. destruct (g_dd g) as [m|] eqn:Em.
      * injection G as <- <-. cbn [tracks]. split; [apply C; exact Em|].
        eapply IH; [exact C | | exact R]. destruct Hs as [Hs|Hs]; [left; exact Hs | right; intros; apply Hs; right; assumption].
      * injection G as <- <-. cbn [tracks]. split; [intros; apply calcDD_spec; exact C|].
        refine (IH _ s _ _ _ _ R).
        -- destruct C as (C1 & C2 & C3 & C4). split; [exact C1|]. split; [|split; assumption].
           cbn. intros m [= <-]. intros. apply (calcDD_spec g). repeat split; assumption.
        -- cbn. destruct Hs as [Hs|Hs]; [left; exact Hs | right; intros; apply Hs; right; assumption].
    + unfold getDQ in G. destruct (g_dq g) as [m|] eqn:Em.
      * injection G as <- <-. cbn [tracks]. split; [apply C; exact Em|].
        eapply IH; [exact C | | exact R]. destruct Hs as [Hs|Hs]; [left; exact Hs | right; intros; apply Hs; right; assumption].
      * injection G as <- <-. cbn [tracks]. split; [intros; apply calcDQ_spec; exact C|].
        refine (IH _ s _ _ _ _ R).
        -- destruct C as (C1 & C2 & C3 & C4). split; [exact C1|]. split; [assumption|]. split; [|assumption].
           cbn. intros m [= <-]. intros. apply (calcDQ_spec g). repeat split; assumption.
        -- cbn. destruct Hs as [Hs|Hs]; [left; exact Hs | right; intros; apply Hs; right; assumption].
    + unfold getQD in G. destruct (g_qd g) as [m|] eqn:Em.
      * injection G as <- <-. cbn [tracks]. split; [apply C; exact Em|].
        eapply IH; [exact C | | exact R]. destruct Hs as [Hs|Hs]; [left; exact Hs | right; intros; apply Hs; right; assumption].
      * injection G as <- <-. cbn [tracks]. split; [intros; apply calcQD_spec; exact C|].
        refine (IH _ s _ _ _ _ R).
        -- destruct C as (C1 & C2 & C3 & C4). split; [exact C1|]. split; [assumption|]. split; [assumption|].
           cbn. intros m [= <-]. intros. apply (calcQD_spec g). repeat split; assumption.
        -- cbn. destruct Hs as [Hs|Hs]; [left; exact Hs | right; intros; apply Hs; right; assumption].
Qed.

Lemma consistent_new : forall x y z, consistent (newGreen x y z) None.
Proof. intros. unfold consistent; cbn. split; [exact I | split; [discriminate | split; discriminate]]. Qed.

Lemma offset_abs : forall x z, Rabs (offset x z) <= Rabs z / 2.
Proof.
  intros. unfold offset. unfold Rdiv at 1. rewrite !Rabs_mult.
  pose proof (SIN_bound (atan (x / z))) as B.
  assert (Rabs (sin (atan (x / z))) <= 1) by (apply Rabs_le; lra).
  rewrite (Rabs_right (/ 2)) by lra. pose proof (Rabs_pos z).
  unfold Rdiv. nra.
Qed.

