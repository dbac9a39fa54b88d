From Coq Require Import Reals ZArith Lra Lia Bool List.
From Flocq Require Import Core Relative.
Import ListNotations.
From Verif Require Import Base WaveModel WaveProofs WaveProofs2.
Set Implicit Arguments.
Local Open Scope R_scope.

(** a and b agree up to k roundings *)
Definition near (k : nat) (a b : R) : Prop := (1 - u) ^ k * b <= a /\ (1 - u) ^ k * a <= b.
Lemma u_small : 0 < u < / 1000000000000000. Proof. rewrite u_val. split; lra. Qed.
Lemma u_pos : 0 < u. Proof. apply u_small. Qed.
Lemma u_lt : u < / 1000000000000000. Proof. apply u_small. Qed.
Lemma q_pos : forall k, 0 < (1 - u) ^ k. Proof. intro. apply pow_lt. pose proof u_pos; pose proof u_lt. lra. Qed.
Lemma q_le1 : forall k, (1 - u) ^ k <= 1.
Proof. induction k as [|k IH]; cbn [pow]; [lra|]. pose proof u_pos. pose proof (q_pos k). set (q := (1 - u) ^ k) in *. clearbody q. assert (0 <= u * q) by (apply Rmult_le_pos; lra). lra. Qed.
Lemma q_bernoulli : forall k, 1 - INR k * u <= (1 - u) ^ k.
Proof.
  induction k; [cbn; lra|]. rewrite S_INR. cbn [pow]. pose proof u_pos; pose proof u_lt. pose proof (pos_INR k).
  apply Rle_trans with ((1 - u) * (1 - INR k * u)); [nra|]. apply Rmult_le_compat_l; lra.
Qed.
Lemma near_refl : forall a, near 0 a a. Proof. intro. unfold near. cbn. lra. Qed.
Lemma near_sym : forall k a b, near k a b -> near k b a. Proof. unfold near. tauto. Qed.
Lemma near_weak : forall k l a b, (k <= l)%nat -> 0 <= a -> 0 <= b -> near k a b -> near l a b.
Proof.
  intros k l a b L A B [H1 H2]. replace l with (k + (l - k))%nat by lia. unfold near. rewrite pow_add. pose proof (q_le1 (l - k)). pose proof (q_pos (l - k)). pose proof (q_pos k).
  assert (0 <= (1 - u) ^ k * b) by nra. assert (0 <= (1 - u) ^ k * a) by nra. split; nra.
Qed.
Lemma near_trans : forall k l a b c, near k a b -> near l b c -> near (k + l) a c.
Proof.
  intros k l a b c [H1 H2] [H3 H4]. unfold near. rewrite pow_add. pose proof (q_pos k). pose proof (q_pos l). split.
  - apply Rle_trans with ((1 - u) ^ k * b); auto. rewrite Rmult_assoc. apply Rmult_le_compat_l; lra.
  - apply Rle_trans with ((1 - u) ^ l * b); auto. replace ((1 - u) ^ k * (1 - u) ^ l * a) with ((1 - u) ^ l * ((1 - u) ^ k * a)) by ring. apply Rmult_le_compat_l; lra.
Qed.
Lemma near_mul : forall k l a b c d, 0 <= a -> 0 <= b -> 0 <= c -> 0 <= d -> near k a b -> near l c d -> near (k + l) (a * c) (b * d).
Proof.
  intros k l a b c d A B C D [H1 H2] [H3 H4]. unfold near. rewrite pow_add. pose proof (q_pos k). pose proof (q_pos l). split.
  - replace ((1 - u) ^ k * (1 - u) ^ l * (b * d)) with (((1 - u) ^ k * b) * ((1 - u) ^ l * d)) by ring. apply Rmult_le_compat; auto; apply Rmult_le_pos; lra.
  - replace ((1 - u) ^ k * (1 - u) ^ l * (a * c)) with (((1 - u) ^ k * a) * ((1 - u) ^ l * c)) by ring. apply Rmult_le_compat; auto; apply Rmult_le_pos; lra.
Qed.
Lemma near_add : forall k a b c d, near k a b -> near k c d -> near k (a + c) (b + d).
Proof. intros k a b c d [] []. split; rewrite Rmult_plus_distr_l; lra. Qed.
Lemma near_inv : forall k a b, 0 < a -> 0 < b -> near k a b -> near k (/ a) (/ b).
Proof.
  intros k a b A B [H1 H2]. pose proof (q_pos k). split.
  - apply Rmult_le_reg_l with (a * b); [nra|]. replace (a * b * ((1 - u) ^ k * / b)) with ((1 - u) ^ k * a) by (field; lra). replace (a * b * / a) with b by (field; lra). auto.
  - apply Rmult_le_reg_l with (a * b); [nra|]. replace (a * b * ((1 - u) ^ k * / a)) with ((1 - u) ^ k * b) by (field; lra). replace (a * b * / b) with a by (field; lra). auto.
Qed.

(** 0, or at least 2^e *)
Definition big (e : Z) (a : R) : Prop := a = 0 \/ bpow radix2 e <= a.
Lemma big_nonneg : forall e a, big e a -> 0 <= a. Proof. intros e a [->|H]; [lra|]. pose proof (bpow_ge_0 radix2 e). lra. Qed.
Lemma big_mul : forall e f a b, big e a -> big f b -> big (e + f) (a * b).
Proof.
  intros e f a b [->|A] [->|B]; try (left; ring). right. rewrite bpow_plus. apply Rmult_le_compat; auto; apply bpow_ge_0.
Qed.
Lemma big_weak : forall e f a, (f <= e)%Z -> big e a -> big f a.
Proof. intros e f a L [->|A]; [left; auto|right]. apply Rle_trans with (bpow radix2 e); auto. apply bpow_le. auto. Qed.
Lemma big_add : forall e a b, big e a -> big e b -> big e (a + b).
Proof. intros e a b [->|A] [->|B]; [left; ring|right; lra|right; lra|right]. pose proof (bpow_ge_0 radix2 e). lra. Qed.
Lemma big_rnd : forall e a, (-1000 <= e)%Z -> big e a -> big e (rnd a) /\ near 1 (rnd a) a.
Proof.
  intros e a E [->|A].
  - rewrite rnd_0. split; [left; auto|]. unfold near. lra.
  - split. { right. rewrite <- (rnd_bpow (e := e)) by lia. apply rnd_le. auto. }
    pose proof (bpow_gt_0 radix2 e). assert (N : Rabs (rnd a - a) <= u * Rabs a).
    { apply rnd_err. rewrite Rabs_pos_eq by lra. apply Rle_trans with (bpow radix2 e); auto. apply bpow_le; lia. }
    rewrite (Rabs_pos_eq a) in N by lra. apply Rabs_le_inv in N. pose proof u_pos; pose proof u_lt. unfold near. rewrite pow_1. split; nra.
Qed.
(** one rounded product *)
Lemma step_mul : forall e f k a b c d, (-1000 <= e + f)%Z -> big e a -> big f c -> 0 <= b -> 0 <= d -> near k a b -> near 0 c d ->
  big (e + f) (rnd (a * c)) /\ near (S k) (rnd (a * c)) (b * d).
Proof.
  intros e f k a b c d E A C B D N M. destruct (@big_rnd (e + f) (a * c) E (big_mul A C)) as [B1 N1]. split; auto.
  replace (S k) with (1 + (k + 0))%nat by lia. eapply near_trans; [exact N1|]. apply near_mul; auto; eapply big_nonneg; eauto.
Qed.

(** the loop that adds up *)
Lemma sum_near : forall e k (f g : Z -> R) l, (-1000 <= e)%Z -> (forall i, In i l -> big e (f i) /\ 0 <= g i /\ near k (f i) (g i)) ->
  big e (sum_r (map f l)) /\ 0 <= sumR (map g l) /\ near (k + length l) (sum_r (map f l)) (sumR (map g l)).
Proof.
  intros e k f g l E. unfold sum_r.
  assert (Snoc : forall l z, sumR (l ++ [z]) = sumR l + z).
  { intros l0 z. induction l0 as [|t l0 IH]; cbn; [lra|]. fold (sumR l0). fold (sumR (l0 ++ [z])). rewrite IH. lra. }
  induction l as [|i l IH] using rev_ind; intros H.
  - cbn. split; [left; auto|]. split; [lra|]. unfold near. lra.
  - rewrite !map_app. cbn [map]. rewrite fold_left_app, Snoc. cbn [fold_left]. destruct IH as (B & P & N); [intros j Hj; apply H; apply in_or_app; auto|].
    set (acc := fold_left _ _ _) in *. destruct (H i) as (Bi & Pi & Ni); [apply in_or_app; right; left; auto|].
    destruct (@big_rnd e (acc + f i) E (big_add B Bi)) as [B1 N1]. split; [exact B1|]. split; [lra|].
    rewrite app_length. cbn [length]. replace (k + (length l + 1))%nat with (1 + (k + length l))%nat by lia. eapply near_trans; [exact N1|].
    apply near_add; auto. apply near_weak with k; auto; [lia|]. eapply big_nonneg; eauto.
Qed.

Lemma sqrt_near : forall e m, (-1000 <= e)%Z -> big (2 * e) m -> big e (rnd (sqrt m)) /\ near 2 (rnd (sqrt m) * rnd (sqrt m)) m.
Proof.
  intros e m E B. pose proof (big_nonneg B) as P. assert (Bs : big e (sqrt m)).
  { destruct B as [->|B]; [left; apply sqrt_0|right]. rewrite <- (sqrt_square (bpow radix2 e)) by apply bpow_ge_0. apply sqrt_le_1_alt. rewrite <- bpow_plus. replace (e + e)%Z with (2 * e)%Z by lia. auto. }
  destruct (@big_rnd e (sqrt m) E Bs) as [B1 N1]. split; auto. rewrite <- (sqrt_sqrt m P) at 3. pose proof (sqrt_pos m). pose proof (big_nonneg B1).
  apply (@near_mul 1 1); auto.
Qed.
Lemma pow_near : forall pw x, Rabs (pw - x ^ 2) <= 2 * u * x ^ 2 -> near 3 pw (x ^ 2).
Proof.
  intros p x H. apply Rabs_le_inv in H. pose proof u_pos; pose proof u_lt. assert (0 <= x ^ 2) by (cbn; nra). set (s := x ^ 2) in *. clearbody s.
  assert (0 < u * u) by nra. assert (Q : (1 - u) ^ 3 <= 1 - 2 * u) by (cbn; nra). pose proof (q_pos 3). split; [nra|].
  apply Rle_trans with ((1 - 2 * u) * (s + 2 * u * s)); [|nra]. apply Rle_trans with ((1 - u) ^ 3 * (s + 2 * u * s)); [apply Rmult_le_compat_l; lra|].
  apply Rmult_le_compat_r; [nra|auto].
Qed.
Lemma sumR_scale : forall (f : Z -> R) c l, sumR (map (fun i => f i * c) l) = sumR (map f l) * c.
Proof. intros f c l. induction l as [|i l IH]; cbn; [lra|]. unfold sumR in *. rewrite IH. lra. Qed.

(** the norm of any column *)
Section Norm.
Variable pw : R -> nat -> R.
Hypothesis pw_ok : forall x, 1 <= x -> Rabs (pw x 2 - x ^ 2) <= 2 * u * x ^ 2.
Variable x : Z -> R.
Variable w : Z -> R.
Variable L : list Z.
Hypothesis x_ok : forall i, In i L -> 1 <= x i <= bpow radix2 26.
Hypothesis w_ok : forall i, In i L -> w i = 0 \/ bpow radix2 (-200) <= Rabs (w i) <= bpow radix2 200.
Hypothesis some : exists i, In i L /\ w i <> 0.
Hypothesis len : (Z.of_nat (length L) <= 2 ^ 32)%Z.
Definition tau (i : Z) : R := Rabs (w i) * Rabs (w i) * x i * x i * dx.
Definition T : R := 2 * sumR (map tau L).
Definition M2 : R := rnd (2 * sum_r (map (norm_term x w) L)).
Definition N : R := rnd (sqrt M2).

Lemma dx_bounds : bpow radix2 (-7) <= dx <= 1.
Proof. pose proof dx_val. pose proof u_pos; pose proof u_lt. cbn. split; lra. Qed.
Lemma dx_big : big (-7) dx. Proof. right. apply dx_bounds. Qed.
Lemma x_big : forall i, In i L -> big 0 (x i). Proof. intros i H. right. cbn. apply x_ok. auto. Qed.
Lemma w_big : forall i, In i L -> big (-200) (Rabs (w i)).
Proof. intros i H. destruct (w_ok _ H) as [->|[A _]]; [left; apply Rabs_R0|right; auto]. Qed.
Lemma sq_abs : forall z, z * z = Rabs z * Rabs z.
Proof. intro z. rewrite <- Rabs_mult. rewrite Rabs_pos_eq; nra. Qed.
Lemma term_near : forall i, In i L -> big (-407) (norm_term x w i) /\ 0 <= tau i /\ near 4 (norm_term x w i) (tau i).
Proof.
  intros i H. unfold norm_term, tau. rewrite (sq_abs (w i)). pose proof (Rabs_pos (w i)) as P. destruct (x_ok _ H) as [X _]. pose proof dx_bounds as [D _]. assert (D0 : 0 < dx) by (cbn in D; lra).
  pose proof (w_big _ H) as Bw. pose proof (x_big _ H) as Bx. pose proof dx_big as Bd.
  destruct (@step_mul (-200) (-200) 0 (Rabs (w i)) (Rabs (w i)) (Rabs (w i)) (Rabs (w i)) ltac:(lia) Bw Bw P P (near_refl _) (near_refl _)) as [B1 N1].
  assert (P1 : 0 <= Rabs (w i) * Rabs (w i)) by nra.
  destruct (@step_mul (-200 + -200) 0 1 _ _ (x i) (x i) ltac:(lia) B1 Bx P1 ltac:(lra) N1 (near_refl _)) as [B2 N2].
  assert (P2 : 0 <= Rabs (w i) * Rabs (w i) * x i) by nra.
  destruct (@step_mul (-200 + -200 + 0) 0 2 _ _ (x i) (x i) ltac:(lia) B2 Bx P2 ltac:(lra) N2 (near_refl _)) as [B3 N3].
  assert (P3 : 0 <= Rabs (w i) * Rabs (w i) * x i * x i) by nra.
  destruct (@step_mul (-200 + -200 + 0 + 0) (-7) 3 _ _ dx dx ltac:(lia) B3 Bd P3 ltac:(lra) N3 (near_refl _)) as [B4 N4].
  split; [exact B4|]. split; [nra|exact N4].
Qed.
Lemma sum_ge : forall (f : Z -> R) l i, (forall j, In j l -> 0 <= f j) -> In i l -> f i <= sumR (map f l).
Proof.
  intros f l i. induction l as [|j l IH]; intros P H; [destruct H|]. cbn [map sumR fold_right]. fold (sumR (map f l)).
  assert (Q : 0 <= sumR (map f l)). { clear IH H. assert (P' : forall j0, In j0 l -> 0 <= f j0) by (intros; apply P; right; auto). clear P. induction l as [|t l IH]; cbn [map sumR fold_right]; [lra|]. fold (sumR (map f l)). pose proof (P' t (or_introl eq_refl)). assert (0 <= sumR (map f l)) by (apply IH; intros; apply P'; right; auto). lra. }
  destruct H as [->|H]; [lra|]. pose proof (P j (or_introl eq_refl)). assert (f i <= sumR (map f l)) by (apply IH; auto; intros; apply P; right; auto). lra.
Qed.
Lemma sum_le : forall (f : Z -> R) b l, (forall j, In j l -> f j <= b) -> sumR (map f l) <= INR (length l) * b.
Proof.
  intros f b l. induction l as [|j l IH]; intros H; [cbn; lra|]. cbn [map sumR fold_right length]. fold (sumR (map f l)). rewrite S_INR.
  pose proof (H j (or_introl eq_refl)). assert (sumR (map f l) <= INR (length l) * b) by (apply IH; intros; apply H; right; auto). lra.
Qed.
Lemma T_pos : 0 < T.
Proof.
  unfold T. destruct some as (i & Hi & W). assert (tau i <= sumR (map tau L)) by (apply sum_ge; auto; intros; apply term_near; auto).
  assert (0 < tau i). { unfold tau. assert (0 < Rabs (w i)) by (apply Rabs_pos_lt; auto). destruct (x_ok _ Hi) as [X _]. pose proof dx_bounds as [D _]. cbn in D. assert (0 < dx) by lra. assert (0 < Rabs (w i) * Rabs (w i)) by nra. assert (0 < Rabs (w i) * Rabs (w i) * x i) by nra. assert (0 < Rabs (w i) * Rabs (w i) * x i * x i) by nra. nra. }
  lra.
Qed.
Lemma T_le : T <= bpow radix2 490.
Proof.
  unfold T. apply Rle_trans with (bpow radix2 1 * (bpow radix2 32 * bpow radix2 452)).
  - change (bpow radix2 1) with 2. apply Rmult_le_compat_l; [lra|]. apply Rle_trans with (INR (length L) * bpow radix2 452).
    + apply sum_le. intros j H. unfold tau. destruct (x_ok _ H) as [X1 X2]. pose proof dx_bounds as [D1 D2]. pose proof (bpow_gt_0 radix2 (-7)).
      assert (W : Rabs (w j) <= bpow radix2 200). { destruct (w_ok _ H) as [->|[_ W]]; auto. rewrite Rabs_R0. apply bpow_ge_0. }
      pose proof (Rabs_pos (w j)). replace 452%Z with (200 + 200 + 26 + 26)%Z by lia. rewrite !bpow_plus.
      rewrite <- (Rmult_1_r (_ * _ * _ * bpow radix2 26)). repeat apply Rmult_le_compat; auto; try lra; repeat apply Rmult_le_pos; lra.
    + apply Rmult_le_compat_r; [apply bpow_ge_0|]. rewrite INR_IZR_INZ. change (bpow radix2 32) with (IZR (2 ^ 32)). apply IZR_le. auto.
  - rewrite <- !bpow_plus. apply bpow_le. lia.
Qed.
Lemma M2_near : big (-406) M2 /\ near (5 + length L) M2 T.
Proof.
  destruct (@sum_near (-407) 4 (norm_term x w) tau L ltac:(lia) (fun i H => term_near _ H)) as (B & P & Nr).
  assert (B2 : big 1 2) by (right; cbn; lra). unfold M2, T.
  destruct (@big_rnd (1 + -407) (2 * sum_r (map (norm_term x w) L)) ltac:(lia) (big_mul B2 B)) as [B1 N1].
  split; [exact B1|]. replace (5 + length L)%nat with (1 + (0 + (4 + length L)))%nat by lia. eapply near_trans; [exact N1|].
  apply near_mul; try lra; auto; [eapply big_nonneg; eauto|apply near_refl].
Qed.
Lemma N_near : big (-203) N /\ near (7 + length L) (N * N) T.
Proof.
  destruct M2_near as [B Nr]. unfold N. destruct (@sqrt_near (-203) M2 ltac:(lia) B) as [B1 N1]. split; auto.
  replace (7 + length L)%nat with (2 + (5 + length L))%nat by lia. eapply near_trans; eauto.
Qed.
Lemma q_half : forall k, (k <= 7 + length L)%nat -> / 2 <= (1 - u) ^ k.
Proof.
  intros k K. pose proof (q_bernoulli k) as Q. assert (INR k <= 4294967303). { rewrite INR_IZR_INZ. apply IZR_le. lia. }
  pose proof u_pos; pose proof u_lt. assert (INR k * u <= / 2) by (pose proof (pos_INR k); nra). lra.
Qed.
Lemma N_bounds : 0 < N /\ N <= bpow radix2 246.
Proof.
  destruct N_near as [B [H1 H2]]. pose proof T_pos. pose proof T_le. pose proof (big_nonneg B) as P. pose proof (@q_half (7 + length L) (le_n _)) as Q. set (q := (1 - u) ^ (7 + length L)) in *.
  assert (0 < N * N) by nra. split; [nra|]. assert (S : N * N <= 2 * T) by nra.
  destruct (Rle_or_lt N (bpow radix2 246)); auto. pose proof (bpow_gt_0 radix2 246). assert (bpow radix2 246 * bpow radix2 246 < N * N) by nra.
  rewrite <- bpow_plus in *. assert (bpow radix2 491 <= bpow radix2 (246 + 246)) by (apply bpow_le; lia).
  assert (bpow radix2 491 = 2 * bpow radix2 490) by (change 491%Z with (1 + 490)%Z; rewrite bpow_plus; reflexivity). lra.
Qed.
(** normalised rows *)
Definition z (i : Z) : R := rnd (w i / N).
Lemma z_near : forall i, In i L -> big (-446) (Rabs (z i)) /\ near 1 (Rabs (z i)) (Rabs (w i) / N).
Proof.
  intros i H. destruct N_bounds as [P U]. unfold z. rewrite rnd_abs. unfold Rdiv at 1 2. rewrite Rabs_mult, (Rabs_pos_eq (/ N)) by (left; apply Rinv_0_lt_compat; auto).
  apply big_rnd; [lia|]. replace (-446)%Z with (-200 + -246)%Z by lia. apply big_mul; [apply w_big; auto|]. right. replace (-246)%Z with (- (246))%Z by lia. rewrite bpow_opp. apply Rinv_le_contravar; auto.
Qed.
Definition mu_term (i : Z) : R := rnd (rnd (rnd (z i * z i) * pw (x i) 2) * dx).
Lemma mu_near : forall i, In i L -> big (-900) (mu_term i) /\ 0 <= tau i / (N * N) /\ near 8 (mu_term i) (tau i / (N * N)).
Proof.
  intros i H. unfold mu_term. rewrite (sq_abs (z i)). destruct N_bounds as [P _]. destruct (z_near _ H) as [Bz Nz]. destruct (x_ok _ H) as [X _]. pose proof dx_bounds as [D _]. pose proof (bpow_gt_0 radix2 (-7)).
  pose proof (Rabs_pos (w i)) as Pw. pose proof (Rabs_pos (z i)) as Pz. assert (Pq : 0 <= Rabs (w i) / N) by (apply Rmult_le_pos; auto; left; apply Rinv_0_lt_compat; auto).
  destruct (@big_rnd (-446 + -446) (Rabs (z i) * Rabs (z i)) ltac:(lia) (big_mul Bz Bz)) as [B1 N1].
  assert (N1' : near 3 (rnd (Rabs (z i) * Rabs (z i))) (Rabs (w i) / N * (Rabs (w i) / N))).
  { change 3%nat with (1 + (1 + 1))%nat. eapply near_trans; [exact N1|]. apply near_mul; auto. }
  pose proof (@pow_near _ (x i) (pw_ok X)) as Np. assert (Xp : 0 <= x i ^ 2) by (cbn; nra).
  assert (Bp : big (-1) (pw (x i) 2)).
  { right. destruct Np as [Np _]. pose proof u_pos; pose proof u_lt. pose proof (q_bernoulli 3) as Q3. cbn [INR] in Q3. assert (1 <= x i ^ 2) by (cbn; nra). cbn [bpow]. change (IZR (Zpower_pos radix2 1)) with 2. set (q3 := (1 - u) ^ 3) in *. clearbody q3. set (s := x i ^ 2) in *. clearbody s. change (bpow radix2 (-1)) with (/ 2). assert (/ 2 <= q3) by lra. apply Rle_trans with (q3 * 1); [lra|]. apply Rle_trans with (q3 * s); [|exact Np]. apply Rmult_le_compat_l; lra. }
  destruct (@big_rnd (-446 + -446 + -1) (rnd (Rabs (z i) * Rabs (z i)) * pw (x i) 2) ltac:(lia) (big_mul B1 Bp)) as [B2 N2].
  assert (Pqq : 0 <= Rabs (w i) / N * (Rabs (w i) / N)) by (apply Rmult_le_pos; auto).
  assert (N2' : near 7 (rnd (rnd (Rabs (z i) * Rabs (z i)) * pw (x i) 2)) (Rabs (w i) / N * (Rabs (w i) / N) * x i ^ 2)).
  { change 7%nat with (1 + (3 + 3))%nat. eapply near_trans; [exact N2|]. apply near_mul; auto; eapply big_nonneg; eauto. }
  pose proof dx_big as Bd. assert (Pqx : 0 <= Rabs (w i) / N * (Rabs (w i) / N) * x i ^ 2) by (apply Rmult_le_pos; auto).
  destruct (@step_mul (-446 + -446 + -1) (-7) 7 _ _ dx dx ltac:(lia) B2 Bd Pqx ltac:(lra) N2' (near_refl _)) as [B3 N3].
  assert (E : Rabs (w i) / N * (Rabs (w i) / N) * x i ^ 2 * dx = tau i / (N * N)) by (unfold tau; field; lra).
  rewrite E in N3. split; [eapply big_weak; [|exact B3]; lia|]. split; [|exact N3]. rewrite <- E. apply Rmult_le_pos; auto; lra.
Qed.
(** [L'] : the rows that are added, the others are zero *)
Lemma mu_one : forall L', incl L' L -> (length L' <= length L)%nat -> sumR (map tau L') = sumR (map tau L) ->
  near (2 * length L + 16) (rnd (2 * sum_r (map mu_term L'))) 1.
Proof.
  intros L' I Len E. destruct (@sum_near (-900) 8 mu_term (fun i => tau i / (N * N)) L' ltac:(lia) (fun i H => mu_near _ (I i H))) as (B & P & Nr).
  assert (B2 : big 1 2) by (right; cbn; lra). destruct (@big_rnd (1 + -900) (2 * sum_r (map mu_term L')) ltac:(lia) (big_mul B2 B)) as [B1 N1].
  assert (Es : sumR (map (fun i => tau i / (N * N)) L') = sumR (map tau L) * / (N * N)) by (unfold Rdiv; rewrite sumR_scale, E; reflexivity).
  destruct N_near as [_ Nn]. destruct N_bounds as [Pn _]. pose proof T_pos as Tp. assert (Pnn : 0 < N * N) by nra.
  assert (N3 : near (1 + (0 + (8 + length L'))) (rnd (2 * sum_r (map mu_term L'))) (T * / (N * N))).
  { eapply near_trans; [exact N1|]. unfold T. rewrite Rmult_assoc, <- Es. apply near_mul; try lra; auto; [eapply big_nonneg; eauto|apply near_refl]. }
  assert (N4 : near (0 + (7 + length L)) (T * / (N * N)) (T * / T)).
  { assert (0 < / (N * N)) by (apply Rinv_0_lt_compat; auto). assert (0 < / T) by (apply Rinv_0_lt_compat; auto). apply near_mul; try lra; [apply near_refl|]. apply near_inv; auto. }
  rewrite Rinv_r in N4 by lra. pose proof (near_trans N3 N4) as Nf. eapply near_weak; [| | |exact Nf]; [lia| |lra]. eapply big_nonneg; eauto.
Qed.
End Norm.
Lemma near_one : forall k a, near k a 1 -> (Z.of_nat k <= 2 ^ 40)%Z -> Rabs (a - 1) <= INR k * (2 * u).
Proof.
  intros k a [H1 H2] K. pose proof (q_bernoulli k) as Q. pose proof (q_pos k). pose proof u_pos as U; pose proof u_lt. set (q := (1 - u) ^ k) in *. clearbody q. rewrite Rmult_1_r in H1.
  assert (INR k <= 1099511627776). { rewrite INR_IZR_INZ. apply IZR_le. lia. } pose proof (pos_INR k). assert (INR k * u <= / 100) by nra. assert (0 <= INR k * u) by nra.
  set (e := INR k * u) in *. replace (INR k * (2 * u)) with (2 * e) by (unfold e; ring). clearbody e. apply Rabs_le. split; [lra|].
  assert (0 <= a) by lra. assert ((1 - e) * a <= 1) by nra. nra.
Qed.

Lemma eps_half : 2 * u = bpow radix2 (-52). Proof. unfold u. cbn. lra. Qed.
Lemma sumR_app : forall l m, sumR (l ++ m) = sumR l + sumR m.
Proof. intros l m. unfold sumR. induction l as [|t l IH]; cbn; [lra|]. rewrite IH. lra. Qed.
Lemma grid_ge1 : forall a i, (1 <= a)%Z -> (0 <= i)%Z -> 1 <= grid a i.
Proof.
  intros a i A I. unfold grid. change 1 with (bpow radix2 0). rewrite <- (rnd_bpow (e := 0)) by lia. apply rnd_le. cbn [bpow]. apply IZR_le in A. apply IZR_le in I.
  assert (0 <= rnd (IZR i * dx)). { rewrite <- rnd_0. apply rnd_le. pose proof dx_bounds as [D _]. cbn in D. apply Rmult_le_pos; lra. } lra.
Qed.
Lemma start_pos : 0 < rnd (/ 10 ^ 10).
Proof.
  apply Rlt_le_trans with (bpow radix2 (-34)); [apply bpow_gt_0|]. rewrite <- (rnd_bpow (e := -34)) by lia. apply rnd_le. cbn. lra.
Qed.
Lemma rows_self : forall a n, grid_ok a n -> rows_used a n a n = Ok (map (fun j => (Z.of_nat j, Z.of_nat j)) (seq 0 (n - 1))).
Proof.
  intros a n G. rewrite rows_used_eq by auto. rewrite Z.max_id, Z.min_id. pose proof G as (A & N & K).
  destruct (Z.leb_spec (100 * a) (100 * a + Z.of_nat n - 1)); [|lia]. f_equal. rewrite !Z.sub_diag.
  replace (100 * a + Z.of_nat n - 1 - 100 * a)%Z with (Z.of_nat (n - 1)) by lia.
  assert (S : forall f k i, (n - 1 - k <= f)%nat -> i = Z.of_nat k -> steps f i i (Z.of_nat (n - 1)) (Z.of_nat (n - 1)) = map (fun j => (Z.of_nat j, Z.of_nat j)) (seq k (n - 1 - k))).
  { induction f as [|f IH]; intros k i F ->; cbn [steps].
    - replace (n - 1 - k)%nat with 0%nat by lia. reflexivity.
    - destruct (Z.ltb_spec (Z.of_nat k) (Z.of_nat (n - 1))); cbn [andb].
      + rewrite (IH (S k)) by lia. replace (n - 1 - k)%nat with (S (n - 1 - S k)) by lia. reflexivity.
      + replace (n - 1 - k)%nat with 0%nat by lia. reflexivity. }
  rewrite (S (n + n)%nat 0%nat) by lia. rewrite Nat.sub_0_r. reflexivity.
Qed.
