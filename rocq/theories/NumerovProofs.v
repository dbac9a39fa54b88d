(** Numerov's scheme: local error and error of the whole integration. *)
From Coq Require Import Reals Lra Lia ZArith Psatz List.
From Coquelicot Require Import Coquelicot.
From Verif Require Import Base WaveModel.
Set Implicit Arguments.
Local Open Scope R_scope.

(** ** Taylor's formula with a bound *)
Fixpoint tp (n : nat) (E : nat -> R -> R) (t : R) : R :=
  match n with O => 0 | S k => tp k E t + t ^ k / INR (fact k) * E k 0 end.
Lemma tp_0 : forall n E, tp (S n) E 0 = E 0%nat 0.
Proof.
  induction n as [|n IH]; intro E; cbn [tp]; [cbn; field|]. cbn [tp] in IH. rewrite IH. cbn [pow]. field. apply INR_fact_neq_0.
Qed.
Lemma tp_derive : forall n E t, is_derive (tp (S n) E) t (tp n (fun k => E (S k)) t).
Proof.
  induction n as [|n IH]; intros E t.
  - cbn [tp]. auto_derive; auto. ring.
  - change (is_derive (fun t => tp (S n) E t + t ^ (S n) / INR (fact (S n)) * E (S n) 0) t (tp n (fun k => E (S k)) t + t ^ n / INR (fact n) * E (S n) 0)).
    apply (@is_derive_plus R_AbsRing R_NormedModule); [apply IH|]. assert (F : INR (fact (S n)) = INR (S n) * INR (fact n)) by (rewrite <- mult_INR; reflexivity).
    assert (F1 : INR (fact n) <> 0) by apply INR_fact_neq_0. assert (F2 : INR (S n) <> 0) by (apply not_0_INR; lia).
    rewrite F. auto_derive; [repeat split; auto|]. cbn [Nat.pred]. change (match n with 0%nat => 1 | S _ => INR n + 1 end) with (INR (S n)). field. auto.
Qed.
Lemma bound_step : forall (f f1 : R -> R) h M n, (forall t, 0 <= t <= h -> is_derive f t (f1 t)) -> f 0 = 0 ->
  (forall t, 0 <= t <= h -> Rabs (f1 t) <= M * (t ^ n / INR (fact n))) ->
  forall t, 0 <= t <= h -> Rabs (f t) <= M * (t ^ S n / INR (fact (S n))).
Proof.
  intros f f1 h M n D Z B t Ht. assert (F : INR (fact (S n)) = INR (S n) * INR (fact n)) by (rewrite <- mult_INR; reflexivity).
  assert (F1 : INR (fact n) <> 0) by apply INR_fact_neq_0. assert (F2 : INR (S n) <> 0) by (apply not_0_INR; lia).
  assert (Q : forall sg, sg * sg = 1 -> 0 <= M * (t ^ S n / INR (fact (S n))) - sg * f t).
  { intros sg Hs.
    assert (DG : forall u, 0 <= u <= h -> is_derive (fun u => M * (u ^ S n / INR (fact (S n))) - sg * f u) u (M * (u ^ n / INR (fact n)) - sg * f1 u)).
    { intros u Hu. apply (@is_derive_minus R_AbsRing R_NormedModule).
      + rewrite F. auto_derive; [repeat split; auto|]. cbn [Nat.pred]. change (match n with 0%nat => 1 | S _ => INR n + 1 end) with (INR (S n)). field. auto.
      + exact (is_derive_scal f u sg _ (D u Hu)). }
    destruct (MVT_gen (fun u => M * (u ^ S n / INR (fact (S n))) - sg * f u) 0 t (fun u => M * (u ^ n / INR (fact n)) - sg * f1 u)) as (c & Hc & E).
    - rewrite Rmin_left, Rmax_right by lra. intros u Hu. apply DG. lra.
    - rewrite Rmin_left, Rmax_right by lra. intros u Hu. apply derivable_continuous_pt. eexists. apply is_derive_Reals. apply DG. lra.
    - rewrite Rmin_left, Rmax_right in Hc by lra. cbn [pow] in E. rewrite Z in E. replace (M * (0 * 0 ^ n / INR (fact (S n))) - sg * 0) with 0 in E by (rewrite F; field; auto).
      specialize (B c ltac:(lra)). cbn [pow]. rewrite Rminus_0_r in E. rewrite E. apply Rmult_le_pos; [|lra].
      assert (sg = 1 \/ sg = -1) as [-> | ->] by (assert ((sg - 1) * (sg + 1) = 0) by lra; apply Rmult_integral in H; lra); revert B; unfold Rabs; destruct (Rcase_abs _); lra. }
  pose proof (Q 1 ltac:(lra)). pose proof (Q (-1) ltac:(lra)). unfold Rabs; destruct (Rcase_abs _); lra.
Qed.
Lemma taylor_bound : forall n E h M, (forall k t, (k < n)%nat -> 0 <= t <= h -> is_derive (E k) t (E (S k) t)) -> (forall t, 0 <= t <= h -> Rabs (E n t) <= M) ->
  forall t, 0 <= t <= h -> Rabs (E 0%nat t - tp n E t) <= M * (t ^ n / INR (fact n)).
Proof.
  induction n as [|n IH]; intros E h M D B t Ht.
  - cbn. rewrite Rminus_0_r. replace (M * (1 / 1)) with M by field. auto.
  - apply (@bound_step (fun t => E 0%nat t - tp (S n) E t) (fun t => E 1%nat t - tp n (fun k => E (S k)) t) h M n); auto.
    + intros u Hu. apply (@is_derive_minus R_AbsRing R_NormedModule); [apply D; [lia|auto]|apply tp_derive].
    + rewrite tp_0. ring.
    + intros u Hu. apply (IH (fun k => E (S k)) h M); auto. intros k v Hk Hv. apply D; [lia|auto].
Qed.

(** ** The local error *)
(** D k is the k-th derivative of D 0 at all positive places, for k up to 6. *)
Definition smooth6 (D : nat -> R -> R) : Prop := forall k t, (k < 6)%nat -> 0 < t -> is_derive (D k) t (D (S k) t).
Lemma shifted : forall D x sg (E := fun k t => sg ^ k * D k (x + sg * t)) k t, smooth6 D -> (k < 6)%nat -> 0 < x + sg * t -> is_derive (E k) t (E (S k) t).
Proof.
  intros D x sg E k t S Hk H. unfold E.
  assert (A : is_derive (fun t => x + sg * t) t sg) by (auto_derive; auto; ring).
  pose proof (is_derive_comp (D k) (fun t => x + sg * t) t _ _ (S k _ Hk H) A) as B. pose proof (is_derive_scal _ t (sg ^ k) _ B) as C. cbn in C.
  replace (sg ^ Datatypes.S k * D (Datatypes.S k) (x + sg * t)) with (sg ^ k * scal sg (D (Datatypes.S k) (x + sg * t))); [exact C|].
  unfold scal; cbn. unfold mult; cbn. ring.
Qed.
Lemma local_error : forall D x h M, smooth6 D -> 0 < h < x -> (forall t, x - h <= t <= x + h -> Rabs (D 6%nat t) <= M) ->
  Rabs (D 0%nat (x - h) + D 0%nat (x + h) - 2 * D 0%nat x - h * h / 12 * (D 2%nat (x - h) + 10 * D 2%nat x + D 2%nat (x + h))) <= 7 / 720 * M * h ^ 6.
Proof.
  intros D x h M SM H B.
  assert (T : forall sg, sg = 1 \/ sg = -1 -> let E := fun k t => sg ^ k * D k (x + sg * t) in
    Rabs (E 0%nat h - tp 6 E h) <= M * (h ^ 6 / 720) /\ Rabs (E 2%nat h - tp 4 (fun k => E (S (S k))) h) <= M * (h ^ 4 / 24)).
  { intros sg Hs E. assert (B6 : forall t, 0 <= t <= h -> Rabs (E 6%nat t) <= M).
    { intros t Ht. unfold E. replace (sg ^ 6) with 1 by (destruct Hs as [-> | ->]; ring). rewrite Rmult_1_l. apply B. destruct Hs as [-> | ->]; lra. }
    split.
    - replace 720 with (INR (fact 6)) by (rewrite INR_IZR_INZ; reflexivity). apply (@taylor_bound 6 E h M); auto; [|lra]. intros k t Hk Ht. apply shifted; auto. destruct Hs as [-> | ->]; lra.
    - replace 24 with (INR (fact 4)) by (rewrite INR_IZR_INZ; reflexivity). apply (@taylor_bound 4 (fun k => E (S (S k))) h M); auto; [|lra]. intros k t Hk Ht. apply shifted; auto; [lia|]. destruct Hs as [-> | ->]; lra. }
  destruct (T 1 (or_introl eq_refl)) as [P1 P2]. destruct (T (-1) (or_intror eq_refl)) as [Q1 Q2]. clear T. cbv zeta in *. cbn [tp] in *.
  replace (INR (fact 0)) with 1 in * by reflexivity. replace (INR (fact 1)) with 1 in * by reflexivity. replace (INR (fact 2)) with 2 in * by (rewrite INR_IZR_INZ; reflexivity).
  replace (INR (fact 3)) with 6 in * by (rewrite INR_IZR_INZ; reflexivity). replace (INR (fact 4)) with 24 in * by (rewrite INR_IZR_INZ; reflexivity). replace (INR (fact 5)) with 120 in * by (rewrite INR_IZR_INZ; reflexivity).
  replace (x + 1 * h) with (x + h) in * by ring. replace (x + -1 * h) with (x - h) in * by ring. rewrite !Rmult_0_r, !Rplus_0_r in *.
  set (d0 := D 0%nat x) in *. set (d1 := D 1%nat x) in *. set (d2 := D 2%nat x) in *. set (d3 := D 3%nat x) in *. set (d4 := D 4%nat x) in *. set (d5 := D 5%nat x) in *.
  set (p0 := D 0%nat (x + h)) in *. set (m0 := D 0%nat (x - h)) in *. set (p2 := D 2%nat (x + h)) in *. set (m2 := D 2%nat (x - h)) in *. clearbody d0 d1 d2 d3 d4 d5 p0 m0 p2 m2. clear SM B.
  match type of P1 with Rabs ?e <= _ => set (A1 := e) in * end. match type of P2 with Rabs ?e <= _ => set (A2 := e) in * end.
  match type of Q1 with Rabs ?e <= _ => set (A3 := e) in * end. match type of Q2 with Rabs ?e <= _ => set (A4 := e) in * end.
  replace (m0 + p0 - 2 * d0 - h * h / 12 * (m2 + 10 * d2 + p2)) with (A1 + A3 - h * h / 12 * (A2 + A4)) by (unfold A1, A2, A3, A4; field).
  clearbody A1 A2 A3 A4. assert (HH : 0 <= h * h / 12) by nra.
  assert (U : h * h / 12 * Rabs (A2 + A4) <= h * h / 12 * (2 * (M * (h ^ 4 / 24)))) by (apply Rmult_le_compat_l; auto; eapply Rle_trans; [apply Rabs_triang|lra]).
  eapply Rle_trans; [apply Rabs_triang|]. rewrite Rabs_Ropp, Rabs_mult, (Rabs_pos_eq _ HH). eapply Rle_trans; [apply Rplus_le_compat; [apply Rabs_triang|exact U]|].
  replace (7 / 720 * M * h ^ 6) with (2 * (M * (h ^ 6 / 720)) + h * h / 12 * (2 * (M * (h ^ 4 / 24)))) by field. lra.
Qed.

(** ** Growth of errors *)
Lemma exp_ge : forall s, 0 <= s <= 1 -> 1 + s + s * s <= exp (2 * s).
Proof. intros s H. assert (1 + 2 * s <= exp (2 * s)). { destruct (Req_dec s 0) as [->|N]; [rewrite Rmult_0_r, exp_0; lra|]. left. apply exp_ineq1. lra. } nra. Qed.
Lemma growth : forall (w : nat -> R) s tau N, 0 <= s <= 1 -> 0 <= tau ->
  (forall k, (k + 2 <= N)%nat -> Rabs (w (S (S k)) - 2 * w (S k) + w k) <= s * s * Rabs (w (S k)) + tau) ->
  forall k, (k + 1 <= N)%nat -> s * Rabs (w k) + Rabs (w (S k) - w k) <= exp (2 * s * INR k) * (s * Rabs (w 0%nat) + Rabs (w 1%nat - w 0%nat) + INR k * tau).
Proof.
  intros w s tau N Hs Ht H. induction k as [|k IH]; intro Hk.
  - cbn [INR]. rewrite Rmult_0_r, exp_0. lra.
  - specialize (IH ltac:(lia)). specialize (H k ltac:(lia)). set (n0 := s * Rabs (w 0%nat) + Rabs (w 1%nat - w 0%nat)) in *.
    assert (A : Rabs (w (S k)) <= Rabs (w k) + Rabs (w (S k) - w k)) by (replace (w (S k)) with (w k + (w (S k) - w k)) at 1 by ring; apply Rabs_triang).
    assert (B : Rabs (w (S (S k)) - w (S k)) <= Rabs (w (S k) - w k) + (s * s * Rabs (w (S k)) + tau)).
    { replace (w (S (S k)) - w (S k)) with ((w (S k) - w k) + (w (S (S k)) - 2 * w (S k) + w k)) by ring. eapply Rle_trans; [apply Rabs_triang|lra]. }
    pose proof (Rabs_pos (w k)) as P1. pose proof (Rabs_pos (w (S k) - w k)) as P2. pose proof (Rabs_pos (w (S k))) as P3.
    set (a := Rabs (w k)) in *. set (d := Rabs (w (S k) - w k)) in *. set (a' := Rabs (w (S k))) in *. set (d' := Rabs (w (S (S k)) - w (S k))) in *. clearbody a d a' d'.
    assert (C : s * a' + d' <= (1 + s + s * s) * (s * a + d) + tau).
    { assert (s * a' <= s * (a + d)) by nra. assert (s * s * a' <= s * s * (a + d)) by nra. assert (0 <= s * s * s * a) by (repeat apply Rmult_le_pos; lra). nra. }
    rewrite S_INR. replace (2 * s * (INR k + 1)) with (2 * s + 2 * s * INR k) by ring. rewrite exp_plus. pose proof (exp_ge Hs) as X. pose proof (pos_INR k) as PK.
    assert (Y1 : 1 <= exp (2 * s)) by nra. assert (Y2 : 1 <= exp (2 * s * INR k)).
    { rewrite <- exp_0. destruct (Req_dec (2 * s * INR k) 0) as [->|Nz]; [lra|]. left. apply exp_increasing. assert (0 <= 2 * s * INR k) by (apply Rmult_le_pos; lra). lra. }
    set (E := exp (2 * s)) in *. set (F := exp (2 * s * INR k)) in *. clearbody E F.
    assert (Z1 : (1 + s + s * s) * (s * a + d) <= E * (s * a + d)) by (apply Rmult_le_compat_r; nra).
    assert (Z2 : E * (s * a + d) <= E * (F * (n0 + INR k * tau))) by (apply Rmult_le_compat_l; lra).
    assert (Z3 : tau <= E * F * tau). { assert (1 <= E * F) by nra. nra. }
    nra.
Qed.

(** ** The integration of the code *)
Section Run.
Variable g : R -> R.
Variable a : R.
Variable n : nat.
Variable odd : bool.
(** the places without rounding *)
Definition place (i : Z) : R := a + IZR i * dx.
(** rows n-1, n-2, ... of the code *)
Definition y (k : nat) : R := raw g place n odd (row n k).
Lemma y_0 : y 0 = 0. Proof. unfold y, raw, row. replace (Z.to_nat _) with 0%nat by lia. reflexivity. Qed.
Lemma y_S : forall k, y (S k) = fst (below2 g place n odd k).
Proof. intro k. unfold y, raw, row. replace (Z.to_nat _) with (S k) by lia. reflexivity. Qed.
Definition cc (k : nat) : R := 1 - / 12 * dx * dx * gat g place n k.
Lemma below_pair : forall k, below2 g place n odd k = (y (S k), y k).
Proof.
  intros [|k]; [rewrite y_0, y_S; reflexivity|]. rewrite !y_S. rewrite (surjective_pairing (below2 g place n odd (S k))) at 1. f_equal.
  cbn [below2]. destruct (below2 g place n odd k). reflexivity.
Qed.
Lemma recurrence : forall k, cc (S (S k)) <> 0 ->
  cc (S (S k)) * y (S (S k)) = 2 * (cc (S k) * y (S k)) + dx * dx * gat g place n (S k) * y (S k) - cc k * y k.
Proof.
  intros k H. rewrite (y_S (S k)). cbn [below2]. rewrite below_pair. cbn [fst]. change (cc (S k)) with (1 - / 12 * dx * dx * gat g place n (S k)).
  change (1 - / 12 * dx * dx * gat g place n k) with (cc k). change (1 - / 12 * dx * dx * gat g place n (S (S k))) with (cc (S (S k))). field. exact H.
Qed.

(** The exact solution [D 0] of X'' = g(x^2) X at the same places *)
Variable D : nat -> R -> R.
Hypothesis smooth : smooth6 D.
Hypothesis solves : forall t, 0 < t -> D 2%nat t = g (t * t) * D 0%nat t.
Variables G M : R.
Hypothesis a_pos : 0 < a.
Hypothesis G_pos : 0 < G.
Hypothesis fine : 2 * (dx * dx * G) <= 1.
Hypothesis boundG : forall i, (0 <= i < Z.of_nat n)%Z -> Rabs (g (place i * place i)) <= G.
Hypothesis boundM : forall t, a <= t <= place (Z.of_nat n - 1) -> Rabs (D 6%nat t) <= M.

Lemma dx_pos : 0 < dx.
Proof using. unfold dx. apply Rmult_lt_0_compat; [apply IZR_lt; lia|]. apply Flocq.Core.Raux.bpow_gt_0. Qed.
Lemma place_pos : forall i, (0 <= i)%Z -> a <= place i.
Proof using. intros i Hi. unfold place. assert (0 <= IZR i) by (apply IZR_le; auto). pose proof dx_pos. nra. Qed.
Lemma place_row : forall k, place (row n k) - dx = place (row n (S k)).
Proof using. intro k. unfold place, row. replace (Z.of_nat n - 1 - Z.of_nat (S k))%Z with ((Z.of_nat n - 1 - Z.of_nat k) - 1)%Z by lia. generalize (Z.of_nat n - 1 - Z.of_nat k)%Z as i. intro i. rewrite minus_IZR. ring. Qed.
Definition ex (k : nat) : R := D 0%nat (place (row n k)).
Definition err (k : nat) : R := y k - ex k.
Lemma cc_half : forall k, (k < n)%nat -> / 2 <= cc k.
Proof using boundG fine.
  intros k Hk. assert (B : Rabs (gat g place n k) <= G) by (unfold gat; apply boundG; unfold row; lia). unfold cc.
  assert (0 <= dx * dx) by (pose proof dx_pos; nra). apply Rabs_le_between in B.
  assert (dx * dx * gat g place n k <= dx * dx * G) by (apply Rmult_le_compat_l; lra). lra.
Qed.
Lemma exact_recurrence : forall k, (k + 2 < n)%nat ->
  Rabs (cc (S (S k)) * ex (S (S k)) - 2 * (cc (S k) * ex (S k)) - dx * dx * gat g place n (S k) * ex (S k) + cc k * ex k) <= 7 / 720 * M * dx ^ 6.
Proof using smooth solves boundM a_pos.
  intros k Hk. pose proof dx_pos as P. set (x := place (row n (S k))).
  assert (R1 : x + dx = place (row n k)) by (unfold x; rewrite <- place_row; ring).
  assert (R2 : x - dx = place (row n (S (S k)))) by apply place_row.
  assert (X : a <= x - dx) by (rewrite R2; apply place_pos; unfold row; lia).
  assert (Y : x + dx <= place (Z.of_nat n - 1)).
  { rewrite R1. unfold place, row. assert (IZR (Z.of_nat n - 1 - Z.of_nat k) <= IZR (Z.of_nat n - 1)) by (apply IZR_le; lia). nra. }
  assert (L := @local_error D x dx M smooth ltac:(lra) ltac:(intros; apply boundM; lra)).
  replace (cc (S (S k)) * ex (S (S k)) - 2 * (cc (S k) * ex (S k)) - dx * dx * gat g place n (S k) * ex (S k) + cc k * ex k) with
    (D 0%nat (x - dx) + D 0%nat (x + dx) - 2 * D 0%nat x - dx * dx / 12 * (D 2%nat (x - dx) + 10 * D 2%nat x + D 2%nat (x + dx))); [exact L|].
  rewrite (@solves (x - dx)), (@solves x), (@solves (x + dx)) by lra. unfold cc, ex, gat. fold x. rewrite R1, R2. field.
Qed.
Lemma error_bound : forall k, (k < n)%nat -> (2 <= n)%nat -> y 0 = ex 0 -> y 1 = ex 1 ->
  Rabs (y k - ex k) <= 2 * exp (2 * (INR k * dx) * sqrt (2 * G)) * (INR k * dx) * (7 / 720 * M * dx ^ 4) / sqrt (2 * G).
Proof using smooth solves boundM a_pos G_pos fine boundG.
  intros k Hk N2 E0 E1. pose proof dx_pos as P. assert (SG : 0 < sqrt (2 * G)) by (apply sqrt_lt_R0; lra). assert (SS : sqrt (2 * G) * sqrt (2 * G) = 2 * G) by (apply sqrt_def; lra).
  set (r := sqrt (2 * G)) in *. set (s := dx * r). set (w := fun k => cc k * err k).
  assert (M0 : 0 <= M). { eapply Rle_trans; [apply Rabs_pos|apply (@boundM (place 0))]. unfold place. assert (IZR 0 <= IZR (Z.of_nat n - 1)) by (apply IZR_le; lia). split; [lra|]. rewrite Rmult_0_l in *. nra. }
  assert (T0 : 0 <= 7 / 720 * M * dx ^ 6) by (apply Rmult_le_pos; [lra|apply pow_le; lra]).
  assert (S1 : s * s = 2 * (dx * dx * G)) by (unfold s; replace (dx * r * (dx * r)) with (dx * dx * (r * r)) by ring; rewrite SS; ring).
  assert (S0 : 0 <= s <= 1). { assert (0 < s) by (unfold s; apply Rmult_lt_0_compat; auto). split; [lra|]. nra. }
  assert (W : forall k, (k < n)%nat -> Rabs (err k) <= 2 * Rabs (w k)).
  { intros i Hi. unfold w. rewrite Rabs_mult. pose proof (cc_half Hi). rewrite (Rabs_pos_eq (cc i)) by lra. pose proof (Rabs_pos (err i)). nra. }
  assert (GR := @growth w s (7 / 720 * M * dx ^ 6) (n - 1) S0 T0).
  assert (H : forall k, (k + 1 <= n - 1)%nat -> s * Rabs (w k) + Rabs (w (S k) - w k) <= exp (2 * s * INR k) * (s * Rabs (w 0%nat) + Rabs (w 1%nat - w 0%nat) + INR k * (7 / 720 * M * dx ^ 6))).
  { apply GR. intros i Hi. assert (X := @exact_recurrence i ltac:(lia)). pose proof (@cc_half (S (S i)) ltac:(lia)) as C2. pose proof (@recurrence i ltac:(lra)) as Rc.
    assert (Q : w (S (S i)) - 2 * w (S i) + w i = dx * dx * gat g place n (S i) * err (S i) -
      (cc (S (S i)) * ex (S (S i)) - 2 * (cc (S i) * ex (S i)) - dx * dx * gat g place n (S i) * ex (S i) + cc i * ex i)).
    { unfold w, err. rewrite !Rmult_minus_distr_l. rewrite Rc. ring. }
    rewrite Q. unfold Rminus at 1. eapply Rle_trans; [apply Rabs_triang|]. rewrite Rabs_Ropp. apply Rplus_le_compat; [|exact X].
    rewrite Rabs_mult, Rabs_mult. rewrite (Rabs_pos_eq (dx * dx)) by nra. assert (BG : Rabs (gat g place n (S i)) <= G) by (unfold gat; apply boundG; unfold row; lia).
    rewrite S1. pose proof (W (S i) ltac:(lia)) as WI. pose proof (Rabs_pos (err (S i))). pose proof (Rabs_pos (gat g place n (S i))). assert (0 <= dx * dx) by nra.
    apply Rle_trans with (dx * dx * G * (2 * Rabs (w (S i)))); [|right; ring]. apply Rmult_le_compat; auto; [apply Rmult_le_pos; auto|]. apply Rmult_le_compat_l; auto. }
  assert (Z0 : w 0%nat = 0) by (unfold w, err; rewrite E0; ring). assert (Z1 : w 1%nat = 0) by (unfold w, err; rewrite E1; ring).
  rewrite Z0, Z1, Rminus_0_r, Rabs_R0, Rmult_0_r, Rplus_0_l in H.
  assert (H' : s * Rabs (w k) <= exp (2 * s * INR k) * (INR k * (7 / 720 * M * dx ^ 6))).
  { destruct k as [|k]; [rewrite Z0, Rabs_R0; cbn [INR]; lra|]. specialize (H k ltac:(lia)). rewrite Rplus_0_l in H.
    assert (A : Rabs (w (S k)) <= Rabs (w k) + Rabs (w (S k) - w k)) by (replace (w (S k)) with (w k + (w (S k) - w k)) at 1 by ring; apply Rabs_triang).
    pose proof (Rabs_pos (w (S k) - w k)) as PD. pose proof (Rabs_pos (w k)) as PW. pose proof (pos_INR k) as PK.
    apply Rle_trans with (exp (2 * s * INR k) * (INR k * (7 / 720 * M * dx ^ 6))); [eapply Rle_trans; [|exact H]; nra|].
    rewrite S_INR. apply Rmult_le_compat; [left; apply exp_pos|apply Rmult_le_pos; auto| |apply Rmult_le_compat_r; auto; lra].
    assert (Q : 2 * s * INR k <= 2 * s * (INR k + 1)) by (apply Rmult_le_compat_l; lra). destruct Q as [Q|Q]; [left; apply exp_increasing; exact Q|rewrite Q; lra]. }
  clear H.
  replace (2 * s * INR k) with (2 * (INR k * dx) * r) in H' by (unfold s; ring). specialize (W k ltac:(lia)). change (y k - ex k) with (err k).
  set (Ex := exp (2 * (INR k * dx) * r)) in *. eapply Rle_trans; [exact W|]. apply Rmult_le_reg_l with s; [unfold s; apply Rmult_lt_0_compat; auto|].
  replace (s * (2 * Ex * (INR k * dx) * (7 / 720 * M * dx ^ 4) / r)) with (2 * (Ex * (INR k * (7 / 720 * M * dx ^ 6)))) by (unfold s; field; lra). lra.
Qed.
End Run.
