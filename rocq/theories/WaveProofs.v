From Coq Require Import Reals ZArith Lra Lia Bool List.
From Flocq Require Import Core Relative.
From Verif Require Import Base WaveModel.
Import ListNotations.
Set Implicit Arguments.
Local Open Scope R_scope.

(** *** The search *)
Lemma mid : forall L Rt, (L <= Rt)%Z -> (L <= (L + Rt) / 2 <= Rt)%Z.
Proof. intros. pose proof (Z.div_mod (L + Rt) 2). pose proof (Z.mod_pos_bound (L + Rt) 2). lia. Qed.
Lemma search_total : forall fuel x d eps L Rt, (0 <= Rt - L + 1 < Z.of_nat fuel)%Z ->
  search fuel x d eps L Rt = Throw \/ exists m, search fuel x d eps L Rt = Ok m /\ (L <= m <= Rt)%Z /\ (x m = d \/ close eps (x m) d).
Proof.
  induction fuel as [|fuel IH]; intros x d eps L Rt F; [lia|].
  cbn [search]. destruct (Z.ltb_spec Rt L); [auto|]. pose proof (mid H) as M. set (m := ((L + Rt) / 2)%Z) in *.
  destruct (Rlt_dec (x m) d).
  - destruct (close_dec eps (x m) d); [right; exists m; auto|]. destruct (IH x d eps (m + 1)%Z Rt) as [E|(k & E & B & C)]; [lia|auto|].
    right. exists k. split; auto. split; [lia|auto].
  - destruct (Rlt_dec d (x m)).
    + destruct (close_dec eps (x m) d); [right; exists m; auto|]. destruct (IH x d eps L (m - 1)%Z) as [E|(k & E & B & C)]; [lia|auto|].
      right. exists k. split; auto. split; [lia|auto].
    + right. exists m. split; auto. split; auto. left. lra.
Qed.
Lemma search_finds : forall fuel x d eps L Rt k, (Rt - L + 1 < Z.of_nat fuel)%Z -> (L <= k <= Rt)%Z ->
  (forall i, (L <= i < k)%Z -> x i < d) -> (forall i, (k < i <= Rt)%Z -> d < x i) -> (x k = d \/ close eps (x k) d) ->
  exists m, search fuel x d eps L Rt = Ok m /\ (L <= m <= Rt)%Z /\ (x m = d \/ close eps (x m) d).
Proof.
  induction fuel as [|fuel IH]; intros x d eps L Rt k F K Lo Hi C; [lia|].
  cbn [search]. destruct (Z.ltb_spec Rt L); [lia|]. pose proof (mid H) as M. set (m := ((L + Rt) / 2)%Z) in *.
  destruct (Rlt_dec (x m) d) as [A|A].
  - destruct (close_dec eps (x m) d) as [B|B]; [exists m; auto|].
    assert (m < k)%Z. { destruct (Z.lt_trichotomy m k) as [?|[->|?]]; auto; [destruct C; [lra|tauto]|]. assert (d < x m) by (apply Hi; lia). lra. }
    destruct (IH x d eps (m + 1)%Z Rt k) as (r & E & B' & C'); [lia|lia|intros; apply Lo; lia|auto|auto|]. exists r. split; auto. split; [lia|auto].
  - destruct (Rlt_dec d (x m)) as [A'|A'].
    + destruct (close_dec eps (x m) d) as [B|B]; [exists m; auto|].
      assert (k < m)%Z. { destruct (Z.lt_trichotomy m k) as [?|[->|?]]; auto; [assert (x m < d) by (apply Lo; lia); lra|]. destruct C; [lra|tauto]. }
      destruct (IH x d eps L (m - 1)%Z k) as (r & E & B' & C'); [lia|lia|auto|intros; apply Hi; lia|auto|]. exists r. split; auto. split; [lia|auto].
    + exists m. split; auto. split; auto. left. lra.
Qed.

(** *** Rounding *)
Lemma fexp_valid : Valid_exp fexp. Proof. apply FLT_exp_valid. reflexivity. Qed.
Global Existing Instance fexp_valid.
Lemma rnd_le : forall x y, x <= y -> rnd x <= rnd y.
Proof. intros. apply round_le; auto. apply fexp_valid. apply valid_rnd_N. Qed.
Lemma rnd_bpow : forall e, (-1074 <= e)%Z -> rnd (bpow radix2 e) = bpow radix2 e.
Proof. intros e H. apply round_generic; [apply valid_rnd_N|]. apply generic_format_bpow. unfold fexp, FLT_exp. lia. Qed.
Lemma rnd_abs : forall x, Rabs (rnd x) = rnd (Rabs x).
Proof. intro x. symmetry. apply round_NE_abs. apply fexp_valid. Qed.
Lemma rnd_0 : rnd 0 = 0. Proof. apply round_0. apply valid_rnd_N. Qed.
Definition u : R := bpow radix2 (-53).
Lemma u_val : u = / 9007199254740992. Proof. unfold u. cbn. reflexivity. Qed.
Lemma eps_u : epsilon = 2 * u. Proof. unfold epsilon, u. cbn. lra. Qed.
Lemma rnd_err : forall x, bpow radix2 (-1000) <= Rabs x -> Rabs (rnd x - x) <= u * Rabs x.
Proof.
  intros x H. replace u with (/ 2 * bpow radix2 (-53 + 1)) by (rewrite u_val; cbn; lra).
  apply (relative_error_N_FLT radix2 (-1074) 53 ltac:(lia) (fun z => negb (Z.even z)) x). eapply Rle_trans; [|exact H]. apply bpow_le. lia.
Qed.
Lemma rnd_err0 : forall x, x = 0 \/ bpow radix2 (-1000) <= Rabs x -> Rabs (rnd x - x) <= u * Rabs x.
Proof.
  intros x [->|H]; [|apply rnd_err; auto]. rewrite rnd_0, Rminus_0_r, Rabs_R0. lra.
Qed.

(** *** The grid.  100 dx = 1 + delta with delta = 0.1875 u *)
Lemma dx_val : 100 * dx = 1 + 3 / 16 * u.
Proof. unfold dx, u. cbn. lra. Qed.
Lemma small : bpow radix2 (-1000) <= / 1000.
Proof. apply Rle_trans with (bpow radix2 (-10)); [apply bpow_le; lia|]. cbn. lra. Qed.

Section Grid.
(** bound on the key: 100 a + i < 2^32, i.e. r < (2^32/100)^2 atomic units *)
Definition key (a i : Z) : Z := (100 * a + i)%Z.
Lemma grid_near : forall a i, (1 <= a)%Z -> (0 <= i)%Z -> (key a i < 2 ^ 32)%Z ->
  Rabs (grid a i - (IZR (key a i) * dx - IZR a * (3 / 16 * u))) <= u * (2 * (IZR (key a i) * dx) - IZR a) + 2 * u * u * (IZR (key a i) * dx).
Proof.
  intros a i A I K. pose proof small as S. pose proof dx_val as D. pose proof u_val as U.
  assert (U0 : 0 < u < / 1000000000) by (rewrite U; split; lra).
  assert (Rk : IZR (key a i) = 100 * IZR a + IZR i) by (unfold key; rewrite plus_IZR, mult_IZR; lra).
  assert (Ra : 1 <= IZR a) by (apply IZR_le; auto). assert (Ri : 0 <= IZR i) by (apply IZR_le; auto).
  assert (Hd : / 101 < dx < / 99) by lra.
  set (p := IZR i * dx) in *. assert (P0 : 0 <= p) by (unfold p; nra).
  assert (E1 : Rabs (rnd p - p) <= u * p).
  { assert (Rabs (rnd p - p) <= u * Rabs p); [|rewrite (Rabs_pos_eq p P0) in *; auto]. apply rnd_err0.
    assert (i = 0 \/ 1 <= i)%Z as [->|I1] by lia; [left; unfold p; lra|right]. apply IZR_le in I1. rewrite Rabs_pos_eq by auto. unfold p. nra. }
  apply Rabs_le_inv in E1. set (q := rnd p) in *.
  assert (Q0 : 0 <= q) by nra.
  assert (E2 : Rabs (rnd (IZR a + q) - (IZR a + q)) <= u * (IZR a + q)).
  { rewrite <- (Rabs_pos_eq (IZR a + q)) at 3 by lra. apply rnd_err. rewrite Rabs_pos_eq; lra. }
  apply Rabs_le_inv in E2. unfold grid. fold p. fold q. set (x := rnd (IZR a + q)) in *.
  assert (Kd : IZR (key a i) * dx = IZR a * (1 + 3 / 16 * u) + p) by (rewrite Rk; unfold p; nra).
  rewrite Kd. clearbody q x. clear Rk K Kd. clearbody p. apply Rabs_le.
  assert (0 <= u * u) by nra. assert (0 <= u * p) by nra. assert (0 <= u * IZR a) by nra. assert (0 <= u * u * p) by nra. assert (0 <= u * u * IZR a) by nra.
  assert (u * q <= u * (p + u * p)) by (apply Rmult_le_compat_l; lra).
  split; nra.
Qed.

Lemma key_bound : forall a i, (1 <= a)%Z -> (0 <= i)%Z -> (key a i < 2 ^ 32)%Z -> 0 < IZR (key a i) * dx < 50000000.
Proof.
  intros a i A I K. pose proof dx_val as D. pose proof u_val as U. assert (0 < u < / 1000000000) by (rewrite U; split; lra).
  assert (1 <= IZR (key a i)) by (apply IZR_le; unfold key; lia). assert (IZR (key a i) <= 4294967296) by (apply IZR_le; lia). split; nra.
Qed.
Lemma grid_pos : forall a i, (1 <= a)%Z -> (0 <= i)%Z -> (key a i < 2 ^ 32)%Z -> 0 < grid a i < 60000000.
Proof.
  intros a i A I K. pose proof (grid_near A I K) as N. apply Rabs_le_inv in N. pose proof (key_bound A I K) as B. pose proof u_val as U.
  assert (Ra : 1 <= IZR a) by (apply IZR_le; auto). assert (0 < u < / 1000000000000000) by (rewrite U; split; lra).
  assert (Rb : IZR a <= IZR (key a i) * dx).
  { pose proof dx_val. assert (100 * IZR a <= IZR (key a i)) by (rewrite <- mult_IZR; apply IZR_le; unfold key; lia). nra. }
  set (P := IZR (key a i) * dx) in *. assert (u * P <= / 10000000) by nra. assert (u * u * P <= / 1000000000) by nra. assert (u * IZR a <= / 10000000) by nra.
  split; nra.
Qed.

(** Rows with the same key are close, rows with different keys are ordered and not close. *)
Lemma same_key : forall a1 i1 a2 i2, (1 <= a1)%Z -> (0 <= i1)%Z -> (key a1 i1 < 2 ^ 32)%Z -> (1 <= a2)%Z -> (0 <= i2)%Z ->
  key a1 i1 = key a2 i2 -> Rabs (grid a1 i1 - grid a2 i2) <= Rmax (grid a1 i1) (grid a2 i2) * (2 * epsilon).
Proof.
  intros a1 i1 a2 i2 A1 I1 K A2 I2 E. pose proof (grid_near A1 I1 K) as N1. assert (K2 : (key a2 i2 < 2 ^ 32)%Z) by lia. pose proof (grid_near A2 I2 K2) as N2.
  pose proof (key_bound A1 I1 K) as B. rewrite <- E in N2. set (P := IZR (key a1 i1) * dx) in *. rewrite eps_u.
  apply Rabs_le_inv in N1. apply Rabs_le_inv in N2. apply IZR_le in A1. apply IZR_le in A2. pose proof u_val as U.
  assert (U0 : 0 < u < / 1000000000000000) by (rewrite U; split; lra). set (x1 := grid a1 i1) in *. set (x2 := grid a2 i2) in *.
  clearbody x1 x2 P. clear E K K2 I1 I2. set (a := IZR a1) in *. set (b := IZR a2) in *. clearbody a b.
  assert (M1 : x1 <= Rmax x1 x2) by apply Rmax_l. assert (M2 : x2 <= Rmax x1 x2) by apply Rmax_r. set (M := Rmax x1 x2) in *. clearbody M.
  assert (u * u * P <= / 10000000 * u) by nra. assert (u * u * a <= / 1000000 * (u * a)) by nra. assert (u * u * b <= / 1000000 * (u * b)) by nra.
  assert (LM : P - (3 / 16 * u) * a - (u * (2 * P - a) + 2 * u * u * P) <= M) by nra.
  assert (HM : 4 * u * P - 4 * u * ((3 / 16 * u) * a + (u * (2 * P - a) + 2 * u * u * P)) <= M * (2 * (2 * u))) by nra.
  assert (0 < u * a) by nra. assert (0 < u * b) by nra. assert (0 < u * u) by nra. assert (0 < u * u * P) by nra.
  assert (u * u * u * P <= / 1000000 * (u * u * P)) by nra. assert (u <= u * a) by nra.
  apply Rabs_le. split; nra.
Qed.
Lemma diff_key : forall a1 i1 a2 i2, (1 <= a1)%Z -> (0 <= i1)%Z -> (1 <= a2)%Z -> (0 <= i2)%Z -> (key a2 i2 < 2 ^ 32)%Z ->
  (key a1 i1 < key a2 i2)%Z -> grid a1 i1 + / 200 < grid a2 i2.
Proof.
  intros a1 i1 a2 i2 A1 I1 A2 I2 K2 E. assert (K1 : (key a1 i1 < 2 ^ 32)%Z) by lia.
  pose proof (grid_near A1 I1 K1) as N1. pose proof (grid_near A2 I2 K2) as N2.
  pose proof (key_bound A1 I1 K1) as B1. pose proof (key_bound A2 I2 K2) as B2.
  assert (D : IZR (key a1 i1) + 1 <= IZR (key a2 i2)) by (rewrite <- plus_IZR; apply IZR_le; lia).
  pose proof dx_val as Dx. pose proof u_val as U. assert (U0 : 0 < u < / 1000000000000000) by (rewrite U; split; lra).
  assert (G : IZR (key a1 i1) * dx + / 101 <= IZR (key a2 i2) * dx) by nra.
  assert (R1 : IZR a1 <= IZR (key a1 i1) * dx).
  { assert (100 * IZR a1 <= IZR (key a1 i1)) by (rewrite <- mult_IZR; apply IZR_le; unfold key; lia). assert (1 <= IZR a1) by (apply IZR_le; auto). nra. }
  assert (R2 : IZR a2 <= IZR (key a2 i2) * dx).
  { assert (100 * IZR a2 <= IZR (key a2 i2)) by (rewrite <- mult_IZR; apply IZR_le; unfold key; lia). assert (1 <= IZR a2) by (apply IZR_le; auto). nra. }
  apply IZR_le in A1. apply IZR_le in A2.
  apply Rabs_le_inv in N1. apply Rabs_le_inv in N2. set (P1 := IZR (key a1 i1) * dx) in *. set (P2 := IZR (key a2 i2) * dx) in *.
  set (x1 := grid a1 i1) in *. set (x2 := grid a2 i2) in *. clearbody P1 P2 x1 x2.
  assert (u * P1 <= / 10000000) by nra. assert (u * P2 <= / 10000000) by nra. assert (0 <= u * P1) by nra. assert (0 <= u * P2) by nra.
  assert (u * u * P1 <= / 10000000) by nra. assert (u * u * P2 <= / 10000000) by nra.
  assert (u * IZR a1 <= / 10000000) by nra. assert (u * IZR a2 <= / 10000000) by nra. assert (0 <= u * IZR a1) by nra. assert (0 <= u * IZR a2) by nra.
  nra.
Qed.
Lemma close_same : forall a1 i1 a2 i2, (1 <= a1)%Z -> (0 <= i1)%Z -> (key a1 i1 < 2 ^ 32)%Z -> (1 <= a2)%Z -> (0 <= i2)%Z ->
  key a1 i1 = key a2 i2 -> close (2 * epsilon) (grid a1 i1) (grid a2 i2).
Proof.
  intros a1 i1 a2 i2 A1 I1 K A2 I2 E. unfold close. rewrite rnd_abs. apply rnd_le.
  assert (K2 : (key a2 i2 < 2 ^ 32)%Z) by lia. rewrite (Rabs_pos_eq (grid a1 i1)), (Rabs_pos_eq (grid a2 i2)).
  - apply same_key; auto.
  - pose proof (grid_pos A2 I2 K2). lra.
  - pose proof (grid_pos A1 I1 K). lra.
Qed.
Lemma not_close_diff : forall eps a1 i1 a2 i2, 0 < eps <= 2 * epsilon -> (1 <= a1)%Z -> (0 <= i1)%Z -> (key a1 i1 < 2 ^ 32)%Z -> (1 <= a2)%Z -> (0 <= i2)%Z -> (key a2 i2 < 2 ^ 32)%Z ->
  key a1 i1 <> key a2 i2 -> ~ close eps (grid a1 i1) (grid a2 i2).
Proof.
  intros eps a1 i1 a2 i2 Ep A1 I1 K1 A2 I2 K2 E. unfold close. rewrite rnd_abs. apply Rlt_not_le.
  pose proof (grid_pos A1 I1 K1) as P1. pose proof (grid_pos A2 I2 K2) as P2. rewrite (Rabs_pos_eq (grid a1 i1)), (Rabs_pos_eq (grid a2 i2)) by lra.
  assert (G : / 200 < Rabs (grid a1 i1 - grid a2 i2)).
  { destruct (Z.lt_total (key a1 i1) (key a2 i2)) as [H|[H|H]]; [|lia|].
    - pose proof (diff_key A1 I1 A2 I2 K2 H). rewrite Rabs_left; lra.
    - pose proof (diff_key A2 I2 A1 I1 K1 H). rewrite Rabs_pos_eq; lra. }
  apply Rle_lt_trans with (bpow radix2 (-20)); [|apply Rlt_le_trans with (bpow radix2 (-8)); [apply bpow_lt; lia|]].
  - rewrite <- rnd_bpow by lia. apply rnd_le. assert (M : 0 <= Rmax (grid a1 i1) (grid a2 i2) <= 60000000) by (unfold Rmax; destruct Rle_dec; lra).
    rewrite eps_u, u_val in Ep. cbn. nra.
  - rewrite <- rnd_bpow by lia. apply rnd_le. cbn. lra.
Qed.
End Grid.
