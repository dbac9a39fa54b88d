From Coq Require Import Reals ZArith Lra Lia Bool List.
From Flocq Require Import Core.
From Verif Require Import Base WaveModel WaveProofs.
Import ListNotations.
Set Implicit Arguments.
Local Open Scope R_scope.

Lemma eps_pos : 0 < epsilon. Proof. apply bpow_gt_0. Qed.
Lemma close_mono : forall x d, close epsilon x d -> close (2 * epsilon) x d.
Proof.
  intros x d C. unfold close in *. eapply Rle_trans; [exact C|]. apply rnd_le. apply Rmult_le_compat_l; [|pose proof eps_pos; lra].
  apply Rle_trans with (Rabs x); [apply Rabs_pos|apply Rmax_l].
Qed.
Lemma findidx_cases : forall x rows d, findidx x rows d = Throw \/ exists m, findidx x rows d = Ok m /\ (0 <= m < Z.of_nat rows)%Z /\ (x m = d \/ close (2 * epsilon) (x m) d).
Proof.
  intros x rows d. unfold findidx. cbn [findidx_from]. destruct (@search_total (S rows) x d epsilon 0 (Z.of_nat rows - 1)) as [E|(m & E & B & C)]; [lia| |]; rewrite E.
  - destruct (Rlt_dec epsilon epsilon); [auto|]. destruct (@search_total (S rows) x d (2 * epsilon) 0 (Z.of_nat rows - 1)) as [E2|(m & E2 & B & C)]; [lia| |]; rewrite E2.
    + destruct (Rlt_dec epsilon (2 * epsilon)) as [|N]; [auto|]. pose proof eps_pos. lra.
    + right. exists m. split; auto. split; [lia|auto].
  - right. exists m. split; auto. split; [lia|]. destruct C; auto using close_mono.
Qed.
Lemma findidx_finds : forall x rows d k, (0 <= k < Z.of_nat rows)%Z -> (forall i, (0 <= i < k)%Z -> x i < d) -> (forall i, (k < i < Z.of_nat rows)%Z -> d < x i) ->
  (x k = d \/ close (2 * epsilon) (x k) d) -> exists m, findidx x rows d = Ok m.
Proof.
  intros x rows d k K Lo Hi C. unfold findidx. cbn [findidx_from]. destruct (@search_total (S rows) x d epsilon 0 (Z.of_nat rows - 1)) as [E|(m & E & _)]; [lia| |]; rewrite E; [|eauto].
  destruct (Rlt_dec epsilon epsilon); [lra|].
  destruct (@search_finds (S rows) x d (2 * epsilon) 0 (Z.of_nat rows - 1) k) as (m & E2 & _); [lia|lia|auto|intros; apply Hi; lia|auto|]. rewrite E2. eauto.
Qed.

Definition grid_ok (a : Z) (n : nat) : Prop := (1 <= a)%Z /\ (0 < n)%nat /\ (100 * a + Z.of_nat n <= 2 ^ 32)%Z.
Lemma find_grid : forall a n b j k, grid_ok a n -> (1 <= b)%Z -> (0 <= j)%Z -> (key b j < 2 ^ 32)%Z -> (0 <= k < Z.of_nat n)%Z -> key a k = key b j ->
  findidx (grid a) n (grid b j) = Ok k.
Proof.
  intros a n b j k (A & N & G) B J K I E. assert (Ki : forall i, (0 <= i < Z.of_nat n)%Z -> (key a i < 2 ^ 32)%Z) by (intros; unfold key; lia).
  destruct (@findidx_finds (grid a) n (grid b j) k) as (m & M); auto.
  - intros i Hi. enough (grid a i + / 200 < grid b j) by lra. apply diff_key; auto; [lia|]. unfold key in *. lia.
  - intros i Hi. enough (grid b j + / 200 < grid a i) by lra. apply diff_key; auto; [lia|apply Ki; lia|]. unfold key in *. lia.
  - right. apply close_same; auto. lia.
  - rewrite M. f_equal. destruct (findidx_cases (grid a) n (grid b j)) as [X|(m' & X & R & C)]; [congruence|]. assert (m' = m) by congruence. subst m'.
    destruct (Z.eq_dec (key a m) (key b j)) as [Q|Q]; [unfold key in *; lia|]. exfalso. destruct C as [C|C].
    + destruct (Z.lt_total (key a m) (key b j)) as [L|[L|L]]; [|lia|].
      * pose proof (@diff_key a m b j A ltac:(lia) B J K L). lra.
      * pose proof (@diff_key b j a m B J A ltac:(lia) (Ki m R) L). lra.
    + revert C. apply not_close_diff; auto; try lia. pose proof eps_pos. lra.
Qed.

Lemma steps_spec : forall fuel i1 i2 e1 e2, (e1 - i1 <= Z.of_nat fuel)%Z -> forall p q,
  In (p, q) (steps fuel i1 i2 e1 e2) <-> (i1 <= p < e1)%Z /\ (i2 <= q < e2)%Z /\ (p - i1 = q - i2)%Z.
Proof.
  induction fuel as [|f IH]; intros i1 i2 e1 e2 F p q; cbn [steps].
  - split; [intros []|lia].
  - destruct (Z.ltb_spec i1 e1), (Z.ltb_spec i2 e2); cbn [andb In]; try (split; [intros []|lia]).
    rewrite IH by lia. split.
    + intros [E|H']; [injection E as <- <-|]; lia.
    + intros (P & Q & D). destruct (Z.eq_dec p i1) as [->|]; [left; f_equal; lia|right; lia].
Qed.
Lemma steps_nodup : forall fuel i1 i2 e1 e2, NoDup (steps fuel i1 i2 e1 e2).
Proof.
  induction fuel as [|f IH]; intros; cbn [steps]; [constructor|]. destruct (_ && _); constructor; auto.
  assert (G : forall f j1 j2 p q, In (p, q) (steps f j1 j2 e1 e2) -> (j1 <= p)%Z).
  { clear. induction f as [|f IH]; intros j1 j2 p q H; cbn in H; [destruct H|]. destruct (_ && _); [|destruct H]. destruct H as [E|H]; [injection E as <- <-; lia|]. apply IH in H. lia. }
  intro H. apply G in H. lia.
Qed.
Lemma steps_swap : forall fuel i1 i2 e1 e2, steps fuel i2 i1 e2 e1 = map (fun p => (snd p, fst p)) (steps fuel i1 i2 e1 e2).
Proof.
  induction fuel as [|f IH]; intros; cbn [steps]; [reflexivity|]. rewrite andb_comm. destruct (_ && _); [|reflexivity]. cbn [map fst snd]. rewrite IH. reflexivity.
Qed.

Lemma rows_used_eq : forall a1 n1 a2 n2, grid_ok a1 n1 -> grid_ok a2 n2 ->
  let s := Z.max (100 * a1) (100 * a2) in let e := Z.min (100 * a1 + Z.of_nat n1 - 1) (100 * a2 + Z.of_nat n2 - 1) in
  rows_used a1 n1 a2 n2 = Ok (if (s <=? e)%Z then steps (n1 + n2) (s - 100 * a1) (s - 100 * a2) (e - 100 * a1) (e - 100 * a2) else []).
Proof.
  intros a1 n1 a2 n2 G1 G2 s e. pose proof G1 as (A1 & N1 & K1). pose proof G2 as (A2 & N2 & K2).
  unfold rows_used. destruct (Nat.eqb_spec n1 0); [lia|]. destruct (Nat.eqb_spec n2 0); [lia|]. cbn [orb].
  assert (Xs : exists b j, (b = a1 \/ b = a2) /\ j = 0%Z /\ key b j = s /\ (if Rle_dec (grid a2 0) (grid a1 0) then grid a1 0 else grid a2 0) = grid b j).
  { destruct (Rle_dec (grid a2 0) (grid a1 0)) as [L|L]; [exists a1, 0%Z|exists a2, 0%Z]; (split; [auto|]); (split; [auto|]); (split; [|reflexivity]); unfold key, s.
    - destruct (Z.le_gt_cases (100 * a2) (100 * a1)) as [?|H]; [lia|]. exfalso.
      pose proof (@diff_key a1 0 a2 0 A1 ltac:(lia) A2 ltac:(lia) ltac:(unfold key; lia) ltac:(unfold key; lia)). lra.
    - destruct (Z.le_gt_cases (100 * a1) (100 * a2)) as [?|H]; [lia|]. exfalso.
      pose proof (@diff_key a2 0 a1 0 A2 ltac:(lia) A1 ltac:(lia) ltac:(unfold key; lia) ltac:(unfold key; lia)). lra. }
  assert (Xe : exists b j, (b = a1 /\ j = (Z.of_nat n1 - 1)%Z \/ b = a2 /\ j = (Z.of_nat n2 - 1)%Z) /\ key b j = e /\
     (if Rle_dec (grid a1 (Z.of_nat n1 - 1)) (grid a2 (Z.of_nat n2 - 1)) then grid a1 (Z.of_nat n1 - 1) else grid a2 (Z.of_nat n2 - 1)) = grid b j).
  { destruct (Rle_dec (grid a1 (Z.of_nat n1 - 1)) (grid a2 (Z.of_nat n2 - 1))) as [L|L]; [exists a1, (Z.of_nat n1 - 1)%Z|exists a2, (Z.of_nat n2 - 1)%Z]; (split; [auto|]); (split; [|reflexivity]); unfold key, e.
    - destruct (Z.le_gt_cases (100 * a1 + Z.of_nat n1 - 1) (100 * a2 + Z.of_nat n2 - 1)) as [?|H]; [lia|]. exfalso.
      pose proof (@diff_key a2 (Z.of_nat n2 - 1) a1 (Z.of_nat n1 - 1) A2 ltac:(lia) A1 ltac:(lia) ltac:(unfold key; lia) ltac:(unfold key; lia)). lra.
    - destruct (Z.le_gt_cases (100 * a2 + Z.of_nat n2 - 1) (100 * a1 + Z.of_nat n1 - 1)) as [?|H]; [lia|]. exfalso.
      pose proof (@diff_key a1 (Z.of_nat n1 - 1) a2 (Z.of_nat n2 - 1) A1 ltac:(lia) A2 ltac:(lia) ltac:(unfold key; lia) ltac:(unfold key; lia)). lra. }
  destruct Xs as (b & j & Hb & Hj & Kb & ->). destruct Xe as (c & i & Hc & Kc & ->).
  assert (B1 : (1 <= b)%Z) by (destruct Hb; subst; auto). assert (J0 : (0 <= j)%Z) by lia.
  assert (C1 : (1 <= c)%Z) by (destruct Hc as [[-> _]|[-> _]]; auto). assert (I0 : (0 <= i)%Z) by (destruct Hc as [[_ ->]|[_ ->]]; lia).
  assert (Ks : (s < 2 ^ 32)%Z) by (unfold s; lia). assert (Ke : (e < 2 ^ 32)%Z) by (unfold e; lia).
  destruct (Rle_dec (grid b j) (grid c i)) as [L|L].
  - assert (se : (s <= e)%Z).
    { destruct (Z.le_gt_cases s e); auto. exfalso. pose proof (@diff_key c i b j C1 I0 B1 J0 ltac:(lia) ltac:(lia)). lra. }
    destruct (Z.leb_spec s e); [|lia].
    rewrite (@find_grid a1 n1 b j (s - 100 * a1)%Z) by (auto; unfold s, e, key in *; lia). cbn [bind].
    rewrite (@find_grid a1 n1 c i (e - 100 * a1)%Z) by (auto; unfold s, e, key in *; lia). cbn [bind].
    rewrite (@find_grid a2 n2 b j (s - 100 * a2)%Z) by (auto; unfold s, e, key in *; lia). cbn [bind].
    rewrite (@find_grid a2 n2 c i (e - 100 * a2)%Z) by (auto; unfold s, e, key in *; lia). reflexivity.
  - assert (se : (e <= s)%Z).
    { destruct (Z.le_gt_cases e s); auto. exfalso. pose proof (@diff_key b j c i B1 J0 C1 I0 ltac:(lia) ltac:(lia)). lra. }
    destruct (Z.leb_spec s e); [|reflexivity]. assert (s = e) as -> by lia. destruct (n1 + n2)%nat; [reflexivity|]. cbn [steps]. rewrite !Z.ltb_irrefl. reflexivity.
Qed.
