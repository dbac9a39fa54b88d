(** C57, C69, C70: the radial grid, radial matrix elements, normalisation. *)
From Coq Require Import Reals ZArith Lra Lia Bool List.
From Flocq Require Import Core.
From Verif Require Import Base RoundProofs WaveModel WaveProofs WaveProofs2.
Import ListNotations.
Set Implicit Arguments.
Local Open Scope R_scope.

(** *** C57.  [close (2 epsilon) x d]: the test of the code, with twice the machine precision. *)

(** Whatever the column: the search ends, with an exception or with a row that has the value. *)
Theorem C57_result : forall x rows d, findidx x rows d = Throw \/
  exists m, findidx x rows d = Ok m /\ (0 <= m < Z.of_nat rows)%Z /\ (x m = d \/ close (2 * epsilon) (x m) d).
Proof. exact findidx_cases. Qed.
(** In an increasing column every value that occurs is found; it is the right row unless other rows are as close. *)
Theorem C57_found : forall x rows k, (forall i j, (0 <= i < j)%Z -> (j < Z.of_nat rows)%Z -> x i < x j) -> (0 <= k < Z.of_nat rows)%Z ->
  exists m, findidx x rows (x k) = Ok m /\ (0 <= m < Z.of_nat rows)%Z /\ (m = k \/ close (2 * epsilon) (x m) (x k)).
Proof.
  intros x rows k S K. destruct (@findidx_finds x rows (x k) k K) as (m & E); [intros; apply S; lia|intros; apply S; lia|auto|].
  exists m. split; auto. destruct (findidx_cases x rows (x k)) as [X|(m' & X & B & C)]; [congruence|]. assert (m' = m) by congruence. subst m'. split; auto.
  destruct C as [C|C]; auto. destruct (Z.lt_total m k) as [L|[L|L]]; auto; [assert (x m < x k) by (apply S; lia)|assert (x k < x m) by (apply S; lia)]; lra.
Qed.
(** The radial grids: row k of one grid is found in every other grid that has a row at the same place
    ([key a i] = 100 a + i, the place in units of 0.01); it is exactly that row. *)
Theorem C57_grid : forall a n b j k, grid_ok a n -> (1 <= b)%Z -> (0 <= j)%Z -> (100 * b + j < 2 ^ 32)%Z -> (0 <= k < Z.of_nat n)%Z ->
  (100 * a + k = 100 * b + j)%Z -> findidx (grid a) n (grid b j) = Ok k.
Proof. intros. apply find_grid; auto. Qed.
(** A tolerance of zero may be given explicitly; then a missing value leads to endless recursion. *)
Theorem C85_tolerance_refuted : forall restarts x d, findidx_from restarts x 0 d 0 = UB.
Proof.
  induction restarts as [|r IH]; intros x d; cbn [findidx_from]; change (search 1 x d 0 0 (Z.of_nat 0 - 1)) with (@Throw Z); cbv iota.
  - destruct (Rlt_dec epsilon 0); [pose proof eps_pos; lra|reflexivity].
  - destruct (Rlt_dec epsilon 0); [pose proof eps_pos; lra|]. rewrite Rmult_0_r. apply IH.
Qed.

(** *** C69 *)
(** The search never fails; the sum runs over all rows at common places except the last one, each once. *)
Theorem C69_rows : forall a1 n1 a2 n2, grid_ok a1 n1 -> grid_ok a2 n2 -> exists r, rows_used a1 n1 a2 n2 = Ok r /\ NoDup r /\
  forall p q, In (p, q) r <-> (0 <= p)%Z /\ (0 <= q)%Z /\ (p + 1 < Z.of_nat n1)%Z /\ (q + 1 < Z.of_nat n2)%Z /\ (100 * a1 + p = 100 * a2 + q)%Z.
Proof.
  intros a1 n1 a2 n2 G1 G2. rewrite rows_used_eq by auto. eexists. split; [reflexivity|].
  set (s := Z.max (100 * a1) (100 * a2)). set (e := Z.min (100 * a1 + Z.of_nat n1 - 1) (100 * a2 + Z.of_nat n2 - 1)).
  destruct G1 as (A1 & N1 & K1), G2 as (A2 & N2 & K2).
  destruct (Z.leb_spec s e).
  - split; [apply steps_nodup|]. intros p q. rewrite steps_spec by (unfold s, e in *; lia). unfold s, e in *. lia.
  - split; [constructor|]. intros p q. split; [intros []|]. unfold s, e in *. lia.
Qed.
(** Rows that are multiplied are at the same radius up to 2 epsilon. *)
Theorem C69_radius : forall a1 n1 a2 n2 r p q, grid_ok a1 n1 -> grid_ok a2 n2 -> rows_used a1 n1 a2 n2 = Ok r -> In (p, q) r ->
  Rabs (grid a1 p - grid a2 q) <= Rmax (grid a1 p) (grid a2 q) * (2 * epsilon).
Proof.
  intros a1 n1 a2 n2 r p q G1 G2 E H. destruct (C69_rows G1 G2) as (r' & E' & _ & I). assert (r' = r) by congruence. subst r'. apply I in H.
  destruct G1 as (A1 & N1 & K1), G2 as (A2 & N2 & K2). apply same_key; auto; unfold key; lia.
Qed.
(** Exchanging the states exchanges the rows. *)
Theorem C69_symmetric : forall a1 n1 a2 n2, grid_ok a1 n1 -> grid_ok a2 n2 -> exists r,
  rows_used a1 n1 a2 n2 = Ok r /\ rows_used a2 n2 a1 n1 = Ok (map (fun p => (snd p, fst p)) r).
Proof.
  intros a1 n1 a2 n2 G1 G2. rewrite !rows_used_eq by auto. eexists. split; [reflexivity|]. f_equal.
  rewrite (Z.max_comm (100 * a2)), (Z.min_comm (100 * a2 + _ - 1)), (Nat.add_comm n2). destruct (_ <=? _)%Z; [|reflexivity]. apply steps_swap.
Qed.
(** The value: the integrand is summed over all common places s, s+1, ... except the last one (place t is row t - 100 a of the grid that begins at
    100 a), with the radius of the first state; no row is left out, counted twice or paired with a row at another place. *)
Theorem C69_value : forall a1 n1 y1 a2 n2 y2 k, grid_ok a1 n1 -> grid_ok a2 n2 ->
  let s := Z.max (100 * a1) (100 * a2) in let e := Z.min (100 * a1 + Z.of_nat n1 - 1) (100 * a2 + Z.of_nat n2 - 1) in
  radial a1 n1 y1 a2 n2 y2 k = Ok (2 * fold_right (fun i acc => let t := (s + Z.of_nat i)%Z in
    y1 (t - 100 * a1)%Z * y2 (t - 100 * a2)%Z * grid a1 (t - 100 * a1)%Z ^ k * dx + acc) 0 (seq 0 (Z.to_nat (e - s)))).
Proof.
  intros a1 n1 y1 a2 n2 y2 k G1 G2 s e. unfold radial. rewrite rows_used_eq by auto. cbn [bind]. fold s e. f_equal. f_equal.
  assert (F : forall f m i1 i2, (m <= f)%nat -> steps f i1 i2 (i1 + Z.of_nat m) (i2 + Z.of_nat m) = map (fun t => (i1 + Z.of_nat t, i2 + Z.of_nat t)%Z) (seq 0 m)).
  { induction f as [|f IH]; intros m i1 i2 M; cbn [steps]; [replace m with 0%nat by lia; reflexivity|].
    destruct m as [|m].
    - destruct (Z.ltb_spec i1 (i1 + Z.of_nat 0)); [lia|]. reflexivity.
    - destruct (Z.ltb_spec i1 (i1 + Z.of_nat (Datatypes.S m))); [|lia]. destruct (Z.ltb_spec i2 (i2 + Z.of_nat (Datatypes.S m))); [|lia]. cbn [andb seq map].
      replace (i1 + Z.of_nat (Datatypes.S m))%Z with (i1 + 1 + Z.of_nat m)%Z by lia. replace (i2 + Z.of_nat (Datatypes.S m))%Z with (i2 + 1 + Z.of_nat m)%Z by lia.
      rewrite IH by lia. rewrite <- seq_shift, map_map. f_equal; [f_equal; lia|]. apply map_ext. intro t. f_equal; lia. }
  assert (H : forall l, sumR (map (fun p => y1 (fst p) * y2 (snd p) * grid a1 (fst p) ^ k * dx) (map (fun t => (s - 100 * a1 + Z.of_nat t, s - 100 * a2 + Z.of_nat t)%Z) l)) =
    fold_right (fun i acc => let t := (s + Z.of_nat i)%Z in y1 (t - 100 * a1)%Z * y2 (t - 100 * a2)%Z * grid a1 (t - 100 * a1)%Z ^ k * dx + acc) 0 l).
  { induction l as [|t l IH]; cbn [map sumR fold_right fst snd]; [reflexivity|]. fold (sumR (map (fun p => y1 (fst p) * y2 (snd p) * grid a1 (fst p) ^ k * dx) (map (fun t => (s - 100 * a1 + Z.of_nat t, s - 100 * a2 + Z.of_nat t)%Z) l))).
    rewrite IH. cbv zeta. replace (s - 100 * a1 + Z.of_nat t)%Z with (s + Z.of_nat t - 100 * a1)%Z by lia. replace (s - 100 * a2 + Z.of_nat t)%Z with (s + Z.of_nat t - 100 * a2)%Z by lia. reflexivity. }
  destruct G1 as (A1 & N1 & K1), G2 as (A2 & N2 & K2).
  destruct (Z.leb_spec s e).
  - replace (e - 100 * a1)%Z with (s - 100 * a1 + Z.of_nat (Z.to_nat (e - s)))%Z by lia. replace (e - 100 * a2)%Z with (s - 100 * a2 + Z.of_nat (Z.to_nat (e - s)))%Z by lia.
    rewrite F by (unfold s, e in *; lia). apply H.
  - replace (Z.to_nat (e - s)) with 0%nat by lia. reflexivity.
Qed.
Example C69_nonvacuous : grid_ok 1 1200 /\ grid_ok 7 3000 /\ exists r, rows_used 1 1200 7 3000 = Ok r /\ In (600, 0)%Z r /\ In (1198, 598)%Z r.
Proof.
  assert (G1 : grid_ok 1 1200) by (unfold grid_ok; lia). assert (G2 : grid_ok 7 3000) by (unfold grid_ok; lia).
  split; auto. split; auto. destruct (C69_rows G1 G2) as (r & E & _ & I). exists r. split; auto. rewrite !I. lia.
Qed.

(** *** C70.  Numerov: a state has norm one.  power_kernel(0) = 2.  In exact arithmetic, for every potential [g]. *)
Theorem C70_norm : forall g a n odd, grid_ok a n -> (2 <= n)%nat ->
  let y := integrate g (grid a) n odd in radial a n y a n y 2 = Ok 1.
Proof.
  intros g a n odd G N y. unfold radial. rewrite rows_used_eq by auto. rewrite Z.max_id, Z.min_id. pose proof G as (A & _ & K).
  destruct (Z.leb_spec (100 * a) (100 * a + Z.of_nat n - 1)); [|lia]. cbn [bind]. f_equal. rewrite !Z.sub_diag.
  replace (100 * a + Z.of_nat n - 1 - 100 * a)%Z with (Z.of_nat (n - 1)) by lia.
  assert (S : forall f k i, (n - 1 - k <= f)%nat -> i = Z.of_nat k -> steps f i i (Z.of_nat (n - 1)) (Z.of_nat (n - 1)) = map (fun j => (Z.of_nat j, Z.of_nat j)) (seq k (n - 1 - k))).
  { induction f as [|f IH]; intros k i F ->; cbn [steps].
    - replace (n - 1 - k)%nat with 0%nat by lia. reflexivity.
    - destruct (Z.ltb_spec (Z.of_nat k) (Z.of_nat (n - 1))); cbn [andb].
      + rewrite (IH (S k)) by lia. replace (n - 1 - k)%nat with (S (n - 1 - S k)) by lia. reflexivity.
      + replace (n - 1 - k)%nat with 0%nat by lia. reflexivity. }
  rewrite (S (n + n)%nat 0%nat) by lia. rewrite map_map, Nat.sub_0_r. cbn [fst snd].
  set (w := raw g (grid a) n odd).
  assert (Sx : forall f, sumR (map f (seq 0 n)) = sumR (map f (seq 0 (n - 1))) + f (n - 1)%nat).
  { intro f. replace n with (n - 1 + 1)%nat at 1 by lia. rewrite seq_app, map_app. cbn [seq map Nat.add]. 
    generalize (map f (seq 0 (n - 1))). intro l. induction l as [|z l IH]; cbn; [lra|]. fold (sumR l). fold (sumR (l ++ [f (n - 1)%nat])). rewrite IH. lra. }
  assert (Nv : norm2 g (grid a) n odd = 2 * sumR (map (fun j => w (Z.of_nat j) * w (Z.of_nat j) * grid a (Z.of_nat j) * grid a (Z.of_nat j) * dx) (seq 0 (n - 1)))).
  { unfold norm2, rows_list. rewrite map_map, Sx. fold w. assert (W : w (Z.of_nat (n - 1)) = 0).
    { unfold w, raw. replace (Z.to_nat (Z.of_nat n - 1 - Z.of_nat (n - 1))) with 0%nat by lia. reflexivity. }
    rewrite W. lra. }
  assert (Dx : 0 < dx) by (pose proof dx_val; pose proof u_val as U; assert (0 < u) by (rewrite U; lra); lra).
  assert (P : 0 < norm2 g (grid a) n odd).
  { rewrite Nv. apply Rmult_lt_0_compat; [lra|].
    assert (Q : forall l, (forall j, In j l -> (j <= n)%nat) -> 0 <= sumR (map (fun j => w (Z.of_nat j) * w (Z.of_nat j) * grid a (Z.of_nat j) * grid a (Z.of_nat j) * dx) l)).
    { induction l as [|j l IH]; intros B; cbn [map sumR fold_right]; [lra|]. fold (sumR (map (fun j => w (Z.of_nat j) * w (Z.of_nat j) * grid a (Z.of_nat j) * grid a (Z.of_nat j) * dx) l)).
      assert (0 <= w (Z.of_nat j) * w (Z.of_nat j)) by nra. assert (0 <= grid a (Z.of_nat j) * grid a (Z.of_nat j)) by nra.
      assert (0 <= w (Z.of_nat j) * w (Z.of_nat j) * (grid a (Z.of_nat j) * grid a (Z.of_nat j))) by nra.
      specialize (IH (fun i Hi => B i (or_intror Hi))). nra. }
    replace (n - 1)%nat with (n - 2 + 1)%nat by lia. rewrite seq_app, map_app. cbn [seq map Nat.add].
    assert (App : forall l z, sumR (l ++ [z]) = sumR l + z).
    { intros l z. induction l as [|t l IH]; cbn; [lra|]. fold (sumR l). fold (sumR (l ++ [z])). rewrite IH. lra. }
    rewrite App. specialize (Q (seq 0 (n - 2))). assert (Q' := Q ltac:(intros j Hj; apply in_seq in Hj; lia)).
    assert (W : w (Z.of_nat (n - 2)) * w (Z.of_nat (n - 2)) = / 10 ^ 20).
    { unfold w, raw. replace (Z.to_nat (Z.of_nat n - 1 - Z.of_nat (n - 2))) with 1%nat by lia. cbn [below2 fst]. destruct odd; field; lra. }
    rewrite W. assert (Gp : 0 < grid a (Z.of_nat (n - 2))) by (apply grid_pos; auto; unfold key; lia).
    assert (0 < / 10 ^ 20 * grid a (Z.of_nat (n - 2)) * grid a (Z.of_nat (n - 2)) * dx) by (apply Rmult_lt_0_compat; [|exact Dx]; apply Rmult_lt_0_compat; [|exact Gp]; apply Rmult_lt_0_compat; [|exact Gp]; apply Rinv_0_lt_compat, pow_lt; lra). lra. }
  assert (Sq : 0 < sqrt (norm2 g (grid a) n odd)) by (apply sqrt_lt_R0; auto).
  assert (E : forall l, sumR (map (fun j => y (Z.of_nat j) * y (Z.of_nat j) * grid a (Z.of_nat j) ^ 2 * dx) l) =
      sumR (map (fun j => w (Z.of_nat j) * w (Z.of_nat j) * grid a (Z.of_nat j) * grid a (Z.of_nat j) * dx) l) / norm2 g (grid a) n odd).
  { induction l as [|j l IH]; cbn [map sumR fold_right]; [lra|].
    fold (sumR (map (fun j => y (Z.of_nat j) * y (Z.of_nat j) * grid a (Z.of_nat j) ^ 2 * dx) l)).
    fold (sumR (map (fun j => w (Z.of_nat j) * w (Z.of_nat j) * grid a (Z.of_nat j) * grid a (Z.of_nat j) * dx) l)). rewrite IH.
    unfold y, integrate. destruct (Rlt_dec 0 (sqrt (norm2 g (grid a) n odd))); [|lra]. fold w.
    assert (F : forall c A x s N2, 0 < c -> c * c = N2 -> A / c * (A / c) * x ^ 2 * dx + s / N2 = (A * A * x * x * dx + s) / N2)
      by (intros c A0 x s N2 Hc <-; field; lra).
    apply F; auto. apply sqrt_sqrt. lra. }
  rewrite E, <- (Rmult_1_r 2). replace (2 * 1) with 2 by lra. unfold Rdiv. rewrite <- Rmult_assoc, <- Nv. apply Rinv_r. lra.
Qed.

(** The same with every operation rounded to binary64, where std::pow is right up to 2^-52: the norm is 1 up to (2n + 16) 2^-52, n the number of
    grid points.  The potential [g] is arbitrary; no row may underflow or overflow (2^-200 <= |y| <= 2^200 or y = 0) and no denominator vanish. *)
Theorem C70_rounded : forall g pw a n odd, grid_ok a n -> (2 <= n)%nat ->
  (forall x, 1 <= x -> Rabs (pw x 2%nat - x ^ 2) <= bpow radix2 (-52) * x ^ 2) ->
  (forall k, (k + 2 < n)%nat -> denominator g (grid a) n k <> 0) ->
  (forall i, (0 <= i < Z.of_nat n)%Z -> raw_r g (grid a) n odd i = 0 \/ bpow radix2 (-200) <= Rabs (raw_r g (grid a) n odd i) <= bpow radix2 200) ->
  let y := integrate_r g (grid a) n odd in
  exists mu, radial_r pw a n y a n y 2 = Ok mu /\ Rabs (mu - 1) <= INR (2 * n + 16) * bpow radix2 (-52).
Proof.
  intros g pw a n odd G N2 Pw Dn W y. unfold radial_r. rewrite rows_self by auto. cbn [bind]. eexists. split; [reflexivity|].
  set (w := raw_r g (grid a) n odd) in *. set (L := rows_list n). pose proof G as (A & _ & K).
  assert (In_L : forall i, In i L <-> (0 <= i < Z.of_nat n)%Z).
  { intro i. unfold L, rows_list. rewrite in_map_iff. split; [intros (k & <- & H); apply in_seq in H; lia|]. intros H. exists (Z.to_nat i). rewrite in_seq. lia. }
  assert (Len : length L = n) by (unfold L, rows_list; rewrite map_length, seq_length; auto).
  assert (Pw' : forall x, 1 <= x -> Rabs (pw x 2%nat - x ^ 2) <= 2 * u * x ^ 2) by (intros x X; replace (2 * u) with (bpow radix2 (-52)); auto; unfold u; cbn; lra).
  assert (Xo : forall i, In i L -> 1 <= grid a i <= bpow radix2 26).
  { intros i H. apply In_L in H. split; [apply grid_ge1; lia|]. destruct (@grid_pos a i) as [_ H']; [lia|lia|unfold key; lia|]. cbn. lra. }
  assert (Wo : forall i, In i L -> w i = 0 \/ bpow radix2 (-200) <= Rabs (w i) <= bpow radix2 200) by (intros i H; apply W, In_L, H).
  assert (So : exists i, In i L /\ w i <> 0).
  { exists (Z.of_nat (n - 2)). split; [apply In_L; lia|]. unfold w, raw_r. replace (Z.to_nat (Z.of_nat n - 1 - Z.of_nat (n - 2))) with 1%nat by lia. cbn [below2_r fst].
    pose proof start_pos. destruct odd; lra. }
  assert (Ll : (Z.of_nat (length L) <= 2 ^ 32)%Z) by (rewrite Len; lia).
  assert (Nr : norm_r g (grid a) n odd = RoundProofs.N (grid a) w L) by reflexivity.
  destruct (N_bounds (grid a) w L Xo Wo So Ll) as [Np _].
  assert (Y : forall i, y i = RoundProofs.z (grid a) w L i).
  { intro i. unfold y, integrate_r. rewrite Nr. destruct (Rlt_dec 0 (RoundProofs.N (grid a) w L)); [reflexivity|lra]. }
  set (L' := map Z.of_nat (seq 0 (n - 1))).
  assert (Split : L = L' ++ [Z.of_nat (n - 1)]).
  { unfold L, L', rows_list. replace n with (n - 1 + 1)%nat at 1 by lia. rewrite seq_app, map_app. reflexivity. }
  pose proof (@mu_one pw Pw' (grid a) w L Xo Wo So Ll L') as M. unfold near in M. rewrite Len in M.
  apply near_one in M.
  - rewrite eps_half in M. replace (map _ (map _ (seq 0 (n - 1)))) with (map (mu_term pw (grid a) w L) L'); [exact M|].
    unfold L'. rewrite !map_map. apply map_ext. intro k. cbn [fst snd]. unfold mu_term. rewrite Y. reflexivity.
  - intros i H. rewrite Split. apply in_or_app. auto.
  - unfold L'. rewrite map_length, seq_length. lia.
  - rewrite Split, map_app, sumR_app. cbn. unfold tau. assert (Z0 : w (Z.of_nat (n - 1)) = 0).
    { unfold w, raw_r. replace (Z.to_nat (Z.of_nat n - 1 - Z.of_nat (n - 1))) with 0%nat by lia. reflexivity. }
    rewrite Z0, Rabs_R0. lra.
  - lia.
Qed.
(** Three rows, no potential. *)
Example C70_nonvacuous : let g := fun _ : R => 0 in let pw := fun (x : R) k => x ^ k in
  grid_ok 1 3 /\ (forall x, 1 <= x -> Rabs (pw x 2%nat - x ^ 2) <= bpow radix2 (-52) * x ^ 2) /\
  (forall k, (k + 2 < 3)%nat -> denominator g (grid 1) 3 k <> 0) /\
  (forall i, (0 <= i < 3)%Z -> raw_r g (grid 1) 3 true i = 0 \/ bpow radix2 (-200) <= Rabs (raw_r g (grid 1) 3 true i) <= bpow radix2 200).
Proof.
  intros g pw. assert (D : forall k, denominator g (grid 1) 3 k = 1).
  { intro k. unfold denominator, gat_r, g. rewrite Rmult_0_r, rnd_0, Rminus_0_r. apply (rnd_bpow (e := 0)). lia. }
  split; [unfold grid_ok; lia|]. split; [intros x X; unfold pw; rewrite Rminus_diag_eq, Rabs_R0 by auto; assert (0 < bpow radix2 (-52)) by apply bpow_gt_0; assert (0 < x ^ 2) by (apply pow_lt; lra); nra|].
  split; [intros k _; rewrite D; lra|]. assert (S : bpow radix2 (-34) <= rnd (/ 10 ^ 10) <= bpow radix2 0).
  { rewrite <- (rnd_bpow (e := -34)), <- (rnd_bpow (e := 0)) by lia. split; apply rnd_le; cbn; lra. }
  assert (S' : bpow radix2 (-200) <= Rabs (rnd (/ 10 ^ 10)) <= bpow radix2 200).
  { rewrite Rabs_pos_eq by (pose proof (bpow_ge_0 radix2 (-34)); lra). split; [apply Rle_trans with (bpow radix2 (-34))|apply Rle_trans with (bpow radix2 0)]; try apply S; apply bpow_le; lia. }
  intros i H. assert (i = 0 \/ i = 1 \/ i = 2)%Z as [->|[->| ->]] by lia.
  - right. change (raw_r g (grid 1) 3 true 0) with (rnd (rnd (rnd (rnd (2 + rnd (c56 * gat_r g (grid 1) 3 1)) * rnd (/ 10 ^ 10)) - rnd (rnd (1 - rnd (c12 * gat_r g (grid 1) 3 0)) * 0)) / denominator g (grid 1) 3 0)).
    rewrite D. unfold gat_r, g, Rdiv. rewrite !Rmult_0_r, rnd_0, Rplus_0_r, Rminus_0_r, Rinv_1, Rmult_1_r.
    set (s := rnd (/ 10 ^ 10)) in *. assert (E2 : rnd 2 = 2) by (change 2 with (bpow radix2 1); apply rnd_bpow; lia). rewrite E2.
    assert (B0 : bpow radix2 (-33) <= 2 * s <= bpow radix2 1) by (cbn in *; lra).
    assert (M : forall t, bpow radix2 (-33) <= t <= bpow radix2 1 -> bpow radix2 (-33) <= rnd t <= bpow radix2 1).
    { intros t [T1 T2]. rewrite <- (rnd_bpow (e := -33)), <- (rnd_bpow (e := 1)) by lia. split; apply rnd_le; auto. }
    destruct (M _ (M _ (M _ B0))) as [B1 B2]. rewrite Rabs_pos_eq by (pose proof (bpow_ge_0 radix2 (-33)); lra).
    split; [apply Rle_trans with (bpow radix2 (-33))|apply Rle_trans with (bpow radix2 1)]; auto; apply bpow_le; lia.
  - right. exact S'.
  - left. reflexivity.
Qed.
Print Assumptions C57_result. Print Assumptions C57_found. Print Assumptions C57_grid. Print Assumptions C85_tolerance_refuted.
Print Assumptions C69_rows. Print Assumptions C69_value. Print Assumptions C69_radius. Print Assumptions C69_symmetric. Print Assumptions C70_norm. Print Assumptions C70_rounded.
