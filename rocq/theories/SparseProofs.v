(** Proofs about the storage of sparse matrices (C50). *)
From Verif Require Import Base SerModel SerProofs SparseModel.
From Coq Require Import ZArith Lia Bool Arith List.
Import ListNotations.
Set Implicit Arguments.

Section F.
Variable V : Type.
Implicit Types m : csc V.

Lemma firstn_snoc : forall c (o : list nat), c < length o -> firstn (S c) o = firstn c o ++ [nth c o 0].
Proof.
  induction c as [|c IH]; intros [|x o] H; cbn in H; try lia; auto.
  cbn [nth firstn app]. f_equal. change (match o with [] => [] | a :: l => a :: firstn c l end) with (firstn (S c) o). apply IH. lia.
Qed.
Lemma kept_le : forall l, kept l <= length l.
Proof. induction l as [|x l IH]; cbn; auto. destruct (kept l); [destruct (Nat.eqb x 0)|]; lia. Qed.
Lemma kept_zero : forall k, kept (repeat 0 k) = 0.
Proof. induction k; cbn; auto. rewrite IHk. reflexivity. Qed.
Lemma kept_app : forall l l', kept l' <> 0 -> kept (l ++ l') = length l + kept l'.
Proof.
  induction l as [|x l IH]; intros l' H; cbn; auto. rewrite IH by auto. destruct (length l + kept l') eqn:E; auto. lia.
Qed.
Lemma kept_app0 : forall l k, kept (l ++ repeat 0 k) = kept l.
Proof.
  induction l as [|x l IH]; intros k; cbn. { apply kept_zero. } rewrite IH. reflexivity.
Qed.
Lemma kept_full : forall l x, x <> 0 -> kept (l ++ [x]) = S (length l).
Proof.
  intros l x H. assert (E : kept [x] = 1) by (cbn; destruct (Nat.eqb_spec x 0); [lia|auto]). rewrite kept_app; rewrite E; lia.
Qed.

Lemma outer_mono : forall m, compressed m -> forall c d, c <= d <= m_cols m -> nth c (m_outer m) 0 <= nth d (m_outer m) 0.
Proof.
  intros m (_ & _ & M & _) c d H. induction d as [|d IH]. { replace c with 0 by lia. lia. }
  destruct (Nat.eq_dec c (S d)) as [->|N]; [lia|]. specialize (M d ltac:(lia)). specialize (IH ltac:(lia)). lia.
Qed.

Lemma all_zero : forall l, (forall c, c < length l -> nth c l 0 = 0) -> l = repeat 0 (length l).
Proof.
  induction l as [|x l IH]; intros H; cbn; auto. rewrite (H 0 ltac:(cbn; lia) : x = 0). f_equal. apply IH. intros c Hc. apply (H (S c)). cbn. lia.
Qed.

Lemma split_last : forall m, compressed m -> m_outer m = firstn (m_cols m) (m_outer m) ++ [length (m_vals m)].
Proof.
  intros m (L & _ & _ & E & _). rewrite <- E. rewrite <- (firstn_skipn (m_cols m) (m_outer m)) at 1. f_equal.
  assert (Ls : length (skipn (m_cols m) (m_outer m)) = 1) by (rewrite skipn_length; lia).
  destruct (skipn (m_cols m) (m_outer m)) as [|x [|? ?]] eqn:Es; try (cbn in Ls; lia).
  rewrite <- (firstn_skipn (m_cols m) (m_outer m)), Es. rewrite app_nth2; rewrite firstn_length; [|lia].
  replace (m_cols m - _) with 0 by lia. reflexivity.
Qed.

(** All outer indices: finalize changes nothing. *)
Lemma finalize_id : forall m, compressed m -> finalize m = m.
Proof.
  intros m C. pose proof C as (L & Z0 & M & E & Li & _). unfold finalize. destruct m as [r c o i v]; cbn [m_rows m_cols m_outer m_inner m_vals] in *. f_equal.
  destruct (Nat.eq_dec (length v) 0) as [Ez|Nz].
  - assert (A : o = repeat 0 (length o)).
    { apply all_zero. intros k Hk. pose proof (@outer_mono (Csc r c o i v) C k c ltac:(cbn; lia)) as H. cbn in H. lia. }
    assert (K : kept o = 0) by (rewrite A; apply kept_zero).
    rewrite K, Ez, Nat.sub_0_r. cbn [firstn app]. symmetry. exact A.
  - pose proof (split_last C) as S. cbn in S. assert (K : kept o = length o).
    { rewrite S. rewrite kept_full by auto. rewrite app_length. cbn. lia. }
    rewrite K, firstn_all, Nat.sub_diag. cbn. apply app_nil_r.
Qed.

(** Something is stored before the last column, or nothing at all. *)
Definition storable m : Prop := m_vals m = [] \/ exists c, S c < m_cols m /\ column m c <> [].

Lemma rebuild_ok : forall m, compressed m -> storable m ->
  rebuild (m_rows m) (m_cols m) (firstn (m_cols m) (m_outer m)) (m_inner m) (m_vals m) = Ok m.
Proof.
  intros m C S. pose proof C as (L & Z0 & M & E & Li & _). unfold rebuild.
  assert (Lf : length (firstn (m_cols m) (m_outer m)) = m_cols m) by (rewrite firstn_length; lia).
  rewrite Li, Nat.ltb_irrefl, Lf. destruct (Nat.ltb_spec (Datatypes.S (m_cols m)) (m_cols m)); [lia|]. cbn [orb]. f_equal.
  rewrite Nat.sub_diag. cbn [repeat]. rewrite app_nil_r. replace (Datatypes.S (m_cols m) - m_cols m) with 1 by lia. cbn [repeat].
  pose proof (split_last C) as Sp. unfold finalize. cbn [m_rows m_cols m_outer m_inner m_vals].
  destruct m as [r c o i v]; cbn [m_rows m_cols m_outer m_inner m_vals] in *. f_equal. 
  assert (K : v = [] \/ kept (firstn c o) = c).
  { destruct S as [S|(k & Hk & S)]; [auto|right]. cbn in Hk. unfold column in S. cbn [m_outer m_inner m_vals] in S.
    assert (P : nth (Datatypes.S k) o 0 <> 0). { intro P. rewrite P in S. cbn in S. apply S. reflexivity. }
    pose proof (@outer_mono (Csc r c o i v) C (Datatypes.S k) (c - 1) ltac:(cbn; lia)) as H'. cbn [m_outer] in H'.
    destruct c as [|c]; [lia|]. assert (Q : firstn (Datatypes.S c) o = firstn c o ++ [nth c o 0]).
    { apply firstn_snoc. lia. }
    rewrite Q. rewrite kept_full. 2:{ replace (Datatypes.S c - 1) with c in H' by lia. lia. }
    rewrite firstn_length. lia. }
  destruct K as [->|K].
  - cbn [length] in *. assert (A : firstn c o = repeat 0 c).
    { transitivity (repeat 0 (length (firstn c o))); [|rewrite Lf; reflexivity]. apply all_zero. intros k Hk.
      pose proof (@outer_mono (Csc r c o i []) C k c ltac:(cbn; lia)) as H'. cbn in H'.
      rewrite Sp in H'. rewrite app_nth1 in H' by lia. rewrite app_nth2, Lf, Nat.sub_diag in H' by lia. cbn in H'. lia. }
    rewrite A. rewrite A in Sp. rewrite Sp. change [0] with (repeat 0 1). rewrite <- repeat_app. rewrite kept_zero. cbn [firstn app]. rewrite repeat_length, Nat.sub_0_r. reflexivity.
  - change [0] with (repeat 0 1). rewrite kept_app0, K. rewrite firstn_app, Lf, Nat.sub_diag, firstn_firstn, Nat.min_id. cbn [firstn]. rewrite app_nil_r.
    rewrite app_length, Lf. cbn [length repeat]. replace (c + 1 - c) with 1 by lia. cbn [repeat]. symmetry. exact Sp.
Qed.

(** Otherwise everything is lost. *)
Lemma rebuild_lost : forall m, compressed m -> ~ storable m ->
  exists m', rebuild (m_rows m) (m_cols m) (firstn (m_cols m) (m_outer m)) (m_inner m) (m_vals m) = Ok m' /\
    (forall c, c < m_cols m -> column m' c = []) /\ exists c, c < m_cols m /\ column m c <> [].
Proof.
  intros m C S. pose proof C as (L & Z0 & M & E & Li & _). unfold rebuild.
  assert (Lf : length (firstn (m_cols m) (m_outer m)) = m_cols m) by (rewrite firstn_length; lia).
  rewrite Li, Nat.ltb_irrefl, Lf. destruct (Nat.ltb_spec (Datatypes.S (m_cols m)) (m_cols m)); [lia|]. cbn [orb]. eexists. split; [reflexivity|].
  assert (Nv : length (m_vals m) <> 0). { intro Q. apply S. left. destruct (m_vals m); [auto|discriminate]. }
  assert (Z : forall c, c < m_cols m -> nth c (m_outer m) 0 = 0).
  { induction c as [|c IH]; intros Hc; auto. specialize (IH ltac:(lia)). destruct (nth (Datatypes.S c) (m_outer m) 0) as [|x] eqn:Ex; auto.
    exfalso. apply S. right. exists c. split; auto. unfold column. rewrite Ex, IH. cbn [skipn Nat.sub].
    pose proof (@outer_mono m C (Datatypes.S c) (m_cols m) ltac:(lia)) as Hm. rewrite Ex, E in Hm.
    destruct (m_inner m), (m_vals m); cbn in *; try lia. discriminate. }
  assert (A : firstn (m_cols m) (m_outer m) = repeat 0 (m_cols m)).
  { transitivity (repeat 0 (length (firstn (m_cols m) (m_outer m)))); [|rewrite Lf; reflexivity]. apply all_zero. intros k Hk. rewrite Lf in Hk.
    pose proof (split_last C) as Sp. assert (nth k (m_outer m) 0 = nth k (firstn (m_cols m) (m_outer m)) 0) as <-.
    { rewrite Sp at 1. rewrite app_nth1 by lia. reflexivity. } auto. }
  split.
  - intros c Hc. rewrite A, <- repeat_app. unfold finalize, column. cbn [m_outer m_inner m_vals].
    rewrite kept_zero. cbn [firstn app]. rewrite repeat_length, Nat.sub_0_r.
    replace (nth c (repeat (length (m_vals m)) (m_cols m + (Datatypes.S (m_cols m) - m_cols m))) 0) with (length (m_vals m)).
    replace (nth (Datatypes.S c) (repeat (length (m_vals m)) (m_cols m + (Datatypes.S (m_cols m) - m_cols m))) 0) with (length (m_vals m)).
    { rewrite Nat.sub_diag. reflexivity. }
    all: symmetry; rewrite (nth_indep _ 0 (length (m_vals m))) by (rewrite repeat_length; lia); apply nth_repeat.
  - destruct (m_cols m) as [|k] eqn:Ec.
    { rewrite Z0 in E. lia. }
    exists k. split; auto. unfold column. rewrite E, (Z k) by lia. cbn [skipn]. rewrite Nat.sub_0_r.
    destruct (m_inner m), (m_vals m); cbn in *; try lia. discriminate.
Qed.
End F.

Local Open Scope Z_scope.
Section B.
Variable cx : bool.
Variable fconv : ty -> ty -> list Z -> list Z.
Variable base : Z.

(** Matrices whose numbers fit the stored types. *)
Definition fits (m : csc value) : Prop :=
  Z.of_nat (m_rows m) < 2 ^ 31 /\ Z.of_nat (m_cols m) < 2 ^ 31 /\ Z.of_nat (length (m_vals m)) < 2 ^ 31 /\
  Forall (fun v => length (fst v) = 8%nat /\ if cx then length (snd v) = 8%nat else snd v = []) (m_vals m).

Lemma save_app : forall a b x y, save a = Ok x -> save b = Ok y -> save (a ++ b) = Ok (x ++ y).
Proof.
  induction a as [|i a IH]; intros b x y Ha Hb. { cbn in Ha. injection Ha as <-. exact Hb. }
  cbn [save app] in *. destruct (enc i) as [e| |] eqn:Ee; try discriminate. 2:{ destruct (save a); discriminate. }
  destruct (save a) as [f| |] eqn:Ef; try discriminate. injection Ha as <-. rewrite (IH b f y eq_refl Hb). rewrite app_assoc. reflexivity.
Qed.
Lemma save_wf : forall l, Forall wf l -> exists e, save l = Ok e.
Proof.
  intros l H. induction H as [|i l W H (e & IH)]; cbn; eauto. rewrite (enc_wf _ W), IH. eauto.
Qed.

Lemma i32_len : forall n, length (i32 n) = 4%nat.
Proof. intro. apply le_len. Qed.
Lemma i32_val : forall n, Z.of_nat n < 2 ^ 31 -> int_val I32 (i32 n) = Z.of_nat n.
Proof.
  intros n H. unfold i32. rewrite num32_small by auto. unfold int_val. rewrite unle_le. cbn [ty_size signed andb].
  change (256 ^ Z.of_nat 4) with (2 ^ 32). rewrite Z.mod_small by lia. change (2 ^ 32 / 2) with (2 ^ 31). destruct (Z.leb_spec (2 ^ 31) (Z.of_nat n)); lia.
Qed.
Lemma u32_val : forall n, Z.of_nat n < 2 ^ 31 -> int_val U32 (conv fconv I32 U32 (i32 n)) = Z.of_nat n.
Proof.
  intros n H. unfold conv. change (ty_eqb I32 U32) with false. change (is_float I32 || is_float U32)%bool with false. cbv iota.
  rewrite i32_val by auto. unfold int_img, int_val. cbn [ty_size signed andb]. rewrite unle_le. change (256 ^ Z.of_nat 4) with (2 ^ 32). apply Z.mod_small. lia.
Qed.

Definition part1 (m : csc value) := [Scalar U8 [if cx then 2 else 0]; Scalar I32 (i32 (m_rows m)); Scalar I32 (i32 (m_cols m)); Vector F64 (map fst (m_vals m))].
Definition part2 (m : csc value) := if cx then [Vector F64 (map snd (m_vals m))] else [].
Definition part3 (m : csc value) := [Vector I32 (map i32 (m_inner m)); Vector I32 (map i32 (firstn (m_cols m) (m_outer m)))].

Lemma parts_wf : forall m, compressed m -> fits m -> Forall wf (part1 m) /\ Forall wf (part2 m) /\ Forall wf (part3 m).
Proof.
  intros m (L & Z0 & M & E & Li & _) (F1 & F2 & F3 & F4). unfold part1, part2, part3. rewrite Forall_forall in F4. split; [|split].
  - repeat constructor; cbn; auto using i32_len.
    + apply Forall_forall. intros x Hx. apply in_map_iff in Hx. destruct Hx as (v & <- & Hv). apply F4; auto.
    + rewrite map_length. exact F3.
  - destruct cx; repeat constructor.
    + apply Forall_forall. intros x Hx. apply in_map_iff in Hx. destruct Hx as (v & <- & Hv). apply F4; auto.
    + rewrite map_length. exact F3.
  - repeat constructor.
    + apply Forall_forall. intros x Hx. apply in_map_iff in Hx. destruct Hx as (v & <- & Hv). apply i32_len.
    + rewrite map_length. lia.
    + apply Forall_forall. intros x Hx. apply in_map_iff in Hx. destruct Hx as (v & <- & Hv). apply i32_len.
    + rewrite map_length, firstn_length. lia.
Qed.

Definition raw_of (m : csc value) : raw :=
  Raw cx (Z.of_nat (m_rows m)) (Z.of_nat (m_cols m)) (map fst (m_vals m)) (if cx then map snd (m_vals m) else [])
    (map Z.of_nat (m_inner m)) (map Z.of_nat (firstn (m_cols m) (m_outer m))).

Lemma small_idx : forall m, compressed m -> fits m -> (forall k, In k (m_inner m) -> Z.of_nat k < 2 ^ 31) /\
  (forall k, In k (firstn (m_cols m) (m_outer m)) -> Z.of_nat k < 2 ^ 31).
Proof.
  intros m C (F1 & F2 & F3 & F4). pose proof C as (L & Z0 & M & E & Li & R). split; intros k Hk.
  - rewrite Forall_forall in R. specialize (R k Hk). lia.
  - apply In_nth with (d := 0%nat) in Hk. destruct Hk as (c & Hc & <-). rewrite firstn_length in Hc.
    assert (nth c (firstn (m_cols m) (m_outer m)) 0%nat = nth c (m_outer m) 0%nat) as ->.
    { rewrite (split_last C) at 2. rewrite app_nth1 by (rewrite firstn_length; lia). reflexivity. }
    pose proof (@outer_mono _ m C c (m_cols m) ltac:(lia)). lia.
Qed.

Lemma read_raw_ok : forall m e pre post, compressed m -> fits m -> save (ser_one cx m) = Ok e -> 0 <= base ->
  base + Z.of_nat (length (pre ++ e ++ post)) < 2 ^ 63 ->
  read_raw fconv base (pre ++ e ++ post) (length pre) = Ok (raw_of m, (length pre + length e)%nat).
Proof.
  intros m e pre post C F S B L. destruct (parts_wf C F) as (W1 & W2 & W3). destruct (small_idx C F) as [I1 I2].
  destruct (save_wf W1) as [e1 E1]. destruct (save_wf W2) as [e2 E2]. destruct (save_wf W3) as [e3 E3].
  pose proof (save_app _ _ E1 (save_app _ _ E2 E3)) as S'. change (part1 m ++ part2 m ++ part3 m) with (ser_one cx m) in S'.
  rewrite S in S'. injection S' as ->.
  unfold read_raw.
  replace (pre ++ (e1 ++ e2 ++ e3) ++ post) with (pre ++ e1 ++ (e2 ++ e3 ++ post)) in * by (rewrite <- !app_assoc; reflexivity).
  change [SScalar U8; SScalar I32; SScalar I32; SVector F64] with (map slot_of (part1 m)).
  rewrite (@roundtrip fconv base (part1 m) e1 pre (e2 ++ e3 ++ post) W1 E1 B L). unfold part1 at 1.
  assert (Fc : flag_cx [if cx then 2 else 0] = cx) by (destruct cx; reflexivity). rewrite Fc.
  replace (if cx then [SVector F64] else []) with (map slot_of (part2 m)) by (unfold part2; destruct cx; reflexivity).
  replace (length pre + length e1)%nat with (length (pre ++ e1)) by (rewrite app_length; lia).
  replace (pre ++ e1 ++ e2 ++ e3 ++ post) with ((pre ++ e1) ++ e2 ++ (e3 ++ post)) in * by (rewrite <- !app_assoc; reflexivity).
  rewrite (@roundtrip fconv base (part2 m) e2 (pre ++ e1) (e3 ++ post) W2 E2 B L).
  replace (length (pre ++ e1) + length e2)%nat with (length ((pre ++ e1) ++ e2)) by (rewrite !app_length; lia).
  replace ((pre ++ e1) ++ e2 ++ e3 ++ post) with (((pre ++ e1) ++ e2) ++ e3 ++ post) in * by (rewrite <- !app_assoc; reflexivity).
  set (l3 := map (fun i => (i, U32)) (part3 m)).
  change [SVector U32; SVector U32] with (map (fun p : item * ty => slot_as (snd p) (fst p)) l3).
  assert (M3 : map fst l3 = part3 m) by (unfold l3; rewrite map_map; apply map_id).
  rewrite (@reads_as fconv base l3 e3 ((pre ++ e1) ++ e2) post) by (rewrite ?M3; auto).
  unfold l3. unfold part3 at 1. cbn [map fst snd as_ty].
  f_equal. apply pair_equal_spec. split.
  - unfold raw_of. destruct F as (F1 & F2 & F3 & F4). rewrite !i32_val by auto. f_equal.
    + unfold part2. destruct cx; reflexivity.
    + rewrite !map_map. apply map_ext_in. intros k Hk. apply u32_val. auto.
    + rewrite !map_map. apply map_ext_in. intros k Hk. apply u32_val. auto.
  - rewrite !app_length. lia.
Qed.

Lemma merge_ok : forall m, fits m -> merge cx (map fst (m_vals m)) (if cx then map snd (m_vals m) else []) = Ok (m_vals m).
Proof.
  intros m (_ & _ & _ & F). unfold merge. destruct cx.
  - rewrite !map_length, Nat.ltb_irrefl. f_equal. induction (m_vals m) as [|[a b] l IH]; cbn; auto. f_equal. apply IH. inversion F; auto.
  - f_equal. rewrite map_map. induction F as [|[a b] l [H1 H2] F IH]; cbn; auto. cbn in H2. subst. f_equal. exact IH.
Qed.

Lemma nat_z : forall l, map Z.to_nat (map Z.of_nat l) = l.
Proof. intro l. rewrite map_map. rewrite <- (map_id l) at 2. apply map_ext. intro. apply Nat2Z.id. Qed.

Lemma build_raw : forall m, fits m -> build_one cx (raw_of m) =
  rebuild (m_rows m) (m_cols m) (firstn (m_cols m) (m_outer m)) (m_inner m) (m_vals m).
Proof.
  intros m F. unfold build_one. cbn [raw_of r_re r_im r_rows r_cols r_ptr r_ind]. rewrite merge_ok by auto.
  destruct (Z.ltb_spec (Z.of_nat (m_rows m)) 0); [lia|]. destruct (Z.ltb_spec (Z.of_nat (m_cols m)) 0); [lia|]. cbn [orb].
  rewrite !nat_z, !Nat2Z.id. reflexivity.
Qed.

Lemma deser_ser : forall a b e, compressed a -> compressed b -> fits a -> fits b -> save (ser cx (a, b)) = Ok e -> 0 <= base ->
  base + Z.of_nat (length e) < 2 ^ 63 ->
  deser cx fconv base e =
    match build_one cx (raw_of a), build_one cx (raw_of b) with
    | Ok x, Ok y => Ok (x, y)
    | Throw, _ => Throw | UB, _ => UB
    | _, Throw => Throw | _, UB => UB
    end.
Proof.
  intros a b e Ca Cb Fa Fb S B L. unfold deser.
  assert (Wa : exists ea, save (ser_one cx a) = Ok ea). { apply save_wf. destruct (parts_wf Ca Fa) as (? & ? & ?). unfold ser_one. apply Forall_app; split; [assumption|]. apply Forall_app; split; assumption. }
  assert (Wb : exists eb, save (ser_one cx b) = Ok eb). { apply save_wf. destruct (parts_wf Cb Fb) as (? & ? & ?). unfold ser_one. apply Forall_app; split; [assumption|]. apply Forall_app; split; assumption. }
  destruct Wa as [ea Ea], Wb as [eb Eb]. pose proof (save_app _ _ Ea Eb) as S'. unfold ser in S. cbn [fst snd] in S. rewrite S in S'. injection S' as ->.
  pose proof (@read_raw_ok a ea [] eb Ca Fa Ea B) as R1. cbn [app length] in R1. rewrite R1 by exact L. rewrite Nat.add_0_l.
  pose proof (@read_raw_ok b eb ea [] Cb Fb Eb B) as R2. rewrite app_nil_r in R2. rewrite R2 by exact L.
  cbn [raw_of r_cx]. rewrite xorb_nilpotent. reflexivity.
Qed.
End B.
