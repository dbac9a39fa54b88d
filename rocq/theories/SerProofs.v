(** Proofs about the Serializer model (C48, C49). *)
From Verif Require Import Base SerModel.
From Coq Require Import ZArith Lia Bool List.
Import ListNotations.
Set Implicit Arguments.
Local Open Scope Z_scope.

Lemma le_len : forall k z, length (le k z) = k.
Proof. induction k; intros; cbn; auto. Qed.

Lemma unle_le : forall k z, unle (le k z) = z mod 256 ^ Z.of_nat k.
Proof.
  induction k as [|k IH]; intros z. { cbn. rewrite Z.mod_1_r. reflexivity. }
  cbn [le unle]. rewrite IH. replace (Z.of_nat (S k)) with (Z.succ (Z.of_nat k)) by lia.
  rewrite Z.pow_succ_r by lia. rewrite Z.rem_mul_r by lia. reflexivity.
Qed.

Lemma id_roundtrip : forall t, ty_of_id (ty_id t) = Some t.
Proof. destruct t; reflexivity. Qed.
Lemma id_le : forall t, unle (le 2 (ty_id t)) = ty_id t.
Proof. destruct t; reflexivity. Qed.
Lemma ty_eqb_refl : forall t, ty_eqb t t = true.
Proof. intro. apply Z.eqb_refl. Qed.
Lemma size_pos : forall t, (1 <= ty_size t <= 8)%nat.
Proof. destruct t; cbn; lia. Qed.

Section P.
Variable fconv : ty -> ty -> list Z -> list Z.
Variable base : Z.
Notation conv := (conv fconv).

Lemma conv_same : forall t bs, conv t t bs = bs.
Proof. intros. unfold SerModel.conv. rewrite ty_eqb_refl. reflexivity. Qed.

Lemma beyond_spec : forall bytes pos d, 0 <= base -> base + Z.of_nat (length bytes) < 2 ^ 63 ->
  (pos <= length bytes)%nat -> 0 <= d < 2 ^ 63 ->
  beyond base bytes pos d = (Z.of_nat (length bytes) <? Z.of_nat pos + d).
Proof.
  intros bytes pos d B L P D. unfold beyond, W64. rewrite Z.mod_small by lia.
  destruct (Z.ltb_spec (base + Z.of_nat (length bytes)) (base + Z.of_nat pos + d)), (Z.ltb_spec (Z.of_nat (length bytes)) (Z.of_nat pos + d)); auto; lia.
Qed.

Lemma fetch_mid : forall pre mid post d, d = Z.of_nat (length mid) ->
  fetch (pre ++ mid ++ post) (length pre) d = Ok mid.
Proof.
  intros pre mid post d ->. unfold fetch. rewrite !app_length.
  destruct (Z.leb_spec (Z.of_nat (length pre) + Z.of_nat (length mid)) (Z.of_nat (length pre + (length mid + length post)))); [|lia].
  rewrite skipn_app, skipn_all, Nat.sub_diag. cbn [skipn app]. rewrite Nat2Z.id, firstn_app, firstn_all, Nat.sub_diag. cbn. rewrite app_nil_r. reflexivity.
Qed.

(** Reads that stay inside. *)
Lemma read_type_ok : forall pre t post, 0 <= base -> base + Z.of_nat (length (pre ++ le 2 (ty_id t) ++ post)) < 2 ^ 63 ->
  read_type base (pre ++ le 2 (ty_id t) ++ post) (length pre) = Ok t.
Proof.
  intros pre t post B L. unfold read_type. rewrite beyond_spec; auto; try lia.
  2:{ rewrite !app_length. lia. }
  destruct (Z.ltb_spec (Z.of_nat (length (pre ++ le 2 (ty_id t) ++ post))) (Z.of_nat (length pre) + 2)) as [H|H].
  { rewrite !app_length, le_len in H. lia. }
  rewrite fetch_mid by (rewrite le_len; reflexivity). rewrite id_le, id_roundtrip. reflexivity.
Qed.

Lemma read_scalar_ok : forall pre src dst img post, length img = ty_size src ->
  0 <= base -> base + Z.of_nat (length (pre ++ (le 2 (ty_id src) ++ img) ++ post)) < 2 ^ 63 ->
  read_scalar fconv base (pre ++ (le 2 (ty_id src) ++ img) ++ post) dst (length pre) =
    Ok (conv src dst img, (length pre + 2 + ty_size src)%nat).
Proof.
  intros pre src dst img post Li B L. unfold read_scalar. rewrite <- !app_assoc in *. rewrite read_type_ok by auto.
  pose proof (size_pos src) as Sp.
  rewrite beyond_spec; auto; try lia. 2:{ rewrite !app_length, le_len. lia. }
  rewrite (app_assoc pre). replace (length pre + 2)%nat with (length (pre ++ le 2 (ty_id src))) by (rewrite app_length, le_len; reflexivity).
  destruct (Z.ltb_spec (Z.of_nat (length ((pre ++ le 2 (ty_id src)) ++ img ++ post))) (Z.of_nat (length (pre ++ le 2 (ty_id src))) + Z.of_nat (ty_size src))) as [H|H].
  { rewrite (app_length (pre ++ le 2 (ty_id src))), (app_length img) in H. lia. }
  rewrite fetch_mid by (rewrite Li; reflexivity). reflexivity.
Qed.

Lemma chop_concat : forall k imgs, Forall (fun i => length i = k) imgs -> chop k (length imgs) (concat imgs) = imgs.
Proof.
  intros k imgs H. induction H as [|i imgs Hi H IH]; cbn [length chop concat]; auto.
  rewrite firstn_app, Hi, Nat.sub_diag, <- Hi, firstn_all. cbn [firstn]. rewrite app_nil_r. f_equal.
  rewrite skipn_app, skipn_all, Nat.sub_diag. cbn. rewrite Hi. exact IH.
Qed.

Lemma concat_len : forall k (imgs : list (list Z)), Forall (fun i => length i = k) imgs -> length (concat imgs) = (length imgs * k)%nat.
Proof. intros k imgs H. induction H; cbn; auto. rewrite app_length. lia. Qed.

Lemma num32_small : forall n, Z.of_nat n < 2 ^ 31 -> num32 n = Z.of_nat n.
Proof.
  intros n H. unfold num32. rewrite Z.mod_small by lia. destruct (Z.leb_spec (2 ^ 31) (Z.of_nat n)); lia.
Qed.

Lemma len_conv : forall z, 0 <= z < 2 ^ 31 -> unle (conv I32 U64 (le 4 z)) = z.
Proof.
  intros z H. unfold SerModel.conv. change (ty_eqb I32 U64) with false. change (is_float I32 || is_float U64) with false. cbv iota.
  assert (V : int_val I32 (le 4 z) = z).
  { unfold int_val. rewrite unle_le. cbn [ty_size signed andb]. change (256 ^ Z.of_nat 4) with (2 ^ 32).
    rewrite (Z.mod_small z) by lia. change (2 ^ 32 / 2) with (2 ^ 31). destruct (Z.leb_spec (2 ^ 31) z); lia. }
  rewrite V. unfold int_img. cbn [ty_size]. rewrite unle_le. apply Z.mod_small. change (256 ^ Z.of_nat 8) with (2 ^ 64). lia.
Qed.

(** Well-formed items. *)
Definition wf (i : item) : Prop :=
  match i with
  | Scalar t img => length img = ty_size t
  | Vector t imgs => Forall (fun i => length i = ty_size t) imgs /\ Z.of_nat (length imgs) < 2 ^ 31
  end.

Definition hdr (n : nat) : list Z := le 2 (ty_id I32) ++ le 4 (Z.of_nat n).
Lemma hdr_len : forall n, length (hdr n) = 6%nat.
Proof. intros. unfold hdr. rewrite app_length, !le_len. reflexivity. Qed.
Definition body (t : ty) (imgs : list (list Z)) : list Z := le 2 (ty_id t) ++ concat imgs.
Lemma enc_wf : forall i, wf i -> enc i = Ok (match i with
  | Scalar t img => le 2 (ty_id t) ++ img
  | Vector t imgs => hdr (length imgs) ++ body t imgs end).
Proof.
  intros [t img|t imgs] W; cbn [enc]; auto. destruct W as [W1 W2]. pose proof (size_pos t) as Sp.
  assert (N : nbytes (length imgs) t = Z.of_nat (length (concat imgs))).
  { unfold nbytes. rewrite num32_small by auto. rewrite (concat_len W1), Nat2Z.inj_mul. apply Z.mod_small. unfold W64. nia. }
  rewrite N, Z.ltb_irrefl, Nat2Z.id, firstn_all, num32_small by auto. unfold hdr, body. rewrite <- app_assoc. reflexivity.
Qed.

Lemma read_elems_ok : forall pre t dst imgs post, Forall (fun i => length i = ty_size t) imgs -> Z.of_nat (length imgs) < 2 ^ 31 ->
  0 <= base -> base + Z.of_nat (length (pre ++ body t imgs ++ post)) < 2 ^ 63 ->
  read_elems fconv base (pre ++ body t imgs ++ post) dst (Z.of_nat (length imgs)) (length pre) =
    Ok (map (conv t dst) imgs, (length pre + length (body t imgs))%nat).
Proof.
  intros pre t dst imgs post F N B L. unfold read_elems, body in *. rewrite <- !app_assoc in *. rewrite read_type_ok by auto.
  pose proof (size_pos t) as Sp. pose proof (concat_len F) as Cl.
  set (d := (Z.of_nat (ty_size t) * Z.of_nat (length imgs)) mod W64).
  assert (D : d = Z.of_nat (length (concat imgs))).
  { unfold d. rewrite Cl, Nat2Z.inj_mul, Z.mul_comm. apply Z.mod_small. unfold W64. nia. }
  assert (Db : 0 <= d < 2 ^ 63) by (rewrite D, Cl; nia).
  rewrite beyond_spec; auto; try lia. 2:{ rewrite !app_length, le_len. lia. }
  destruct (Z.ltb_spec (Z.of_nat (length (pre ++ le 2 (ty_id t) ++ concat imgs ++ post))) (Z.of_nat (length pre + 2) + d)) as [H|H].
  { rewrite !app_length, le_len in H. lia. }
  destruct (Z.leb_spec (2 ^ 63) d); [lia|].
  replace (pre ++ le 2 (ty_id t) ++ concat imgs ++ post) with ((pre ++ le 2 (ty_id t)) ++ concat imgs ++ post) by (rewrite <- app_assoc; reflexivity).
  replace (length pre + 2)%nat with (length (pre ++ le 2 (ty_id t))) by (rewrite app_length, le_len; reflexivity).
  rewrite fetch_mid by exact D. f_equal. apply pair_equal_spec. split.
  - replace (Z.to_nat (d / Z.of_nat (ty_size t))) with (length imgs).
    + rewrite (chop_concat F). reflexivity.
    + rewrite D, Cl, Nat2Z.inj_mul, Z.div_mul by lia. rewrite Nat2Z.id. reflexivity.
  - rewrite D, Nat2Z.id, !app_length, le_len. lia.
Qed.

Definition read_one (bytes : list Z) (s : slot) (pos : nat) : res (item * nat) :=
  match s with
  | SScalar t => match read_scalar fconv base bytes t pos with Ok (v, p) => Ok (Scalar t v, p) | Throw => Throw | UB => UB end
  | SVector t => match read_vector fconv base bytes t [] pos with Ok (v, p) => Ok (Vector t v, p) | Throw => Throw | UB => UB end
  end.
Lemma reads_one : forall bytes s l pos, reads fconv base bytes (s :: l) pos =
  match read_one bytes s pos with
  | Ok (i, p) => match reads fconv base bytes l p with Ok (r, q) => Ok (i :: r, q) | Throw => Throw | UB => UB end
  | Throw => Throw | UB => UB
  end.
Proof.
  intros bytes [t|t] l pos; cbn [reads read_one].
  - destruct (read_scalar fconv base bytes t pos) as [[v p]| |]; reflexivity.
  - destruct (read_vector fconv base bytes t [] pos) as [[v p]| |]; reflexivity.
Qed.

(** Reading an item into a variable of type [dst]. *)
Definition slot_as (dst : ty) (i : item) : slot := match i with Scalar _ _ => SScalar dst | Vector _ _ => SVector dst end.
Definition as_ty (dst : ty) (i : item) : item :=
  match i with Scalar t v => Scalar dst (conv t dst v) | Vector t vs => Vector dst (map (conv t dst) vs) end.
Definition own (i : item) : ty := match i with Scalar t _ | Vector t _ => t end.
Lemma slot_own : forall i, slot_as (own i) i = slot_of i.
Proof. destruct i; reflexivity. Qed.
Lemma as_own : forall i, as_ty (own i) i = i.
Proof.
  destruct i as [t v|t vs]; cbn [own as_ty]. { rewrite conv_same. reflexivity. }
  f_equal. rewrite <- (map_id vs) at 2. apply map_ext. apply conv_same.
Qed.

Lemma read_one_as : forall dst i e pre post, wf i -> enc i = Ok e -> 0 <= base -> base + Z.of_nat (length (pre ++ e ++ post)) < 2 ^ 63 ->
  read_one (pre ++ e ++ post) (slot_as dst i) (length pre) = Ok (as_ty dst i, (length pre + length e)%nat).
Proof.
  intros dst i e pre post W E B L. rewrite (enc_wf _ W) in E. destruct i as [t img|t imgs]; cbn [slot_as as_ty read_one].
  - apply (f_equal (fun r => match r with Ok x => x | _ => [] end)) in E. cbv beta iota in E. subst e. cbn in W. rewrite (@read_scalar_ok pre t dst img post W B L). rewrite app_length, le_len, W, Nat.add_assoc. reflexivity.
  - apply (f_equal (fun r => match r with Ok x => x | _ => [] end)) in E. cbv beta iota in E. subst e. destruct W as [W1 W2]. unfold read_vector.
    replace (pre ++ (hdr (length imgs) ++ body t imgs) ++ post) with (pre ++ hdr (length imgs) ++ (body t imgs ++ post)) in * by (rewrite <- !app_assoc; reflexivity).
    unfold hdr at 1. rewrite (@read_scalar_ok pre I32 U64 (le 4 (Z.of_nat (length imgs)))) by (rewrite ?le_len; auto).
    rewrite len_conv by lia. fold (hdr (length imgs)).
    replace (length pre + 2 + ty_size I32)%nat with (length (pre ++ hdr (length imgs))) by (rewrite !app_length, hdr_len; cbn; lia).
    rewrite app_assoc in *. rewrite read_elems_ok by auto. rewrite !app_length. rewrite Nat.add_assoc. reflexivity.
Qed.

Lemma read_one_ok : forall i e pre post, wf i -> enc i = Ok e -> 0 <= base -> base + Z.of_nat (length (pre ++ e ++ post)) < 2 ^ 63 ->
  read_one (pre ++ e ++ post) (slot_of i) (length pre) = Ok (i, (length pre + length e)%nat).
Proof.
  intros i e pre post W E B L. rewrite <- slot_own, (@read_one_as (own i) i e pre post W E B L), as_own. reflexivity.
Qed.

(** Reading into variables of other types converts the values. *)
Theorem reads_as : forall l e pre post, Forall wf (map fst l) -> save (map fst l) = Ok e -> 0 <= base ->
  base + Z.of_nat (length (pre ++ e ++ post)) < 2 ^ 63 ->
  reads fconv base (pre ++ e ++ post) (map (fun p => slot_as (snd p) (fst p)) l) (length pre) =
    Ok (map (fun p => as_ty (snd p) (fst p)) l, (length pre + length e)%nat).
Proof.
  induction l as [|[i dst] l IH]; intros e pre post W E B L.
  - cbn in E. injection E as <-. cbn. rewrite Nat.add_0_r. reflexivity.
  - inversion W as [|? ? W1 W2]; subst. cbn [map fst snd save] in *. destruct (enc i) as [a| |] eqn:Ea; try discriminate.
    2:{ destruct (save (map fst l)); discriminate. }
    destruct (save (map fst l)) as [b| |] eqn:Eb; try discriminate. injection E as <-.
    rewrite reads_one. rewrite <- app_assoc in *. rewrite (@read_one_as dst i a pre _ W1 Ea B L).
    replace (length pre + length a)%nat with (length (pre ++ a)) by (rewrite app_length; lia).
    rewrite app_assoc in *. rewrite (IH b (pre ++ a) post W2 eq_refl B L). rewrite !app_length, Nat.add_assoc. reflexivity.
Qed.

Theorem roundtrip : forall items e pre post, Forall wf items -> save items = Ok e -> 0 <= base ->
  base + Z.of_nat (length (pre ++ e ++ post)) < 2 ^ 63 ->
  reads fconv base (pre ++ e ++ post) (map slot_of items) (length pre) = Ok (items, (length pre + length e)%nat).
Proof.
  induction items as [|i items IH]; intros e pre post W E B L.
  - cbn in E. injection E as <-. cbn. rewrite Nat.add_0_r. reflexivity.
  - inversion W as [|? ? W1 W2]; subst. cbn [save] in E. destruct (enc i) as [a| |] eqn:Ea; try discriminate.
    2:{ destruct (save items); discriminate. }
    destruct (save items) as [b| |] eqn:Eb; try discriminate. injection E as <-.
    cbn [map]. rewrite reads_one. rewrite <- app_assoc in *. rewrite (@read_one_ok i a pre _ W1 Ea B L).
    replace (length pre + length a)%nat with (length (pre ++ a)) by (rewrite app_length; lia).
    rewrite app_assoc in *. rewrite (IH b (pre ++ a) post W2 eq_refl B L). rewrite !app_length, Nat.add_assoc. reflexivity.
Qed.

(** Truncated streams. *)
Lemma read_type_cut : forall bytes pos, 0 <= base -> base + Z.of_nat (length bytes) < 2 ^ 63 -> (pos <= length bytes)%nat ->
  (length bytes < pos + 2)%nat -> read_type base bytes pos = Throw.
Proof.
  intros bytes pos B L P C. unfold read_type. rewrite beyond_spec by (auto; lia).
  destruct (Z.ltb_spec (Z.of_nat (length bytes)) (Z.of_nat pos + 2)); auto. lia.
Qed.

Lemma read_scalar_cut : forall pre src dst img k, length img = ty_size src ->
  (k < length (le 2 (ty_id src) ++ img))%nat ->
  0 <= base -> base + Z.of_nat (length (pre ++ firstn k (le 2 (ty_id src) ++ img))) < 2 ^ 63 ->
  read_scalar fconv base (pre ++ firstn k (le 2 (ty_id src) ++ img)) dst (length pre) = Throw.
Proof.
  intros pre src dst img k Li Hk B L. unfold read_scalar. rewrite app_length, le_len in Hk. pose proof (size_pos src) as Sp.
  assert (Lk : length (firstn k (le 2 (ty_id src) ++ img)) = k) by (rewrite firstn_length, app_length, le_len; lia).
  destruct (Nat.lt_ge_cases k 2) as [C|C].
  { rewrite read_type_cut; auto; rewrite app_length, Lk; lia. }
  rewrite firstn_app, le_len in *. rewrite (firstn_all2 (n := k) (le 2 (ty_id src))) in * by (rewrite le_len; lia).
  rewrite read_type_ok by auto. rewrite beyond_spec; auto; try lia. 2:{ rewrite !app_length, le_len. lia. }
  destruct (Z.ltb_spec (Z.of_nat (length (pre ++ le 2 (ty_id src) ++ firstn (k - 2) img))) (Z.of_nat (length pre + 2) + Z.of_nat (ty_size src))) as [H|H]; auto.
  rewrite !app_length, le_len, firstn_length in H. lia.
Qed.

Lemma read_elems_cut : forall pre t dst imgs k, Forall (fun i => length i = ty_size t) imgs -> Z.of_nat (length imgs) < 2 ^ 31 ->
  (k < length (body t imgs))%nat -> 0 <= base -> base + Z.of_nat (length (pre ++ firstn k (body t imgs))) < 2 ^ 63 ->
  read_elems fconv base (pre ++ firstn k (body t imgs)) dst (Z.of_nat (length imgs)) (length pre) = Throw.
Proof.
  intros pre t dst imgs k F N Hk B L. unfold read_elems, body in *. rewrite app_length, le_len in Hk. pose proof (size_pos t) as Sp. pose proof (concat_len F) as Cl.
  assert (Lk : length (firstn k (le 2 (ty_id t) ++ concat imgs)) = k) by (rewrite firstn_length, app_length, le_len; lia).
  destruct (Nat.lt_ge_cases k 2) as [C|C].
  { rewrite read_type_cut; auto; rewrite app_length, Lk; lia. }
  rewrite firstn_app, le_len in *. rewrite (firstn_all2 (n := k) (le 2 (ty_id t))) in * by (rewrite le_len; lia).
  rewrite read_type_ok by auto.
  set (d := (Z.of_nat (ty_size t) * Z.of_nat (length imgs)) mod W64).
  assert (D : d = Z.of_nat (length (concat imgs))).
  { unfold d. rewrite Cl, Nat2Z.inj_mul, Z.mul_comm. apply Z.mod_small. unfold W64. nia. }
  assert (Db : 0 <= d < 2 ^ 63) by (rewrite D, Cl; nia).
  rewrite beyond_spec; auto; try lia. 2:{ rewrite !app_length, le_len. lia. }
  destruct (Z.ltb_spec (Z.of_nat (length (pre ++ le 2 (ty_id t) ++ firstn (k - 2) (concat imgs)))) (Z.of_nat (length pre + 2) + d)) as [H|H]; auto.
  rewrite !app_length, le_len, firstn_length in H. lia.
Qed.

Lemma read_one_cut_as : forall dst i e pre k, wf i -> enc i = Ok e -> (k < length e)%nat -> 0 <= base ->
  base + Z.of_nat (length (pre ++ firstn k e)) < 2 ^ 63 ->
  read_one (pre ++ firstn k e) (slot_as dst i) (length pre) = Throw.
Proof.
  intros dst i e pre k W E Hk B L. rewrite (enc_wf _ W) in E. destruct i as [t img|t imgs]; cbn [slot_as read_one].
  - apply (f_equal (fun r => match r with Ok x => x | _ => [] end)) in E. cbv beta iota in E. subst e. cbn in W. rewrite read_scalar_cut; auto.
  - apply (f_equal (fun r => match r with Ok x => x | _ => [] end)) in E. cbv beta iota in E. subst e. destruct W as [W1 W2]. unfold read_vector.
    pose proof (hdr_len (length imgs)) as Lh.
    rewrite app_length in Hk. rewrite firstn_app in *. destruct (Nat.lt_ge_cases k (length (hdr (length imgs)))) as [C|C].
    + replace (k - length (hdr (length imgs)))%nat with 0%nat in * by lia. cbn [firstn] in *. rewrite app_nil_r in *.
      unfold hdr in *. rewrite read_scalar_cut; auto.
    + rewrite (firstn_all2 (n := k) (hdr (length imgs))) in * by lia.
      unfold hdr at 1. rewrite (@read_scalar_ok pre I32 U64 (le 4 (Z.of_nat (length imgs)))) by (rewrite ?le_len; auto).
      rewrite len_conv by lia. fold (hdr (length imgs)).
      replace (length pre + 2 + ty_size I32)%nat with (length (pre ++ hdr (length imgs))) by (rewrite app_length, Lh; cbn; lia).
      rewrite app_assoc in *. rewrite read_elems_cut; auto. lia.
Qed.

Lemma read_one_cut : forall i e pre k, wf i -> enc i = Ok e -> (k < length e)%nat -> 0 <= base ->
  base + Z.of_nat (length (pre ++ firstn k e)) < 2 ^ 63 ->
  read_one (pre ++ firstn k e) (slot_of i) (length pre) = Throw.
Proof. intros. rewrite <- slot_own. apply read_one_cut_as; auto. Qed.

Theorem truncated : forall items e pre k, Forall wf items -> save items = Ok e -> (k < length e)%nat -> 0 <= base ->
  base + Z.of_nat (length (pre ++ firstn k e)) < 2 ^ 63 ->
  reads fconv base (pre ++ firstn k e) (map slot_of items) (length pre) = Throw.
Proof.
  induction items as [|i items IH]; intros e pre k W E Hk B L.
  - cbn in E. injection E as <-. cbn in Hk. lia.
  - inversion W as [|? ? W1 W2]; subst. cbn [save] in E. destruct (enc i) as [a| |] eqn:Ea; try discriminate.
    2:{ destruct (save items); discriminate. }
    destruct (save items) as [b| |] eqn:Eb; try discriminate. injection E as <-.
    cbn [map]. rewrite reads_one. rewrite app_length in Hk. rewrite firstn_app in *. destruct (Nat.lt_ge_cases k (length a)) as [C|C].
    + replace (k - length a)%nat with 0%nat in * by lia. cbn [firstn] in *. rewrite app_nil_r in *.
      rewrite (@read_one_cut i a pre k W1 Ea C B L). reflexivity.
    + rewrite (firstn_all2 (n := k) a) in * by lia. rewrite (@read_one_ok i a pre _ W1 Ea B L).
      replace (length pre + length a)%nat with (length (pre ++ a)) by (rewrite app_length; lia).
      rewrite app_assoc in *. rewrite IH; auto. lia.
Qed.

Theorem truncated_as : forall l e pre k, Forall wf (map fst l) -> save (map fst l) = Ok e -> (k < length e)%nat -> 0 <= base ->
  base + Z.of_nat (length (pre ++ firstn k e)) < 2 ^ 63 ->
  reads fconv base (pre ++ firstn k e) (map (fun p => slot_as (snd p) (fst p)) l) (length pre) = Throw.
Proof.
  induction l as [|[i dst] l IH]; intros e pre k W E Hk B L.
  - cbn in E. injection E as <-. cbn in Hk. lia.
  - inversion W as [|? ? W1 W2]; subst. cbn [map fst snd save] in *. destruct (enc i) as [a| |] eqn:Ea; try discriminate.
    2:{ destruct (save (map fst l)); discriminate. }
    destruct (save (map fst l)) as [b| |] eqn:Eb; try discriminate. injection E as <-.
    rewrite reads_one. rewrite app_length in Hk. rewrite firstn_app in *. destruct (Nat.lt_ge_cases k (length a)) as [C|C].
    + replace (k - length a)%nat with 0%nat in * by lia. cbn [firstn] in *. rewrite app_nil_r in *.
      rewrite (@read_one_cut_as dst i a pre k W1 Ea C B L). reflexivity.
    + rewrite (firstn_all2 (n := k) a) in * by lia. rewrite (@read_one_as dst i a pre _ W1 Ea B L).
      replace (length pre + length a)%nat with (length (pre ++ a)) by (rewrite app_length; lia).
      rewrite app_assoc in *. rewrite (IH b); auto. lia.
Qed.

(** Arbitrary byte strings. *)
Section Any.
Variable bytes : list Z.
Hypothesis B : 0 <= base.
Hypothesis L : base + Z.of_nat (length bytes) < 2 ^ 63.

Lemma fetch_in : forall pos d, 0 <= d < 2 ^ 63 -> (pos <= length bytes)%nat -> beyond base bytes pos d = false ->
  exists bs, fetch bytes pos d = Ok bs /\ (pos + Z.to_nat d <= length bytes)%nat.
Proof.
  intros pos d D P H. rewrite beyond_spec in H by auto. apply Z.ltb_ge in H. unfold fetch.
  destruct (Z.leb_spec (Z.of_nat pos + d) (Z.of_nat (length bytes))); [|lia]. eexists. split; eauto. lia.
Qed.

Lemma read_type_safe : forall pos, (pos <= length bytes)%nat ->
  read_type base bytes pos = Throw \/ exists t, read_type base bytes pos = Ok t /\ (pos + 2 <= length bytes)%nat.
Proof.
  intros pos P. unfold read_type. destruct (beyond base bytes pos 2) eqn:E; auto.
  destruct (fetch_in (pos := pos) (d := 2) ltac:(lia) P E) as (bs & -> & H). destruct (ty_of_id (unle bs)) as [t|]; auto. right. exists t. split; auto.
Qed.

Lemma read_scalar_safe : forall dst pos, (pos <= length bytes)%nat ->
  read_scalar fconv base bytes dst pos = Throw \/ exists v p, read_scalar fconv base bytes dst pos = Ok (v, p) /\ (p <= length bytes)%nat.
Proof.
  intros dst pos P. unfold read_scalar. destruct (read_type_safe P) as [->|(t & -> & H)]; auto.
  pose proof (size_pos t). destruct (beyond base bytes (pos + 2) (Z.of_nat (ty_size t))) eqn:E; auto.
  destruct (fetch_in (pos := (pos + 2)%nat) (d := Z.of_nat (ty_size t)) ltac:(lia) H E) as (bs & -> & H2). right. eexists _, _. split; eauto. lia.
Qed.

Lemma read_elems_safe : forall dst num pos, (pos <= length bytes)%nat ->
  read_elems fconv base bytes dst num pos = Throw \/ exists v p, read_elems fconv base bytes dst num pos = Ok (v, p) /\ (p <= length bytes)%nat.
Proof.
  intros dst num pos P. unfold read_elems. destruct (read_type_safe P) as [->|(t & -> & H)]; auto.
  set (d := (Z.of_nat (ty_size t) * num) mod W64). assert (0 <= d < W64) by (apply Z.mod_pos_bound; reflexivity).
  destruct (beyond base bytes (pos + 2) d) eqn:E; auto. destruct (Z.leb_spec (2 ^ 63) d); auto.
  destruct (fetch_in (pos := (pos + 2)%nat) (d := d) ltac:(lia) H E) as (bs & -> & H2). right. eexists _, _. split; eauto.
Qed.

Theorem reads_safe : forall l pos, (pos <= length bytes)%nat ->
  reads fconv base bytes l pos = Throw \/ exists v p, reads fconv base bytes l pos = Ok (v, p) /\ (p <= length bytes)%nat.
Proof.
  induction l as [|s l IH]; intros pos P. { right. cbn. eauto. }
  rewrite reads_one.
  assert (read_one bytes s pos = Throw \/ exists v p, read_one bytes s pos = Ok (v, p) /\ (p <= length bytes)%nat) as [->|(v & p & -> & Hp)]; auto.
  { destruct s as [t|t]; cbn [read_one].
    - destruct (read_scalar_safe t P) as [->|(v & p & -> & Hp)]; auto. right. eauto.
    - unfold read_vector. destruct (read_scalar_safe U64 P) as [->|(v & p & -> & Hp)]; auto.
      destruct (read_elems_safe t (unle v) Hp) as [->|(v' & p' & -> & Hp')]; auto. right. eauto. }
  destruct (IH p Hp) as [->|(v' & p' & -> & Hp')]; auto. right. eauto.
Qed.
End Any.
End P.
