(** Laws of the archive codecs: reading back what was written, and truncated input. *)
From Verif Require Import Base ArchiveModel.
From Coq Require Import ZArith NArith Lia Bool String Ascii List.
Import ListNotations.
Set Implicit Arguments.
Local Open Scope Z_scope.

(** What was written is read back, whatever follows it; a proper prefix of it is refused. *)
Definition lawful {A} (c : codec A) : Prop := forall a, okc c a ->
  (forall rest, dec c (enc c a ++ rest) = Ok (a, rest)) /\
  (forall p q, enc c a = p ++ q -> q <> [] -> dec c p = Throw).

Lemma le_length : forall k z, List.length (le k z) = k.
Proof. induction k; intros; cbn; [reflexivity|]. now rewrite IHk. Qed.

Lemma unle_le : forall k z, unle (le k z) = z mod 256 ^ Z.of_nat k.
Proof.
  induction k; intros z; cbn [le unle]; [cbn; now rewrite Z.mod_1_r|].
  rewrite IHk, Nat2Z.inj_succ, Z.pow_succ_r by lia.
  rewrite Z.rem_mul_r by lia. lia.
Qed.

Lemma take_app : forall x rest k, List.length x = k -> take k (x ++ rest) = Ok (x, rest).
Proof.
  induction x; intros rest [|k] H; try discriminate; [reflexivity|].
  cbn. rewrite IHx by (cbn in H; lia). reflexivity.
Qed.

Lemma take_short : forall k p, (List.length p < k)%nat -> take k p = Throw.
Proof.
  induction k; intros p H; [lia|]. destruct p; [reflexivity|].
  cbn. rewrite IHk by (cbn in H; lia). reflexivity.
Qed.

Lemma prefix_short : forall (x p q : bytes), x = p ++ q -> q <> [] -> (List.length p < List.length x)%nat.
Proof. intros x p q -> H. rewrite app_length. destruct q; [easy|cbn; lia]. Qed.

(** Two encodings after each other, cut somewhere. *)
Lemma cut_app : forall (x y p q : bytes), x ++ y = p ++ q -> q <> [] ->
  (exists p', p = x ++ p' /\ y = p' ++ q) \/ (exists q', x = p ++ q' /\ q' <> []).
Proof.
  induction x; intros y p q H Hq.
  - left. exists p. split; [reflexivity|exact H].
  - destruct p as [|b p].
    + right. exists (a :: x). split; [reflexivity|discriminate].
    + cbn in H. injection H as -> H. destruct (IHx y p q H Hq) as [[p' [-> ->]]|[q' [-> Hq']]].
      * left. exists p'. split; reflexivity.
      * right. exists q'. split; [reflexivity|exact Hq'].
Qed.

Lemma lawful_uint : forall k, lawful (cuint k).
Proof.
  intros k z Hz. cbn in Hz. split.
  - intros rest. cbn. rewrite take_app by apply le_length. cbn. rewrite unle_le, Z.mod_small by lia. reflexivity.
  - intros p q H Hq. cbn in *. rewrite take_short; [reflexivity|].
    pose proof (@prefix_short _ _ _ H Hq). now rewrite le_length in H0.
Qed.

Lemma half_pow : forall k, 256 ^ Z.of_nat (S k) = 2 * (256 ^ Z.of_nat (S k) / 2).
Proof.
  intros k. rewrite Nat2Z.inj_succ, Z.pow_succ_r by lia.
  replace (256 * 256 ^ Z.of_nat k) with ((128 * 256 ^ Z.of_nat k) * 2) by ring.
  rewrite Z.div_mul by lia. ring.
Qed.

Lemma lawful_sint : forall k, lawful (csint (S k)).
Proof.
  intros k z Hz. cbn [okc csint] in Hz. pose proof (half_pow k) as Hh. split.
  - intros rest. cbn [enc dec csint]. rewrite take_app by apply le_length. cbn [bind]. rewrite unle_le.
    set (M := 256 ^ Z.of_nat (S k)) in *. set (h := M / 2) in *.
    assert (0 < h) by lia.
    destruct (Z_lt_le_dec z 0) as [Hneg|Hpos].
    + replace (z mod M) with (z + M) by (rewrite <- (Z.mod_add z 1 M) by lia; rewrite Z.mod_small; lia).
      replace (z + M <? h) with false by (symmetry; apply Z.ltb_ge; lia). f_equal. f_equal. lia.
    + rewrite Z.mod_small by lia. replace (z <? h) with true by (symmetry; apply Z.ltb_lt; lia). reflexivity.
  - intros p q H Hq. cbn [enc dec csint] in *. rewrite take_short; [reflexivity|].
    pose proof (@prefix_short _ _ _ H Hq) as H0. now rewrite le_length in H0.
Qed.

Lemma lawful_int : lawful cint. Proof. exact (@lawful_sint 3%nat). Qed.
Lemma lawful_double : lawful cdouble. Proof. exact (@lawful_uint 8%nat). Qed.
Lemma lawful_float : lawful cfloat. Proof. exact (@lawful_uint 4%nat). Qed.
Lemma lawful_size : lawful csize. Proof. exact (@lawful_uint 8%nat). Qed.

Lemma one_byte : forall (b : Z) p q, [b] = p ++ q -> q <> [] -> p = [].
Proof. intros b [|x p] q H Hq; [reflexivity|]. injection H as -> H. destruct p, q; easy. Qed.

Lemma lawful_bool : lawful cbool.
Proof.
  intros [] _; (split; [intros rest; reflexivity|]);
    (intros p q H Hq; cbn in H; rewrite (@one_byte _ _ _ H Hq); reflexivity).
Qed.
Lemma lawful_char : lawful cchar.
Proof.
  intros a _. split.
  - intros rest. cbn. rewrite Z.add_0_r, N2Z.id, ascii_N_embedding. reflexivity.
  - intros p q H Hq. cbn in H. rewrite (@one_byte _ _ _ H Hq). reflexivity.
Qed.

Lemma lawful_pair : forall A B (a : codec A) (b : codec B), lawful a -> lawful b -> lawful (cpair a b).
Proof.
  intros A B a b La Lb [x y] [Hx Hy]. cbn [fst snd] in *. destruct (La x Hx) as [La1 La2]. destruct (Lb y Hy) as [Lb1 Lb2].
  split.
  - intros rest. cbn [enc dec cpair fst snd]. rewrite <- app_assoc, La1. cbn [bind]. rewrite Lb1. reflexivity.
  - intros p q H Hq. cbn [enc dec cpair fst snd] in *.
    destruct (@cut_app _ _ _ _ H Hq) as [[p' [-> H']]|[q' [H' Hq']]].
    + rewrite La1. cbn [bind]. rewrite (Lb2 _ _ H' Hq). reflexivity.
    + rewrite (La2 _ _ H' Hq'). reflexivity.
Qed.

Lemma dec_n_ok : forall A (c : codec A), lawful c -> forall xs rest, Forall (okc c) xs ->
  dec_n c (List.length xs) (enc_all c xs ++ rest) = Ok (xs, rest).
Proof.
  intros A c Lc xs. induction xs as [|x xs IH]; intros rest H; [reflexivity|].
  inversion H; subst. cbn [List.length dec_n enc_all flat_map]. rewrite <- app_assoc.
  rewrite (proj1 (Lc x H2)). cbn [bind]. unfold enc_all in IH. rewrite IH by assumption. reflexivity.
Qed.
Lemma dec_n_cut : forall A (c : codec A), lawful c -> forall xs p q, Forall (okc c) xs ->
  enc_all c xs = p ++ q -> q <> [] -> dec_n c (List.length xs) p = Throw.
Proof.
  intros A c Lc xs. induction xs as [|x xs IH]; intros p q H E Hq.
  - cbn in E. destruct p, q; easy.
  - inversion H; subst. cbn [enc_all flat_map] in E. cbn [List.length dec_n].
    destruct (@cut_app _ _ _ _ E Hq) as [[p' [-> H']]|[q' [H' Hq']]].
    + rewrite (proj1 (Lc x H2)). cbn [bind]. rewrite (IH _ _ H3 H' Hq). reflexivity.
    + rewrite (proj2 (Lc x H2) _ _ H' Hq'). reflexivity.
Qed.

Lemma lawful_arr : forall A n (c : codec A), lawful c -> lawful (carr n c).
Proof.
  intros A n c Lc xs [<- H]. split.
  - intros rest. apply (@dec_n_ok _ _ Lc _ _ H).
  - intros p q E Hq. exact (@dec_n_cut _ _ Lc _ _ _ H E Hq).
Qed.

Lemma lawful_list : forall A (c : codec A), lawful c -> lawful (clist c).
Proof.
  intros A c Lc xs [Hl H]. cbn [enc dec clist].
  assert (Hs : okc csize (Z.of_nat (List.length xs))) by (cbn; lia).
  destruct (lawful_size Hs) as [S1 S2]. split.
  - intros rest. rewrite <- app_assoc.
    change (le 8 (Z.of_nat (List.length xs))) with (enc csize (Z.of_nat (List.length xs))). rewrite S1. cbn [bind].
    rewrite Nat2Z.id. apply (@dec_n_ok _ _ Lc _ _ H).
  - intros p q E Hq. change (le 8 (Z.of_nat (List.length xs))) with (enc csize (Z.of_nat (List.length xs))) in E.
    destruct (@cut_app _ _ _ _ E Hq) as [[p' [-> H']]|[q' [H' Hq']]].
    + rewrite S1. cbn [bind]. rewrite Nat2Z.id. exact (@dec_n_cut _ _ Lc _ _ _ H H' Hq).
    + rewrite (S2 _ _ H' Hq'). reflexivity.
Qed.

Lemma lawful_map : forall A B (f : A -> B) (g : B -> A) (c : codec A), (forall b, f (g b) = b) ->
  lawful c -> lawful (cmap f g c).
Proof.
  intros A B f g c Hfg Lc b Hb. destruct (Lc _ Hb) as [L1 L2]. split.
  - intros rest. cbn [enc dec cmap]. rewrite L1. cbn [bind]. now rewrite Hfg.
  - intros p q E Hq. cbn [enc dec cmap] in *. rewrite (L2 _ _ E Hq). reflexivity.
Qed.

Lemma lawful_string : lawful cstring.
Proof. apply lawful_map; [apply string_of_list_ascii_of_string|]. apply lawful_list, lawful_char. Qed.
Lemma lawful_complex : lawful ccomplex.
Proof. apply lawful_pair; apply lawful_double. Qed.

(** finalize does nothing to the outer indices of a matrix that was saved. *)
Lemma fill_zero : forall xs, Forall (fun x => x = 0) xs -> fill 0 xs = xs.
Proof.
  induction xs; intros H; [reflexivity|]. inversion H; subst. cbn. now rewrite IHxs.
Qed.

Lemma finalize_id : forall nnz p, 0 <= nnz -> Forall (fun x => 0 <= x <= nnz) p -> finalize nnz (p ++ [nnz]) = p ++ [nnz].
Proof.
  intros nnz p H0 Hp. unfold finalize. rewrite rev_app_distr. cbn [rev app].
  cbn [fill]. destruct (nnz =? 0) eqn:E.
  - apply Z.eqb_eq in E. subst. cbn [rev]. rewrite fill_zero.
    + rewrite rev_involutive. reflexivity.
    + apply Forall_rev. eapply Forall_impl; [|exact Hp]. cbn. intros. lia.
  - cbn [rev]. now rewrite rev_involutive.
Qed.

(** One field after another: reading, and a cut before, inside or after the field. *)
Lemma step_read : forall A B (c : codec A) a (k : A * bytes -> res B) rest, lawful c -> okc c a ->
  bind (dec c (enc c a ++ rest)) k = k (a, rest).
Proof. intros. rewrite (proj1 (H a H0)). reflexivity. Qed.

Lemma step_cut : forall A B (c : codec A) a (k : A * bytes -> res B) y p q, lawful c -> okc c a ->
  enc c a ++ y = p ++ q -> q <> [] ->
  (forall p', y = p' ++ q -> k (a, p') = Throw) -> bind (dec c p) k = Throw.
Proof.
  intros A B c a k y p q Lc Ha E Hq Hk. destruct (@cut_app _ _ _ _ E Hq) as [[p' [-> H']]|[q' [H' Hq']]].
  - rewrite (proj1 (Lc a Ha)). exact (Hk p' H').
  - rewrite (proj2 (Lc a Ha) _ _ H' Hq'). reflexivity.
Qed.

Lemma step_read_n : forall A B (c : codec A) xs n (k : list A * bytes -> res B) rest, lawful c -> Forall (okc c) xs ->
  List.length xs = n -> bind (dec_n c n (enc_all c xs ++ rest)) k = k (xs, rest).
Proof. intros A B c xs n k rest Lc H <-. rewrite (@dec_n_ok _ _ Lc _ _ H). reflexivity. Qed.

Lemma step_cut_n : forall A B (c : codec A) xs n (k : list A * bytes -> res B) y p q, lawful c -> Forall (okc c) xs ->
  List.length xs = n -> enc_all c xs ++ y = p ++ q -> q <> [] ->
  (forall p', y = p' ++ q -> k (xs, p') = Throw) -> bind (dec_n c n p) k = Throw.
Proof.
  intros A B c xs n k y p q Lc Ha <- E Hq Hk. destruct (@cut_app _ _ _ _ E Hq) as [[p' [-> H']]|[q' [H' Hq']]].
  - rewrite (@dec_n_ok _ _ Lc _ _ Ha). exact (Hk p' H').
  - rewrite (dec_n_cut Lc _ Ha H' Hq'). reflexivity.
Qed.

Lemma lawful_sparse : forall S (c : codec S), lawful c -> lawful (csparse c).
Proof.
  intros S c Lc [i o ix p v] H. cbn [okc csparse inner outer idx ptr val] in H.
  destruct H as (Hi & Ho0 & Ho & Hn & Hix & Hp & Fix & Fp & Fv & (p0 & -> & Fp0)).
  set (nnz := Z.of_nat (List.length v)) in *.
  assert (Hn0 : 0 <= nnz) by (unfold nnz; lia).
  assert (Hsn : okc csize nnz) by (cbn in Hn |- *; lia).
  assert (Hso : okc csize (o + 1)) by (cbn in Ho |- *; lia).
  assert (E1 : o <? -1 = false) by (apply Z.ltb_ge; lia).
  assert (E2 : nnz <? 0 = false) by (apply Z.ltb_ge; lia).
  assert (Lix : List.length ix = Z.to_nat nnz) by (unfold nnz; lia).
  assert (Lp : List.length (p0 ++ [nnz]) = Z.to_nat (o + 1)) by lia.
  assert (Lv : List.length v = Z.to_nat nnz) by (unfold nnz; lia).
  pose proof (finalize_id Hn0 Fp0) as Hfin.
  split.
  - intros rest. cbn [enc dec csparse inner outer idx ptr val]. fold nnz.
    change (le 4 i) with (enc cint i). change (le 4 o) with (enc cint o). change (le 4 nnz) with (enc cint nnz).
    change (le 8 nnz) with (enc csize nnz). change (le 8 (o + 1)) with (enc csize (o + 1)).
    rewrite <- !app_assoc.
    rewrite step_read by (exact lawful_int || exact Hi).
    rewrite step_read by (exact lawful_int || exact Ho).
    rewrite step_read by (exact lawful_int || exact Hn).
    rewrite E1. rewrite step_read by (exact lawful_size || exact Hsn). rewrite E2.
    rewrite step_read_n by (exact lawful_int || assumption).
    rewrite step_read by (exact lawful_size || exact Hso).
    rewrite step_read_n by (exact lawful_int || assumption).
    rewrite step_read by (exact lawful_size || exact Hsn).
    rewrite step_read_n by assumption. rewrite Hfin. reflexivity.
  - intros pp q E Hq. cbn [enc dec csparse inner outer idx ptr val] in *. fold nnz in E.
    change (le 4 i) with (enc cint i) in E. change (le 4 o) with (enc cint o) in E. change (le 4 nnz) with (enc cint nnz) in E.
    change (le 8 nnz) with (enc csize nnz) in E. change (le 8 (o + 1)) with (enc csize (o + 1)) in E.
    refine (@step_cut _ _ _ _ _ _ _ _ lawful_int Hi E Hq _). clear E pp. intros pp E.
    refine (@step_cut _ _ _ _ _ _ _ _ lawful_int Ho E Hq _). clear E pp. intros pp E.
    refine (@step_cut _ _ _ _ _ _ _ _ lawful_int Hn E Hq _). clear E pp. intros pp E. rewrite E1.
    refine (@step_cut _ _ _ _ _ _ _ _ lawful_size Hsn E Hq _). clear E pp. intros pp E. rewrite E2.
    refine (@step_cut_n _ _ _ _ _ _ _ _ _ lawful_int Fix Lix E Hq _). clear E pp. intros pp E.
    refine (@step_cut _ _ _ _ _ _ _ _ lawful_size Hso E Hq _). clear E pp. intros pp E.
    refine (@step_cut_n _ _ _ _ _ _ _ _ _ lawful_int Fp Lp E Hq _). clear E pp. intros pp E.
    refine (@step_cut _ _ _ _ _ _ _ _ lawful_size Hsn E Hq _). clear E pp. intros pp E.
    rewrite <- Lv. rewrite (@dec_n_cut _ _ Lc _ _ _ Fv E Hq). reflexivity.
Qed.
