(** The selections used by the Schrieffer-Wolff transformation. *)
From Verif Require Import Base Matrix LookupModel LookupProofs SystemModel SystemProofs AddProofs SchriefferModel SchriefferProofs.
From Coq Require Import ZArith Lia Bool Arith List Setoid Morphisms Ring.
Import ListNotations.
Set Implicit Arguments.

Section Sel.
Context {K : StarRing}.
Add Ring Kr7 : (s_ring K).

Lemma sel_iso : forall n idx, NoDup idx -> (forall i, In i idx -> i < n) -> isometry (msel (K := K) n idx).
Proof.
  intros n idx N L. split; [reflexivity|]. split; [reflexivity|]. intros a b Ha Hb. cbn [mmul madj msel nr nc at_ mid] in *.
  rewrite Nat.min_id. set (x := nth a idx n). set (y := nth b idx n).
  assert (Hx : x < n) by (apply L, nth_In; auto).
  transitivity (bsum (K := K) n (fun i => smul (delta (K := K) x i) (delta i y))).
  { apply bsum_ext. intros i Hi. rewrite delta_conj, (delta_sym i x). reflexivity. }
  rewrite (bsum_delta_l (fun i => delta i y)) by auto. unfold delta. destruct (Nat.eqb_spec a b) as [->|D].
  - unfold x, y. rewrite Nat.eqb_refl. reflexivity.
  - destruct (Nat.eqb_spec x y) as [E|]; auto. exfalso. apply D. apply (NoDup_nth idx n) in E; auto.
Qed.
End Sel.

Section Emb.
Context {K : StarRing} {State : Type}.
Add Ring Kr8 : (s_ring K).
Variable seqb : State -> State -> bool.
Hypothesis seq_refl : forall x, seqb x x = true.
Hypothesis seq_sym : forall x y, seqb x y = seqb y x.
Hypothesis seq_trans : forall x y z, seqb x y = true -> seqb y z = true -> seqb x z = true.
Variables tbl tbl0 : list (nat * State).
Hypothesis (T : table_ok seqb tbl) (T0 : table_ok seqb tbl0).

Definition pos (x : State) : nat := match tfind seqb tbl x with Some i => i | None => 0 end.
Definition have : Prop := forall x, In x (map snd tbl0) -> exists i, tfind seqb tbl x = Some i.

Lemma fold_throw : forall l, fold_left (fun acc e => do! t <- acc ;
    match tfind seqb tbl (snd e) with Some i => Ok (t ++ [(i, fst e, s1 : K)]) | None => Throw end) l Throw = @Throw (list (nat * nat * K)).
Proof. induction l; auto. Qed.
Lemma fold_embed : forall (l : list (nat * State)) (acc : list (nat * nat * K)),
  (exists r, fold_left (fun acc e => do! t <- acc ;
    match tfind seqb tbl (snd e) with Some i => Ok (t ++ [(i, fst e, s1)]) | None => Throw end) l (Ok acc) = Ok r /\
    r = acc ++ map (fun e => (pos (snd e), fst e, s1)) l /\ forall x, In x (map snd l) -> exists i, tfind seqb tbl x = Some i) \/
  (fold_left (fun acc e => do! t <- acc ;
    match tfind seqb tbl (snd e) with Some i => Ok (t ++ [(i, fst e, s1)]) | None => Throw end) l (Ok acc) = Throw /\
   exists x, In x (map snd l) /\ tfind seqb tbl x = None).
Proof.
  induction l as [|e l IH]; intros acc.
  - left. exists acc. cbn. rewrite app_nil_r. intuition.
  - cbn [fold_left bind]. destruct (tfind seqb tbl (snd e)) as [i|] eqn:F.
    + destruct (IH (acc ++ [(i, fst e, s1)])) as [(r & E & Er & Hl)|(E & x & Hx & N)].
      * left. exists r. split; [exact E|]. split.
        { rewrite Er, <- app_assoc. cbn [map app]. unfold pos at 2. rewrite F. reflexivity. }
        { intros x [<-|Hx]; eauto. }
      * right. split; [exact E|]. exists x. split; [right|]; auto.
    + right. split; [apply fold_throw|]. exists (snd e). split; [left; auto|auto].
Qed.
Lemma tsum_seq : forall (xs : list State) k i j,
  tsum (map (fun e => (pos (snd e), fst e, s1 : K)) (combine (seq k (length xs)) xs)) i j =
  match nth_error xs (j - k) with Some x => if k <=? j then delta i (pos x) else s0 | None => s0 end.
Proof.
  induction xs as [|x xs IH]; intros k i j; cbn [length seq combine map tsum].
  - destruct (j - k); reflexivity.
  - rewrite IH. cbn [fst snd]. destruct (Nat.leb_spec k j) as [H|H].
    + destruct (Nat.eqb_spec k j) as [->|N].
      * rewrite Nat.sub_diag. cbn [nth_error]. rewrite andb_true_r. replace (S j <=? j) with false by (symmetry; apply Nat.leb_gt; lia).
        rewrite (delta_sym i). unfold delta. destruct (nth_error xs (j - S j)); ring.
      * rewrite andb_false_r. replace (j - k) with (S (j - S k)) by lia. cbn [nth_error]. replace (S k <=? j) with true by (symmetry; apply Nat.leb_le; lia).
        destruct (nth_error xs (j - S k)); ring.
    + replace (k =? j) with false by (symmetry; apply Nat.eqb_neq; lia). rewrite andb_false_r.
      replace (S k <=? j) with false by (symmetry; apply Nat.leb_gt; lia). replace (j - k) with 0 by lia. replace (j - S k) with 0 by lia. cbn [nth_error].
      destruct xs; cbn [nth_error]; ring.
Qed.
Lemma aligned_combine : tbl0 = combine (seq 0 (length (map snd tbl0))) (map snd tbl0).
Proof.
  destruct T0 as [A _]. unfold aligned in A. rewrite map_length, <- A. clear. induction tbl0 as [|[a b] t IH]; cbn; congruence.
Qed.

Lemma embed_ok : have -> exists E, embed (K := K) seqb tbl tbl0 = Ok E /\ meq E (msel (length tbl) (map pos (map snd tbl0))).
Proof.
  intro H. unfold embed. destruct (fold_embed tbl0 []) as [(r & -> & -> & _)|(_ & x & Hx & N)].
  - eexists. split; [reflexivity|]. split; [reflexivity|]. split; [cbn; rewrite !map_length; auto|].
    intros i j Hi Hj. cbn [mtrip nc nr] in *. cbn [mtrip at_ msel app]. rewrite aligned_combine at 1. rewrite tsum_seq, Nat.sub_0_r. cbn [Nat.leb].
    destruct (nth_error (map snd tbl0) j) as [x|] eqn:E.
    + f_equal. symmetry. apply nth_error_nth. rewrite (nth_error_map _ _ (map snd tbl0)), E. reflexivity.
    + apply nth_error_None in E. rewrite map_length in E. lia.
  - destruct (H x Hx). congruence.
Qed.
Lemma embed_throw : ~ have -> embed (K := K) seqb tbl tbl0 = Throw.
Proof.
  intro H. unfold embed. destruct (fold_embed tbl0 []) as [(r & _ & _ & Q)|(-> & _)]; [contradiction|reflexivity].
Qed.

Lemma pos_lt : have -> forall i, In i (map pos (map snd tbl0)) -> i < length tbl.
Proof.
  intros H i Hi. apply in_map_iff in Hi. destruct Hi as (x & <- & Hx). destruct (H x Hx) as [i F]. unfold pos. rewrite F.
  apply tfind_some in F. destruct F as (y & Hy & _). apply (@aligned_nth State tbl i y (proj1 T) Hy).
Qed.
Lemma pos_same : forall x y i, tfind seqb tbl x = Some i -> tfind seqb tbl y = Some i -> seqb x y = true.
Proof.
  intros x y i Fx Fy. apply tfind_some in Fx, Fy. destruct Fx as (a & Ha & Ea), Fy as (b & Hb & Eb).
  destruct (@aligned_nth State tbl i a (proj1 T) Ha) as [Pa _]. destruct (@aligned_nth State tbl i b (proj1 T) Hb) as [Pb _].
  rewrite Pa in Pb. injection Pb as <-. rewrite seq_sym in Ea. eapply seq_trans; eauto.
Qed.
Lemma pos_nodup : have -> NoDup (map pos (map snd tbl0)).
Proof.
  intro H. unfold have in H. destruct T0 as [_ D]. induction D as [|x l Hx D IH]; cbn [map]; constructor.
  - intro I. apply in_map_iff in I. destruct I as (y & E & Hy). rewrite Forall_forall in Hx. specialize (Hx y Hy).
    destruct (H x) as [i F]; [left; auto|]. destruct (H y) as [j G]; [right; auto|]. unfold pos in E. rewrite F, G in E. subst j.
    rewrite (pos_same _ _ F G) in Hx. discriminate.
  - apply IH. intros z Hz. apply H. right; auto.
Qed.

(** The amplitudes of the embedded vectors. *)
Lemma embed_at : forall (M : mat K) i y c, have -> nr M = length tbl0 -> nth_error (map snd tbl) i = Some y ->
  at_ (mmul (msel (length tbl) (map pos (map snd tbl0))) M) i c = row_of seqb tbl0 M y c.
Proof.
  intros M i y c H rM Hy. cbn [mmul msel at_ nc]. rewrite !map_length, rM, Nat.min_id.
  pose proof (@tfind_aligned State seqb seq_refl seq_sym tbl i y T Hy) as Fy.
  assert (Q : forall k x, nth_error (map snd tbl0) k = Some x -> nth k (map pos (map snd tbl0)) (length tbl) = pos x).
  { intros k x E. apply nth_error_nth. rewrite (nth_error_map _ _ (map snd tbl0)), E. reflexivity. }
  unfold row_of. destruct (tfind seqb tbl0 y) as [k|] eqn:F.
  - apply tfind_some in F. destruct F as (x & Hx & E). destruct (@aligned_nth State tbl0 k x (proj1 T0) Hx) as [Pk Hk].
    assert (Nk : nth_error (map snd tbl0) k = Some x) by (rewrite nth_error_map, Pk; auto).
    rewrite <- (bsum_delta_l (fun k => at_ M k c) Hk). apply bsum_ext. intros k' Hk'. f_equal.
    assert (Pi : pos x = i). { unfold pos. rewrite (@tfind_cong State seqb seq_refl seq_sym seq_trans tbl _ _ E), Fy. reflexivity. }
    destruct (Nat.eq_dec k k') as [<-|N].
    + rewrite (Q _ _ Nk), Pi, !delta_same. reflexivity.
    + rewrite (delta_diff N). apply delta_diff. rewrite <- Pi, <- (Q _ _ Nk). intro X. apply N.
      apply (proj1 (NoDup_nth _ (length tbl)) (pos_nodup H)); auto; rewrite !map_length; auto.
  - apply bsum_zero. intros k Hk. destruct (nth_error (map snd tbl0) k) as [x|] eqn:E.
    2:{ apply nth_error_None in E. rewrite map_length in E. lia. }
    rewrite (Q _ _ E). destruct (H x) as [p P]; [eapply nth_error_In; eauto|]. unfold pos. rewrite P. rewrite delta_diff; [ring|].
    intros <-. pose proof (pos_same _ _ P Fy) as X. rewrite (nth_error_map snd k tbl0) in E. destruct (nth_error tbl0 k) as [[a b]|] eqn:E2; [|discriminate].
    cbn in E. injection E as ->. pose proof (tfind_none _ _ _ F _ _ (nth_error_In _ _ E2)) as Y. congruence.
Qed.
End Emb.
