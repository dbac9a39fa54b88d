(** Proofs for PropNecessary.v. *)
From Coq Require Import ZArith Lia Bool List.
Import ListNotations.
From Verif Require Import Base Matrix BasisnamesModel CombineModel CombineSpec NecessaryModel NecessarySpec BasisProofs PropNames CombineProofs CombineProofs2 CombineProofs3 CombineProofs4.
Set Implicit Arguments.

Lemma at_vec_ok : forall A (l : list A) i x, at_vec l i = Ok x <-> nth_error l i = Some x.
Proof. intros. unfold at_vec. destruct (nth_error l i); split; intros H; try discriminate; injection H as <-; reflexivity. Qed.
Lemma set_vec_some : forall A (l : list A) i x l', set_vec l i x = Ok l' -> length l' = length l /\ (i < length l)%nat /\ forall k d, nth k l' d = if Nat.eqb k i then x else nth k l d.
Proof.
  induction l as [|y l IH]; intros [|i] x l' H; cbn in H; try discriminate.
  - injection H as <-. split; [reflexivity|]. split; [cbn; lia|]. intros [|k] d; reflexivity.
  - destruct (set_vec l i x) as [r| |] eqn:E; try discriminate. injection H as <-. destruct (IH _ _ _ E) as (L & B & N). cbn. split; [lia|]. split; [lia|].
    intros [|k] d; [reflexivity|]. apply N.
Qed.
Lemma set_vec_lt : forall A (l : list A) i x, (i < length l)%nat -> exists l', set_vec l i x = Ok l'.
Proof. intros A l i x H. destruct (set_vec_ok l x H) as (l' & E & _). eauto. Qed.

Lemma write_all_ok : forall ws m, (forall w, In w ws -> w < length m)%nat ->
  exists m', write_all m ws = Ok m' /\ length m' = length m /\ forall r, nth r m' false = true <-> nth r m false = true \/ In r ws.
Proof.
  induction ws as [|w ws IH]; intros m B.
  - exists m. split; [reflexivity|]. split; auto. intros r. cbn. tauto.
  - cbn [write_all]. destruct (@set_vec_lt _ m w true) as (m1 & E); [apply B; left; auto|]. rewrite E. cbn [bind].
    destruct (set_vec_some _ _ _ E) as (L & _ & N). destruct (IH m1) as (m' & E' & L' & N'); [intros x Hx; rewrite L; apply B; right; auto|].
    exists m'. split; [exact E'|]. split; [lia|]. intros r. rewrite N', N. cbn [In]. destruct (Nat.eqb_spec r w) as [->|Ne]; [tauto|]. intuition congruence.
Qed.

Section K.
Variable K : StarRing.
Variable keep : K -> bool.

Lemma cutoff_loop_ok : forall (lhs rhs : hmat K) ps, length (ediag lhs) = dim lhs -> length (ediag rhs) = dim rhs ->
  (forall c1 c2, In (c1, c2) ps -> c1 < dim lhs /\ c2 < dim rhs)%nat ->
  exists ws, cutoff_loop keep lhs rhs ps = Ok ws /\ forall r, In r ws <-> exists c1 c2 e1 e2, In (c1, c2) ps /\ keep (sadd (energy lhs c1) (energy rhs c2)) = true /\
    In e1 (nth c1 (bcols lhs) []) /\ In e2 (nth c2 (bcols rhs) []) /\ r = (coords rhs * fst e1 + fst e2)%nat.
Proof.
  intros lhs rhs ps L1 L2. induction ps as [|[c1 c2] ps IH]; intros B.
  - exists []. split; [reflexivity|]. intros r. cbn. split; [tauto|]. intros (c1 & c2 & e1 & e2 & [] & _).
  - destruct IH as (ws & E & I); [intros; apply B; right; auto|]. destruct (B c1 c2) as [B1 B2]; [left; auto|]. cbn [cutoff_loop]. unfold dim in *.
    assert (X1 : at_vec (ediag lhs) c1 = Ok (energy lhs c1)) by (apply at_vec_ok; unfold energy; apply nth_error_nth'; lia).
    assert (X2 : at_vec (ediag rhs) c2 = Ok (energy rhs c2)) by (apply at_vec_ok; unfold energy; apply nth_error_nth'; lia).
    assert (Y1 : at_vec (bcols lhs) c1 = Ok (nth c1 (bcols lhs) [])) by (apply at_vec_ok; apply nth_error_nth'; lia).
    assert (Y2 : at_vec (bcols rhs) c2 = Ok (nth c2 (bcols rhs) [])) by (apply at_vec_ok; apply nth_error_nth'; lia).
    rewrite X1, X2. cbn [bind]. destruct (keep (sadd (energy lhs c1) (energy rhs c2))) eqn:Kp.
    + rewrite Y1, Y2, E. cbn [bind]. eexists. split; [reflexivity|]. intros r. rewrite in_app_iff, in_flat_map. split.
      * intros [(e1 & H1 & H)|H].
        -- apply in_map_iff in H. destruct H as (e2 & <- & H2). exists c1, c2, e1, e2. split; [left; reflexivity|]. auto.
        -- apply I in H. destruct H as (a & b & e1 & e2 & Ha & H). exists a, b, e1, e2. split; [right; exact Ha|exact H].
      * intros (a & b & e1 & e2 & [Eq|Ha] & Ka & H1 & H2 & ->).
        -- injection Eq as <- <-. left. exists e1. split; auto. apply in_map_iff. exists e2. auto.
        -- right. apply I. exists a, b, e1, e2. auto.
    + exists ws. split; [exact E|]. intros r. rewrite I. split.
      * intros (a & b & e1 & e2 & Ha & H). exists a, b, e1, e2. split; [right; exact Ha|exact H].
      * intros (a & b & e1 & e2 & [Eq|Ha] & H); [|exists a, b, e1, e2; auto]. injection Eq as <- <-. destruct H as [H _]. congruence.
Qed.
Lemma cutoff_writes_ok : forall (lhs rhs : hmat K), length (ediag lhs) = dim lhs -> length (ediag rhs) = dim rhs ->
  exists ws, cutoff_writes keep lhs rhs = Ok ws /\ forall r, In r ws <-> touched keep lhs rhs r.
Proof.
  intros lhs rhs L1 L2. destruct (@cutoff_loop_ok lhs rhs (all_pairs (length (bcols lhs)) (length (bcols rhs)))) as (ws & E & I); auto.
  { intros c1 c2 H. apply in_all_pairs in H. exact H. }
  exists ws. split; [exact E|]. intros r. rewrite I. unfold touched. split.
  - intros (c1 & c2 & e1 & e2 & H & R). apply in_all_pairs in H. exists c1, c2, e1, e2. unfold dim. tauto.
  - intros (c1 & c2 & e1 & e2 & B1 & B2 & R). exists c1, c2, e1, e2. rewrite in_all_pairs. unfold dim in *. tauto.
Qed.
Lemma touched_lt : forall (lhs rhs : hmat K) b1 b2 r, over lhs b1 -> over rhs b2 -> touched keep lhs rhs r -> (r < coords lhs * coords rhs)%nat.
Proof.
  intros lhs rhs b1 b2 r (_ & _ & O1) (_ & _ & O2) (c1 & c2 & e1 & e2 & B1 & B2 & _ & I1 & I2 & ->).
  destruct (O1 _ (nth_In (bcols lhs) [] B1)) as [_ A1]. destruct (O2 _ (nth_In (bcols rhs) [] B2)) as [_ A2]. specialize (A1 _ I1). specialize (A2 _ I2). nia.
Qed.
Lemma all_steps_ok : forall steps b1 b2 m, (forall l r, In (l, r) steps -> over l b1 /\ over r b2) -> length m = (length (names1 b1) * length (names1 b2))%nat ->
  exists m', all_steps keep steps m = Ok m' /\ length m' = length m /\
    forall r, nth r m' false = true <-> nth r m false = true \/ exists lhs rhs, In (lhs, rhs) steps /\ touched keep lhs rhs r.
Proof.
  induction steps as [|[l r] steps IH]; intros b1 b2 m O L.
  - exists m. split; [reflexivity|]. split; auto. intros r. split; [tauto|]. intros [H|(? & ? & [] & _)]; auto.
  - destruct (O l r) as [O1 O2]; [left; auto|]. cbn [all_steps]. unfold energycutoff.
    destruct (@cutoff_writes_ok l r) as (ws & E & I); [apply O1|apply O2|]. rewrite E. cbn [bind].
    destruct (@write_all_ok ws m) as (m1 & E1 & L1 & N1).
    { intros w Hw. apply I in Hw. apply (touched_lt O1 O2) in Hw. destruct O1 as [A1 _], O2 as [A2 _]. rewrite A1, A2 in Hw. rewrite L. exact Hw. }
    rewrite E1. cbn [bind]. destruct (IH b1 b2 m1) as (m' & E' & L' & N'); [intros; apply O; right; auto|lia|].
    exists m'. split; [exact E'|]. split; [lia|]. intros x. rewrite N', N1, I. split.
    + intros [[H|H]|(a & b & H & T)]; auto; right; [exists l, r|exists a, b]; split; auto; [left|right]; auto.
    + intros [H|(a & b & [Eq|H] & T)]; auto; [injection Eq as <- <-|]; auto. right. exists a, b. auto.
Qed.

Lemma necessary_loop_ok : forall sametrafo initpar syms tmp names m,
  (forall t, In t names -> (0 <= idx2 t)%Z /\ Z.to_nat (idx2 t) < length tmp /\ Z.to_nat (idx2 t) < length m)%nat -> NoDup (map idx2 names) ->
  exists m', necessary_loop sametrafo initpar syms tmp names m = Ok m' /\ length m' = length m /\
  forall r, nth r m' false = true <-> (exists t, In t names /\ Z.to_nat (idx2 t) = r /\ existsb (fun s => accepted sametrafo initpar s t) syms = true /\ nth r tmp false = true) \/
     (nth r m false = true /\ forall t, In t names -> Z.to_nat (idx2 t) = r -> existsb (fun s => accepted sametrafo initpar s t) syms = false).
Proof.
  intros sametrafo initpar syms tmp names. induction names as [|t names IH]; intros m B ND.
  - exists m. split; [reflexivity|]. split; auto. intros r. split; [|intros [(t & [] & _)|[H _]]; auto]. intros H. right. split; auto. intros t [].
  - cbn [necessary_loop]. destruct (B t) as (P & Bt & Bm); [left; auto|]. inversion ND as [|? ? Nt ND']; subst.
    assert (U : forall t', In t' names -> Z.to_nat (idx2 t') <> Z.to_nat (idx2 t)).
    { intros t' Ht' Eq. apply Nt. apply in_map_iff. exists t'. split; auto. destruct (B t') as (P' & _); [right; auto|]. lia. }
    destruct (existsb (fun s => accepted sametrafo initpar s t) syms) eqn:A.
    + replace (idx2 t <? 0)%Z with false by (symmetry; apply Z.ltb_ge; exact P).
      assert (X : at_vec tmp (Z.to_nat (idx2 t)) = Ok (nth (Z.to_nat (idx2 t)) tmp false)) by (apply at_vec_ok; apply nth_error_nth'; auto).
      rewrite X. cbn [bind]. destruct (@set_vec_lt _ m (Z.to_nat (idx2 t)) (nth (Z.to_nat (idx2 t)) tmp false) Bm) as (m1 & E1). rewrite E1. cbn [bind].
      destruct (set_vec_some _ _ _ E1) as (L1 & _ & N1). destruct (IH m1) as (m' & E' & L' & N'); [intros x Hx; rewrite L1; apply B; right; auto|auto|].
      exists m'. split; [exact E'|]. split; [lia|]. intros r. rewrite N', N1. split.
      * intros [(t' & I' & R' & A' & T')|[H F]].
        -- left. exists t'. split; [right; auto|]. auto.
        -- destruct (Nat.eqb_spec r (Z.to_nat (idx2 t))) as [Er|Ne]; [subst r; left; exists t; split; [left; auto|]; auto|].
           right. split; auto. intros t' [<-|I'] R'; [congruence|]. apply F; auto.
      * intros [(t' & [<-|I'] & R' & A' & T')|[H F]].
        -- right. subst r. rewrite Nat.eqb_refl. split; auto. intros t' I' R'. exfalso. apply (U t' I'). auto.
        -- left. exists t'. auto.
        -- right. destruct (Nat.eqb_spec r (Z.to_nat (idx2 t))) as [Er|Ne]; [subst r|].
           ++ exfalso. rewrite (F t (or_introl eq_refl) eq_refl) in A. discriminate.
           ++ split; auto. intros t' I' R'. apply F; [right|]; auto.
    + destruct (IH m) as (m' & E' & L' & N'); [intros x Hx; apply B; right; auto|auto|]. exists m'. split; [exact E'|]. split; auto. intros r. rewrite N'. split.
      * intros [(t' & I' & R')|[H F]]; [left; exists t'; split; [right; auto|]; auto|]. right. split; auto. intros t' [<-|I'] R'; auto.
      * intros [(t' & [<-|I'] & R' & A' & T')|[H F]]; [congruence|left; exists t'; auto|right]. split; auto. intros t' I' R'. apply F; [right|]; auto.
Qed.
End K.

Section Names.
Variables (b1 b2 : names_one) (start : one * one).
Hypothesis SM : small b1 b2.
Let n2 := length (names1 b2).
Let names := names2 (build2 start b1 b2).
Lemma names_idx : forall r t, nth_error names r = Some t -> idx2 t = Z.of_nat r.
Proof.
  intros r t H. assert (B : (r < length names)%nat) by (apply nth_error_Some; congruence). unfold names in B. rewrite names_length in B.
  destruct (@name_at b1 b2 start SM r B) as (s1 & s2 & _ & _ & E). fold names in E. rewrite H in E. apply (f_equal (fun o => match o with Some x => idx2 x | None => 0%Z end)) in E. exact E.
Qed.
Lemma names_nodup : NoDup (map idx2 names).
Proof.
  apply NoDup_nth_error. intros i k Hi E. rewrite !nth_error_map in E. rewrite map_length in Hi.
  destruct (nth_error names i) as [t|] eqn:Ei; [|apply nth_error_None in Ei; lia]. cbn [option_map] in E. destruct (nth_error names k) as [u|] eqn:Ek; cbn [option_map] in E; [|congruence].
  assert (X : idx2 t = idx2 u) by congruence. rewrite (names_idx _ Ei), (names_idx _ Ek) in X. lia.
Qed.
Lemma names_lt : forall t, In t names -> (0 <= idx2 t)%Z /\ (Z.to_nat (idx2 t) < length names)%nat.
Proof.
  intros t H. apply In_nth_error in H. destruct H as [r H]. assert (B : (r < length names)%nat) by (apply nth_error_Some; congruence). rewrite (names_idx _ H). lia.
Qed.
Lemma names_length' : length names = (length (names1 b1) * length (names1 b2))%nat.
Proof. apply names_length. Qed.
Lemma in_names' : forall t, In t names <-> exists r s1 s2, (r < length (names1 b1) * n2)%nat /\ t = Two (Z.of_nat r) s1 s2 /\
  nth_error (names1 b1) (r / n2) = Some s1 /\ nth_error (names1 b2) (r mod n2) = Some s2.
Proof.
  intros t. split; [apply in_names; auto|]. intros (r & s1 & s2 & B & -> & E1 & E2). destruct (@name_at b1 b2 start SM r B) as (t1 & t2 & F1 & F2 & E). fold names in E; fold n2 in F1, F2.
  apply nth_error_In with (n := r). congruence.
Qed.
End Names.

(** threads *)
Section Threads.
Variable W : nat.
Definition legal (all : list nat) (m : memory) (ts : list thread) : Prop :=
  (forall a i, m a i = true -> exists w, In w all /\ a = (w / W)%nat /\ i = (w mod W)%nat) /\
  forall t, In t ts -> (forall w, In w (fst t) -> In w all) /\
     forall v w, snd t = Some v -> (exists ws, fst t = w :: ws) -> forall i, v i = true -> exists x, In x all /\ (w / W)%nat = (x / W)%nat /\ i = (x mod W)%nat.
Lemma in_upd : forall A (l : list A) i x y, In y (upd_nth l i x) -> y = x \/ In y l.
Proof. induction l as [|z l IH]; intros [|i] x y H; cbn in *; auto; destruct H as [H|H]; auto. destruct (IH _ _ _ H); auto. Qed.
Lemma tstep_legal : forall all m ts i t m' t', legal all m ts -> nth_error ts i = Some t -> tstep W m t = (m', t') -> legal all m' (upd_nth ts i t').
Proof.
  intros all m ts i t m' t' [LM LT] Hi St. pose proof (LT t (nth_error_In _ _ Hi)) as [Lw Lv]. destruct t as [[|w ws] [v|]]; cbn in St; injection St as <- <-.
  - split; auto. intros t' H. apply in_upd in H. destruct H as [->|H]; auto.
  - split; auto. intros t' H. apply in_upd in H. destruct H as [->|H]; auto.
  - split.
    + intros a j. unfold setword. destruct (Nat.eqb_spec a (w / W)) as [->|Ne]; [|apply LM]. unfold setbit. destruct (Nat.eqb_spec j (w mod W)) as [->|Nj].
      * intros _. exists w. split; [apply Lw; left; auto|]. auto.
      * intros H. destruct (Lv v w eq_refl (ex_intro _ ws eq_refl) j H) as (x & I & E1 & E2). exists x. auto.
    + intros t' H. apply in_upd in H. destruct H as [->|H]; [|auto]. cbn. split; [intros x Hx; apply Lw; right; auto|]. discriminate.
  - split; auto. intros t' H. apply in_upd in H. destruct H as [->|H]; [|auto]. cbn [fst snd]. split; [exact Lw|]. intros v w' Ev (ws' & Ew) j Hj. injection Ev as <-. injection Ew as <- <-.
    destruct (LM _ _ Hj) as (x & I & E1 & E2). exists x. auto.
Qed.
Lemma schedule_legal : forall all s m ts m' ts', legal all m ts -> schedule W m ts s = (m', ts') -> legal all m' ts'.
Proof.
  induction s as [|i s IH]; intros m ts m' ts' L S; cbn [schedule] in S; [injection S as <- <-; auto|].
  destruct (nth_error ts i) as [t|] eqn:E; [|eauto]. destruct (tstep W m t) as [m1 t1] eqn:St. eapply IH; [eapply tstep_legal; eauto|exact S].
Qed.
Lemma never_extra : forall ws s m' ts' r, W <> 0%nat -> schedule W cleared (start_threads ws) s = (m', ts') -> bit W m' r = true -> exists w, In w ws /\ In r w.
Proof.
  intros ws s m' ts' r HW S H. destruct (@schedule_legal (concat ws) s cleared (start_threads ws) m' ts') as [LM _]; [|exact S|].
  - split; [discriminate|]. intros t Ht. unfold start_threads in Ht. apply in_map_iff in Ht. destruct Ht as (w & <- & Hw). cbn. split; [|discriminate].
    intros x Hx. apply in_concat. eauto.
  - destruct (LM _ _ H) as (w & I & E1 & E2). apply in_concat in I. destruct I as (l & Hl & I). exists l. split; auto.
    replace r with w; [exact I|]. rewrite (Nat.div_mod r W HW), (Nat.div_mod w W HW), E1, E2. reflexivity.
Qed.
(** one thread *)
Lemma one_thread : forall s ws p (m : memory) m' ts', W <> 0%nat -> (forall v w l, p = Some v -> ws = w :: l -> v = m (w / W)%nat) ->
  schedule W m [(ws, p)] s = (m', ts') -> finished ts' = true -> forall r, bit W m' r = true <-> bit W m r = true \/ In r ws.
Proof.
  induction s as [|i s IH]; intros ws p m m' ts' HW P S F r; cbn [schedule] in S.
  - injection S as <- <-. destruct ws; [|discriminate]. cbn. tauto.
  - destruct i as [|i]; cbn [nth_error] in S; [|destruct i; cbn [nth_error] in S; eapply IH; eauto].
    destruct ws as [|w ws]; cbn [tstep upd_nth] in S.
    + refine (IH _ _ _ _ _ HW _ S F r). intros v w l _ X; discriminate X.
    + destruct p as [v|].
      * assert (P' : forall v0 w0 l0, @None (nat -> bool) = Some v0 -> ws = w0 :: l0 -> v0 = setword m (w / W) (setbit v (w mod W)) (w0 / W)) by (intros ? ? ? X; discriminate X). rewrite (IH _ _ _ _ _ HW P' S F). rewrite (P v w ws eq_refl eq_refl). unfold bit, setword, setbit. cbn [In].
        destruct (Nat.eqb_spec (r / W) (w / W)) as [E|Ne].
        -- destruct (Nat.eqb_spec (r mod W) (w mod W)) as [E'|Ne'].
           ++ assert (w = r) by (rewrite (Nat.div_mod r W), (Nat.div_mod w W) by auto; rewrite E, E'; reflexivity). subst. tauto.
           ++ rewrite E. assert (w <> r) by (intros ->; auto). tauto.
        -- assert (w <> r) by (intros ->; auto). tauto.
      * refine (IH _ _ _ _ _ HW _ S F r). intros v' w' l Ev Ew. injection Ew as <- <-. injection Ev as <-. reflexivity.
Qed.
End Threads.
