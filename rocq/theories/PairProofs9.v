(** SystemTwo::initializeBasis with states added by the user: the result. *)
From Coq Require Import ZArith Lia Bool String Arith List.
Import ListNotations.
From Verif Require Import Base StateModel StateProofs Matrix LookupModel LookupProofs SystemModel RangeModel BasisProofs
  SystemProofs OverlapProofs OverlapProofs2 PairModel PairSpec PairProofs PairProofs2 PairProofs3 PairProofs4 UserSpec PairProofs7 PairProofs8.
Set Implicit Arguments.
Local Open Scope nat_scope.
Local Open Scope list_scope.

(** The same request without added states. *)
Definition without {K : StarRing} (rq : @request K state2) : @request K state2 := Request (rq_rg rq) (rq_emin rq) (rq_emax rq) [].

Section Extend.
Context {K : StarRing}.
Add Ring Kr17 : (s_ring K).
Local Open Scope star_scope.
Variable hs : string -> N.
Variable hi : Z -> N.
Variable hf : Z -> N.
Variable rt : K.
Variable energy : state1 -> res K.
Variables sys1 sys2 : @onesys K.
Variables species1 species2 : string.
Variables sinv sref sperm : parity.
Variable srot : option (list Z).
Variable chosen : list (nat * nat).
Variable thr : K.
Variable rq : @request K state2.
Hypothesis R1 : sconj rt = rt.
Hypothesis R2 : rt * rt + rt * rt = 1.
Hypothesis T1 : sltre thr 1 = true.
Hypothesis T2 : sltre thr (rt * rt) = true.
Hypothesis DX : distinct_pairs (rq_add rq).
Notation acc := (@acc2 K).
Notation init r := (initBasis2 hs hi hf rt energy sys1 sys2 species1 species2 sinv sref sperm srot chosen thr r).
Notation cap0 := (capacity sys1 sys2 (without rq)).
Notation xs := (rq_add rq).
Notation step1 n := (loop2 (pair_step hs hi hf rt sys1 sys2 sinv sref sperm srot rq) (pairs sys1 sys2 chosen) (Acc2 [] [] [] (repeat 0 n) 0)).
Notation sel := (sel2 sinv sperm srot).
Notation new := (unew sinv sperm).
Notation uc := (ucol rt sinv sperm).

Lemma cap_eq : capacity sys1 sys2 rq = (cap0 + length xs)%nat.
Proof. unfold capacity, without. cbn [rq_add length]. lia. Qed.

Lemma init_acc : @reached K cap0 [] [] (Acc2 [] [] [] (repeat 0 cap0) 0).
Proof. split; [apply inv_init|]. cbn. repeat split; auto. lia. Qed.

Lemma without_run : forall tbl0 b0 h0, init (without rq) = (tbl0, Ok (b0, h0)) ->
  exists c0, step1 cap0 = (c0, Ok tt) /\ finish thr c0 = (tbl0, Ok (b0, h0)) /\
    step1 (capacity sys1 sys2 rq) = (padc (length xs) c0, Ok tt) /\ exists cols ens, reached cap0 cols ens c0.
Proof.
  intros tbl0 b0 h0 H. unfold initBasis2 in H. change (rq_add (without rq)) with (@nil state2) in H. cbn [loop2] in H.
  change (pair_step hs hi hf rt sys1 sys2 sinv sref sperm srot (without rq)) with (pair_step hs hi hf rt sys1 sys2 sinv sref sperm srot rq) in H.
  destruct (step1 cap0) as [c0 [[]| |]] eqn:E; try discriminate. exists c0. split; auto. split; auto. split.
  - rewrite cap_eq, repeat_app. apply (@loop2_pad K _ _ (length xs)) in E; [exact E|]. intros x c c'. apply pair_pad.
  - eapply pair_reached; [|exact E]. apply init_acc.
Qed.

Section Core.
Variables (c0 : acc) (cols : list (list (state2 * K))) (ens : list K) (tbl0 : list (nat * state2)) (b0 h0 : mat K).
Hypothesis RE : reached cap0 cols ens c0.
Hypothesis F0 : finish thr c0 = (tbl0, Ok (b0, h0)).
Hypothesis S1 : step1 (capacity sys1 sys2 rq) = (padc (length xs) c0, Ok tt).
Hypothesis OKx : forall x, In x xs -> tfind eq2 (p_tbl c0) x = None /\ fits species1 species2 x.
Hypothesis PL : forall x, In x xs -> exists o, uplan energy sinv sperm srot rq x = Ok o.

Notation ss := (map snd (p_tbl c0)).
Definition ysel : list state2 := filter sel xs.
Notation news := (flat_map new ysel).

Lemma ysel_in : forall y, In y ysel -> In y xs /\ sel y = true.
Proof. intros y H. apply filter_In in H. auto. Qed.
Lemma ysel_distinct : distinct2 ysel.
Proof. apply distinct2_filter. exact DX. Qed.

Lemma news_in_xs : forall z, In z news -> exists u, In u xs /\ eq2 u z = true.
Proof.
  intros z H. apply in_flat_map in H. destruct H as (y & Hy & Hz). destruct (ysel_in y Hy) as [Hx S]. apply in_new in Hz. destruct Hz as [->|[X ->]].
  - exists y. split; auto. apply eq2_refl.
  - destruct (PL y Hx) as (o & Ho). assert (Q : exists o, uplan energy sinv sperm srot rq y = Ok o) by eauto. apply uplan_iff in Q. destruct Q as [_ P].
    apply sel_iff in S. destruct S as (A & B & _ & _). destruct (P (sX2 sinv sperm y)) as (u & Hu & Eu).
    + apply exch_iff. auto.
    + exact A.
    + intros Q1 Q2 Q3. apply B; auto. assert (Q4 : exchange_sign sinv sperm y (sX2 sinv sperm y)) by (apply exch_iff; auto). apply Q4.
    + exists u. split; auto. rewrite eq2_sym. auto.
Qed.
Lemma ss_news : forall x z, In x ss -> In z news -> eq2 x z = false.
Proof.
  intros x z Hx Hz. destruct (news_in_xs z Hz) as (u & Hu & Eu). destruct (OKx u Hu) as [T _]. pose proof (@tfind_not (p_tbl c0) u x T Hx) as Q.
  destruct (eq2 x z) eqn:E; auto. rewrite eq2_sym in Eu. rewrite (@eq2_trans _ _ _ E Eu) in Q. discriminate.
Qed.
Lemma all_distinct : distinct2 (ss ++ news).
Proof.
  apply distinct2_app.
  - apply (i_dis (proj1 RE)).
  - apply news_distinct with (srot := srot); [apply ysel_distinct|]. intros y Hy. apply (ysel_in y Hy).
  - apply ss_news.
Qed.
Lemma all_length : length (ss ++ news) <= cap0 + length xs.
Proof.
  rewrite app_length, map_length. pose proof RE as (_ & _ & _ & _ & L). assert (length news <= length xs); [|lia].
  apply distinct2_le; [apply (distinct2_app_inv _ _ all_distinct)|]. apply news_in_xs.
Qed.

Lemma val_thr : forall y, sltre thr (sqv (val2 rt sinv sperm y)) = true.
Proof. intros y. unfold val2, sqv. destruct (exch2 sinv sperm y); [rewrite R1; auto|]. rewrite sconj_1. replace (1 * 1 : K) with (1 : K) by ring. auto. Qed.

Lemma cols_apart : forall es e z, In es cols -> In e es -> In z news -> eq2 (fst e) z = false.
Proof.
  intros es e z H1 H2 Hz. destruct (reached_cover _ _ RE H1 H2) as (x & Hx & Ex). destruct (eq2 (fst e) z) eqn:Q; auto.
  rewrite <- (ss_news _ _ Hx Hz). symmetry. eapply eq2_trans; eauto.
Qed.
Lemma uc_apart : forall y x e, In y ysel -> In x ss -> In e (uc y) -> eq2 (fst e) x = false.
Proof.
  intros y x e Hy Hx He. rewrite eq2_sym. apply ss_news; auto. apply in_flat_map. exists y. split; auto. rewrite <- ucol_states with (rt := rt). apply in_map; auto.
Qed.

Lemma weight_old : forall x, In x ss -> weight (concat (cols ++ map uc ysel)) x = weight (concat cols) x.
Proof.
  intros x Hx. rewrite concat_app, weight_app. rewrite (@weight_none K (concat (map uc ysel))); [ring|]. intros e He. apply in_concat in He.
  destruct He as (es & Hes & He). apply in_map_iff in Hes. destruct Hes as (y & <- & Hy). eapply uc_apart; eauto.
Qed.
Lemma weight_new : forall z, In z news -> sltre thr (weight (concat (cols ++ map uc ysel)) z) = true.
Proof.
  intros z Hz. rewrite concat_app, weight_app. rewrite (@weight_none K (concat cols)).
  - destruct (@weight_news K rt sinv sperm srot ysel z) as (y & _ & _ & ->); auto; [apply ysel_distinct|intros; apply ysel_in; auto|].
    replace (0 + sqv (val2 rt sinv sperm y)) with (sqv (val2 rt sinv sperm y)) by ring. apply val_thr.
  - intros e He. apply in_concat in He. destruct He as (es & Hes & He). eapply cols_apart; eauto.
Qed.
Lemma norm_old : forall es, In es cols -> norm2 (ss ++ news) es = norm2 ss es.
Proof.
  intros es Hes. unfold norm2. rewrite lsum_app. rewrite (@lsum_zero K _ _ news); [ring|]. intros z Hz. rewrite coef_none; [unfold sqv; rewrite sconj_0; ring|].
  intros e He. eapply cols_apart; eauto.
Qed.

Lemma kept_eq : filter (fun x => sltre thr (weight (concat (cols ++ map uc ysel)) x)) (ss ++ news) =
  filter (fun x => sltre thr (weight (concat cols) x)) ss ++ news.
Proof.
  rewrite filter_app. f_equal.
  - apply filter_ext_in. intros x Hx. rewrite weight_old; auto.
  - assert (G : forall l, (forall z, In z l -> In z news) -> filter (fun x => sltre thr (weight (concat (cols ++ map uc ysel)) x)) l = l).
    { induction l as [|z l0 IH]; intros H; auto. cbn. rewrite weight_new by (apply H; cbn; auto). f_equal. apply IH. intros; apply H; cbn; auto. }
    apply G. auto.
Qed.
Lemma long_eq : long thr (ss ++ news) (cols ++ map uc ysel) = long thr ss cols ++ map (fun k => (length cols + k)%nat) (seq 0 (length ysel)).
Proof.
  unfold long. rewrite app_length, map_length, seq_app, filter_app. f_equal.
  - apply filter_ext_in. intros k Hk. apply in_seq in Hk. rewrite app_nth1 by lia. rewrite norm_old; auto. apply nth_In. lia.
  - cbn [plus]. assert (E : seq (length cols) (length ysel) = map (fun k => (length cols + k)%nat) (seq 0 (length ysel))).
    { clear. generalize (length ysel). generalize (length cols). intros a m. revert a. assert (G : forall m a b, seq (a + b) m = map (fun k => (a + k)%nat) (seq b m)).
      { clear. induction m as [|m IH]; intros a b; auto. cbn. f_equal. rewrite <- IH. f_equal. lia. }
      intros a. rewrite <- G, Nat.add_0_r. reflexivity. }
    rewrite E. assert (G : forall k, In k (map (fun k => (length cols + k)%nat) (seq 0 (length ysel))) -> sltre thr (norm2 (ss ++ news) (nth k (cols ++ map uc ysel) [])) = true).
    { intros k Hk. apply in_map_iff in Hk. destruct Hk as (q & <- & Hq). apply in_seq in Hq. rewrite app_nth2 by lia. replace (length cols + q - length cols)%nat with q by lia.
      rewrite (nth_indep _ [] (uc nostate)) by (rewrite map_length; lia). rewrite map_nth. rewrite (@norm_news K rt sinv sperm srot R1 R2); auto.
      - apply all_distinct.
      - apply ysel_distinct.
      - intros y Hy. apply (ysel_in y Hy).
      - apply nth_In. lia. }
    clear - G. induction (map _ _) as [|k ks IH]; auto. cbn. rewrite (G k (or_introl eq_refl)). f_equal. apply IH. intros; apply G; right; auto.
Qed.

Lemma nth_error_seq : forall m q, (q < m)%nat -> nth_error (seq 0 m) q = Some q.
Proof. intros m q H. rewrite (nth_error_nth' _ 0%nat) by (rewrite seq_length; auto). rewrite seq_nth by auto. reflexivity. Qed.

Theorem extend_core : exists tbl b h, init rq = (tbl, Ok (b, h)) /\ extended_basis sinv sperm srot energy rt xs tbl0 b0 h0 tbl b h.
Proof.
  pose proof RE as (I & PC & LE & PH & LT). pose proof (reached_pad (length xs) RE) as RP.
  destruct (@user_loop K rt energy sinv sperm srot rq (cap0 + length xs) xs (padc (length xs) c0) cols ens RP PL all_distinct all_length) as (c1 & E1 & RC & T).
  cbn [padc p_tbl] in T. change (map snd (p_tbl c1) = ss ++ news) in T. fold ysel in RC.
  assert (E : init rq = finish thr c1).
  { unfold initBasis2. rewrite S1. assert (C : loop2 (check_user species1 species2) xs (padc (length xs) c0) = (padc (length xs) c0, Ok tt)) by (apply check_loop; auto).
    rewrite C, E1. reflexivity. }
  destruct (@finish_spec K thr cap0 cols ens c0 I PC LE PH LT) as (tA & bA & hA & EA & TA & A1 & A2 & A3 & A4 & A5 & A6).
  rewrite F0 in EA. injection EA as <- <- <-.
  destruct RC as (IC & PCC & LEC & PHC & LTC).
  destruct (@finish_spec K thr _ _ _ c1 IC PCC LEC PHC LTC) as (tbl & b & h & EB & TB & B1 & B2 & B3 & B4 & B5 & B6).
  rewrite T, kept_eq, long_eq in *. set (kept0 := filter (fun x => sltre thr (weight (concat cols) x)) ss) in *. set (lk0 := long thr ss cols) in *.
  assert (LK : forall k q, nth_error lk0 k = Some q -> (q < length cols)%nat).
  { intros k q H. apply nth_error_In in H. unfold lk0, long in H. apply filter_In in H. destruct H as [H _]. apply in_seq in H. lia. }
  assert (NK : forall k, (k < length ysel)%nat -> nth_error (lk0 ++ map (fun k => (length cols + k)%nat) (seq 0 (length ysel))) (length lk0 + k) = Some (length cols + k)%nat).
  { intros k Hk. rewrite nth_error_app2 by lia. replace (length lk0 + k - length lk0)%nat with k by lia. rewrite nth_error_map, nth_error_seq by auto. reflexivity. }
  assert (OK0 : forall k, (k < length lk0)%nat -> exists q, nth_error lk0 k = Some q /\ nth_error (lk0 ++ map (fun k => (length cols + k)%nat) (seq 0 (length ysel))) k = Some q).
  { intros k Hk. exists (nth k lk0 0%nat). rewrite nth_error_app1 by auto. rewrite (nth_error_nth' _ 0%nat Hk). auto. }
  assert (OKR : forall r, (r < length kept0)%nat -> exists x, In x ss /\ nth_error kept0 r = Some x /\ nth_error (kept0 ++ news) r = Some x).
  { intros r Hr. exists (nth r kept0 nostate). rewrite nth_error_app1 by auto. rewrite (nth_error_nth' _ nostate Hr). split; auto.
    pose proof (nth_In _ nostate Hr) as Q. unfold kept0 in Q at 2. apply filter_In in Q. apply Q. }
  assert (NR : forall r z, nth_error news r = Some z -> nth_error (kept0 ++ news) (length kept0 + r) = Some z).
  { intros r z H. rewrite nth_error_app2 by lia. replace (length kept0 + r - length kept0)%nat with r by lia. auto. }
  rewrite !app_length, map_length, seq_length in *.
  assert (TBs : map snd tbl = kept0 ++ news) by (rewrite TB, <- app_length; apply map_snd_combine_seq).
  assert (TAs : map snd tbl0 = kept0) by (rewrite TA; apply map_snd_combine_seq).
  assert (YU : forall k y, nth_error ysel k = Some y -> nth (length cols + k) (cols ++ map uc ysel) [] = uc y).
  { intros k y H. rewrite app_nth2 by lia. replace (length cols + k - length cols)%nat with k by lia. apply nth_error_nth. rewrite nth_error_map, H. reflexivity. }
  exists tbl, b, h. split; [rewrite E; exact EB|]. exists ysel, news.
  refine (conj _ (conj _ (conj _ (conj _ (conj _ (conj _ (conj _ (conj _ (conj _ (conj _ (conj _ (conj _ (conj _ (conj _ (conj _ _))))))))))))))).
  - exists sel. split; [reflexivity|]. intros x _. apply sel_iff.
  - rewrite TB at 1. rewrite <- app_length, map_fst_combine_seq. f_equal. rewrite <- TBs, map_length. reflexivity.
  - rewrite TBs, TAs. reflexivity.
  - apply (distinct2_app_inv _ _ all_distinct).
  - intros z. rewrite in_flat_map. split.
    + intros (y & Hy & Hz). exists y. split; auto. apply in_new in Hz. destruct Hz as [->|[X ->]]; auto. right. exists (sX2 sinv sperm y). split; auto. apply exch_iff. auto.
    + intros (y & Hy & [->|(s & Hs & ->)]); exists y; (split; [auto|]); apply in_new; auto. apply exch_iff in Hs. destruct Hs. auto.
  - lia.
  - lia.
  - lia.
  - lia.
  - intros r k Hr Hk. rewrite A1 in Hr. rewrite A2 in Hk. destruct (OKR r Hr) as (x & _ & X1 & X2). destruct (OK0 k Hk) as (q & Q1 & Q2).
    rewrite (A5 r k x q X1 Q1), (B5 r k x q X2 Q2). rewrite app_nth1 by (eapply LK; eauto). reflexivity.
  - intros r k Hr Hk. rewrite A1 in Hr. destruct (OKR r Hr) as (x & X0 & X1 & X2). assert (Hq : (k - nc b0 < length ysel)%nat) by lia.
    replace k with (length lk0 + (k - nc b0))%nat by lia. rewrite (B5 r _ x _ X2 (NK _ Hq)).
    rewrite (YU _ (nth (k - nc b0) ysel nostate)) by (apply nth_error_nth'; auto). apply coef_none. intros e He. eapply uc_apart; eauto. apply nth_In; auto.
  - intros r k Hr Hk. rewrite A2 in Hk. assert (Hq : (r - nr b0 < length news)%nat) by lia. destruct (OK0 k Hk) as (q & Q1 & Q2).
    replace r with (length kept0 + (r - nr b0))%nat by lia. rewrite (B5 _ k _ q (NR _ _ (nth_error_nth' _ nostate Hq)) Q2).
    rewrite app_nth1 by (eapply LK; eauto). apply coef_none. intros e He. eapply cols_apart; eauto; [apply nth_In; eapply LK; eauto|apply nth_In; auto].
  - intros r k z y Hz Hy. assert (Hq : (k < length ysel)%nat) by (apply nth_error_Some; congruence). rewrite A1, A2.
    rewrite (B5 _ _ z _ (NR r z Hz) (NK k Hq)), (YU k y Hy), coef_uc. unfold is_state, val2. split.
    + intros N. destruct (exch2 sinv sperm y) eqn:X; [exfalso; apply (N (sX2 sinv sperm y)); apply exch_iff; auto|]. ring.
    + intros s Hs. apply exch_iff in Hs. destruct Hs as [X ->]. rewrite X. rewrite kz_mul. destruct (eq2 y z), (eq2 (swapped y) z); ring.
  - intros k k' Hk Hk'. rewrite A2 in Hk, Hk'. destruct (OK0 k Hk) as (q & Q1 & Q2). rewrite (A6 k k' q Q1) by auto. rewrite (B6 k k' q Q2) by lia.
    destruct (Nat.eqb k k'); auto. rewrite app_nth1; auto. rewrite LE. eapply LK; eauto.
  - intros k k' Hk Hk' _ N. assert (Q : exists q, nth_error (lk0 ++ map (fun k => (length cols + k)%nat) (seq 0 (length ysel))) k = Some q).
    { destruct (nth_error _ k) eqn:Q; eauto. apply nth_error_None in Q. rewrite app_length, map_length, seq_length in Q. lia. }
    destruct Q as (q & Q). rewrite (B6 k k' q Q) by lia. destruct (Nat.eqb_spec k k'); [contradiction|reflexivity].
  - intros k y Hy. assert (Hq : (k < length ysel)%nat) by (apply nth_error_Some; congruence). rewrite A2.
    rewrite (B6 _ _ _ (NK k Hq)) by lia. rewrite Nat.eqb_refl. rewrite app_nth2 by lia. rewrite LE. replace (length cols + k - length cols)%nat with k by lia.
    assert (X : nth k (map (en2 energy) ysel) 0 = en2 energy y) by (apply nth_error_nth; rewrite nth_error_map, Hy; reflexivity).
    rewrite X. apply energy_iff. unfold en2. pose proof (nth_error_In _ _ Hy) as Iy. destruct (ysel_in y Iy) as [Hx _]. destruct (PL y Hx) as (o & Ho).
    unfold uplan in Ho. destruct (user_energy energy y); try discriminate. reflexivity.
Qed.
End Core.
End Extend.
