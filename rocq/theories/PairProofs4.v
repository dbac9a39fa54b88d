(** Exchange-symmetrised pair bases: the result of initializeBasis. *)
From Verif Require Import Base StateModel StateProofs Matrix LookupModel LookupProofs SystemModel RangeModel BasisProofs
  SystemProofs OverlapProofs OverlapProofs2 PairModel PairSpec PairProofs PairProofs2 PairProofs3.
From Coq Require Import ZArith Lia Bool String Arith List.
Import ListNotations.
Set Implicit Arguments.
Local Open Scope nat_scope.
Local Open Scope list_scope.

Lemma nodup_list_prod : forall A B (xs : list A) (ys : list B), NoDup xs -> NoDup ys -> NoDup (list_prod xs ys).
Proof.
  intros A B xs ys Hx Hy. induction Hx as [|x xs N Hx IH]; cbn; [constructor|]. apply NoDup_app_; auto.
  - apply FinFun.Injective_map_NoDup; auto. intros p q E. congruence.
  - intros [p q] H1 H2. apply in_map_iff in H1. destruct H1 as (y & E & _). injection E as <- <-. apply in_prod_iff in H2. tauto.
Qed.

Lemma distinct2_filter : forall f ss, distinct2 ss -> distinct2 (filter f ss).
Proof.
  intros f ss D. induction D as [|x ss F D IH]; cbn; [constructor|]. destruct (f x); auto. constructor; auto.
  rewrite Forall_forall in *. intros y Hy. apply filter_In in Hy. apply F, Hy.
Qed.

Lemma distinct2_app : forall a b, distinct2 a -> distinct2 b -> (forall x y, In x a -> In y b -> eq2 x y = false) -> distinct2 (a ++ b).
Proof.
  intros a b Da Db H. induction Da as [|x a F Da IH]; cbn; auto. constructor.
  - apply Forall_app. split; auto. apply Forall_forall. intros y Hy. apply H; auto. left; auto.
  - apply IH. intros y z Hy Hz. apply H; auto. right; auto.
Qed.

Lemma distinct2_prod : forall ss, distinct ss -> distinct2 (map (fun p => mkTwo_pair (fst p) (snd p)) (list_prod ss ss)).
Proof.
  intros ss D. assert (G : forall xs, distinct xs -> distinct2 (map (fun p => mkTwo_pair (fst p) (snd p)) (list_prod xs ss))); [|apply G; auto].
  intros xs Dx. induction Dx as [|x xs F Dx IH]; [constructor|]. cbn [list_prod]. rewrite map_app, map_map. cbn [fst snd].
  apply distinct2_app; auto.
  - clear - D. induction D as [|y ys Fy Dy IHy]; [constructor|]. cbn. constructor; auto. rewrite Forall_forall in *.
    intros z Hz. apply in_map_iff in Hz. destruct Hz as (w & <- & Hw). rewrite eq2_pair, (Fy w Hw). apply andb_false_r.
  - intros p q Hp Hq. apply in_map_iff in Hp. destruct Hp as (y & <- & _). apply in_map_iff in Hq. destruct Hq as ([a b] & <- & Hab).
    apply in_prod_iff in Hab. rewrite eq2_pair. rewrite Forall_forall in F. cbn. rewrite (F a (proj1 Hab)). reflexivity.
Qed.

Section Core.
Context {K : StarRing}.
Add Ring Kr10 : (s_ring K).
Local Open Scope star_scope.

(** Sums over different enumerations of the same states. *)
Lemma lsum_pick : forall (f : state2 -> K) ss u, distinct2 ss -> (forall x, eq2 u x = true -> f x = f u) ->
  ((forall x, In x ss -> eq2 u x = false) -> f u = 0) ->
  lsum (fun x => if eq2 u x then f x else 0) ss = f u.
Proof.
  intros f ss u D R Z. induction D as [|x ss F D IH].
  - cbn. symmetry. apply Z. intros x [].
  - rewrite lsum_cons. destruct (eq2 u x) eqn:E.
    + rewrite lsum_zero; [rewrite (R x E); ring|]. intros y Hy. rewrite Forall_forall in F. specialize (F y Hy).
      destruct (eq2 u y) eqn:E'; auto. assert (eq2 x y = true) by (eapply eq2_trans; [rewrite eq2_sym; eauto|auto]). congruence.
    + rewrite IH; [ring|]. intros H. apply Z. intros y [<-|Hy]; auto.
Qed.

Lemma lsum_reindex : forall (f : state2 -> K) ss U, distinct2 ss -> distinct2 U -> (forall x y, eq2 x y = true -> f x = f y) ->
  (forall x, In x ss -> exists u, In u U /\ eq2 u x = true) ->
  (forall u, In u U -> (forall x, In x ss -> eq2 u x = false) -> f u = 0) ->
  lsum f ss = lsum f U.
Proof.
  intros f ss U D DU R I Z.
  rewrite (lsum_ext f (fun u => lsum (fun x => if eq2 u x then f x else 0) ss) U).
  2:{ intros u Hu. symmetry. apply lsum_pick; auto. intros x E. symmetry. auto. }
  rewrite lsum_lsum. apply lsum_ext. intros x Hx. destruct (I x Hx) as (u0 & Hu0 & E0).
  symmetry. transitivity (lsum (fun u => if eq2 x u then f u else 0) U).
  - apply lsum_ext. intros u _. rewrite eq2_sym. destruct (eq2 x u) eqn:E; auto.
  - apply lsum_pick; auto.
    + intros y E. symmetry. auto.
    + intros H. specialize (H u0 Hu0). rewrite eq2_sym in H. congruence.
Qed.

Variable hs : string -> N.
Variable hi : Z -> N.
Variable hf : Z -> N.
Variable rt : K.
Hypothesis rt_conj : sconj rt = rt.
Hypothesis rt_half : rt * rt + rt * rt = 1.
Variable energy : state1 -> res K.
Variable s : @onesys K.
Variables species1 species2 : string.
Variables sinv sperm : parity.
Variable srot : option (list Z).
Variable thr : K.
Hypothesis thr0 : sltre thr 0 = false.
Hypothesis thr1 : sltre thr 1 = true.
Variable rq : @request K state2.
Hypothesis rq0 : rq_add rq = [].
Hypothesis WF : wf_one s.
Hypothesis SK : same_kind s.
Hypothesis ON : orthonormal s.

Notation n := (length (o_cols s)).
Notation u := (amp s).
Definition colof (i : nat) : list (nat * K) := nth i (o_cols s) [].
Definition art (i j : nat) : bool := artificial s (colof i) || artificial s (colof j).
Definition colE (p : nat * nat) : list (state2 * K) :=
  flat_map (ent rt s s sinv sperm srot (fst p) (snd p) (art (fst p) (snd p))) (list_prod (colof (fst p)) (colof (snd p))).
Definition enE (p : nat * nat) : K := nth (fst p) (o_en s) 0 + nth (snd p) (o_en s) 0.
Definition taken (p : nat * nat) : bool :=
  negb (skipped (if art (fst p) (snd p) then NA else sinv) sperm (Nat.leb (fst p) (snd p)) (Nat.ltb (fst p) (snd p))) && enValid2 rq (enE p).

Lemma cols_fine : forall i j, (i < n)%nat -> (j < n)%nat -> cols_ok s s (art i j) (colof i) (colof j).
Proof.
  intros i j Hi Hj e1 e2 H1 H2. destruct WF as (_ & _ & W).
  assert (C1 : In (colof i) (o_cols s)) by (apply nth_In; auto). assert (C2 : In (colof j) (o_cols s)) by (apply nth_In; auto).
  pose proof (proj2 (W _ C1) _ H1) as L1. pose proof (proj2 (W _ C2) _ H2) as L2.
  destruct (nth_error (o_states s) (fst e1)) as [a|] eqn:Ea; [|apply nth_error_None in Ea; lia].
  destruct (nth_error (o_states s) (fst e2)) as [b|] eqn:Eb; [|apply nth_error_None in Eb; lia].
  exists a, b. split; auto. split; auto. destruct (art i j) eqn:A; auto. right.
  unfold art in A. apply orb_false_iff in A. destruct A as [A1 A2].
  assert (X : forall c e st, In e c -> artificial s c = false -> nth_error (o_states s) (fst e) = Some st -> isArtificial st = false).
  { intros c e st He Hc Hst. unfold artificial in Hc. apply not_true_iff_false in Hc. apply not_true_iff_false. intro Y. apply Hc.
    apply existsb_exists. exists e. rewrite Hst. auto. }
  apply SK; try (eapply nth_error_In; eauto). - apply (X _ _ _ H1 A1 Ea). - apply (X _ _ _ H2 A2 Eb).
Qed.

Lemma plan_at : forall p, (fst p < n)%nat -> (snd p < n)%nat ->
  pair_plan hs hi hf rt s s sinv NA sperm srot rq p = Ok (if taken p then Some (enE p, colE p) else None).
Proof.
  intros [i j] Hi Hj. cbn [fst snd] in *. unfold pair_plan. destruct WF as (_ & W & _).
  rewrite (nth_error_nth' (o_cols s) [] Hi), (nth_error_nth' (o_cols s) [] Hj).
  rewrite (nth_error_nth' (o_en s) 0) by lia. rewrite (nth_error_nth' (o_en s) 0) by lia.
  change (nth i (o_cols s) []) with (colof i). change (nth j (o_cols s) []) with (colof j). fold (art i j).
  unfold taken, enE. cbn [fst snd]. destruct (skipped _ _ _ _); cbn [negb andb]; auto. destruct (enValid2 rq _); auto.
  rewrite (col_entries_ok hs hi hf rt sinv sperm srot i j (cols_fine Hi Hj)). reflexivity.
Qed.

Lemma plan_filter : forall ps, (forall p, In p ps -> (fst p < n)%nat /\ (snd p < n)%nat) ->
  plan hs hi hf rt s s sinv NA sperm srot rq ps = Ok (map (fun p => (p, (enE p, colE p))) (filter taken ps)).
Proof.
  induction ps as [|p ps IH]; intros H; auto. cbn [plan filter]. rewrite plan_at by apply (H p (or_introl eq_refl)). cbn [bind].
  rewrite IH by (intros; apply H; right; auto). cbn [bind]. destruct (taken p); reflexivity.
Qed.

Definition reps : list (nat * nat) := filter taken (list_prod (seq 0 n) (seq 0 n)).
Definition allpairs : list state2 := map (fun p => mkTwo_pair (fst p) (snd p)) (list_prod (o_states s) (o_states s)).

Lemma in_reps : forall i j, In (i, j) reps <-> (i < n)%nat /\ (j < n)%nat /\ taken (i, j) = true.
Proof. intros. unfold reps. rewrite filter_In, in_prod_iff, !in_seq. intuition lia. Qed.

Lemma colE_states : forall p x, In x (colE p) -> exists a b, In a (o_states s) /\ In b (o_states s) /\ fst x = mkTwo_pair a b.
Proof.
  intros p x H. unfold colE in H. apply in_flat_map in H. destruct H as (e & _ & H). unfold ent in H.
  destruct (nth_error (o_states s) (fst (fst e))) as [a|] eqn:Ea; [|destruct H]. destruct (nth_error (o_states s) (fst (snd e))) as [b|] eqn:Eb; [|destruct H].
  apply nth_error_In in Ea, Eb. cbv zeta in H. destruct (_ && _); [|destruct H]. destruct H as [<-|H].
  - exists a, b. auto.
  - destruct (exch _ _ _ _ _); [|destruct H]. destruct H as [<-|[]]. exists b, a. auto.
Qed.

Lemma coef_eq : forall (es : list (state2 * K)) x y, eq2 x y = true -> coef es x = coef es y.
Proof.
  intros es x y E. apply lsum_ext. intros e _. replace (eq2 (fst e) x) with (eq2 (fst e) y); auto.
  apply eq_true_iff_eq. split; intros H; [eapply eq2_trans; [eauto|rewrite eq2_sym; auto]|eapply eq2_trans; eauto].
Qed.
Lemma weight_eq : forall (es : list (state2 * K)) x y, eq2 x y = true -> weight es x = weight es y.
Proof.
  intros es x y E. apply lsum_ext. intros e _. replace (eq2 (fst e) x) with (eq2 (fst e) y); auto.
  apply eq_true_iff_eq. split; intros H; [eapply eq2_trans; [eauto|rewrite eq2_sym; auto]|eapply eq2_trans; eauto].
Qed.
Lemma weight_none : forall (es : list (state2 * K)) x, (forall e, In e es -> eq2 (fst e) x = false) -> weight es x = 0.
Proof. intros es x H. apply lsum_zero. intros e He. rewrite (H e He). reflexivity. Qed.
Lemma coef_none : forall (es : list (state2 * K)) x, (forall e, In e es -> eq2 (fst e) x = false) -> coef es x = 0.
Proof. intros es x H. apply lsum_zero. intros e He. rewrite (H e He). reflexivity. Qed.

(** The modes that are considered: the columns taken are those of the triangle; some are zero. *)
Variable sg : nat -> nat -> K.
Variable dia : bool.
Variable live : nat -> nat -> bool.
Hypothesis sg_ok : forall i j, sconj (sg i j) = sg i j /\ sg i j * sg i j = 1.
Hypothesis mode_taken : forall i j, (i < n)%nat -> (j < n)%nat ->
  (taken (i, j) = true <-> ((j < i)%nat \/ (dia = true /\ j = i)) /\ enValid2 rq (enE (i, j)) = true).
Hypothesis mode_coef : forall i j x, (i < n)%nat -> (j < n)%nat ->
  coef (colE (i, j)) x = if live i j then exchanged rt u (sg i j) i j (fst1 x) (snd1 x) else 0.
Hypothesis mode_weight : forall i j x, (i < n)%nat -> (j < n)%nat -> weight (colE (i, j)) x =
  if live i j then
  let w := fun a b => (sconj (u i a) * u i a) * (sconj (u j b) * u j b) in
  if Nat.eqb i j then w (fst1 x) (snd1 x) else sconj rt * rt * (w (fst1 x) (snd1 x) + w (snd1 x) (fst1 x))
  else 0.

Lemma window_iff : forall e, enValid2 rq e = true <-> in_window rq e.
Proof.
  intros e. unfold enValid2, in_window. rewrite andb_true_iff. destruct (rq_emin rq), (rq_emax rq); split; intros [A B]; split; auto; try discriminate; intros; try congruence; auto.
Qed.

Definition liveP (p : nat * nat) : bool := live (fst p) (snd p).
Definition shown : list (nat * nat) := filter liveP reps.

Lemma select_filter : forall A (f : A -> bool) (d : A) xs k,
  map (fun i => nth (i - k) xs d) (filter (fun i => f (nth (i - k) xs d)) (seq k (length xs))) = filter f xs.
Proof.
  intros A f d xs. induction xs as [|x xs IH]; intros k; auto. cbn [length seq filter]. rewrite Nat.sub_diag. cbn [nth].
  assert (G : map (fun i => nth (i - k) (x :: xs) d) (filter (fun i => f (nth (i - k) (x :: xs) d)) (seq (S k) (length xs))) = filter f xs).
  { rewrite <- (IH (S k)). assert (E : forall i, In i (seq (S k) (length xs)) -> nth (i - k) (x :: xs) d = nth (i - S k) xs d).
    { intros i Hi. apply in_seq in Hi. replace (i - k)%nat with (S (i - S k)) by lia. reflexivity. }
    clear - E. induction (seq (S k) (length xs)) as [|i is IHi]; auto. cbn [filter]. rewrite (E i (or_introl eq_refl)).
    specialize (IHi (fun j Hj => E j (or_intror Hj))). destruct (f (nth (i - S k) xs d)); auto. cbn [map]. rewrite (E i (or_introl eq_refl)). f_equal. exact IHi. }
  destruct (f x); [cbn [map]; rewrite Nat.sub_diag; cbn [nth]; f_equal|]; auto.
Qed.

Theorem exchange_core : exists tbl b h,
  initBasis2 hs hi hf rt energy s s species1 species2 sinv NA sperm srot [] thr rq = (tbl, Ok (b, h)) /\
  exchange_basis rt s rq thr sg (fun i j => (i = j -> dia = true) /\ live i j = true) tbl b h.
Proof.
  set (pl := map (fun p => (p, (enE p, colE p))) reps).
  assert (PL : plan hs hi hf rt s s sinv NA sperm srot rq (pairs s s []) = Ok pl).
  { unfold pairs, pl, reps. apply plan_filter. intros [i j] H. apply in_prod_iff in H. rewrite !in_seq in H. cbn. lia. }
  destruct (@init_spec K hs hi hf rt energy s s species1 species2 sinv NA sperm srot [] thr rq allpairs pl rq0 PL) as (ss & D & S1 & S2 & tbl & b & h & E & T & B1 & B2 & H1 & H2 & B3 & H3).
  { unfold capacity, allpairs. rewrite map_length, prod_length. lia. }
  { intros q x Hq Hx. apply in_map_iff in Hq. destruct Hq as (p & <- & _). cbn [snd] in Hx.
    destruct (colE_states p x Hx) as (a & b0 & Ha & Hb & Ex). exists (mkTwo_pair a b0). rewrite Ex. split; [|apply eq2_refl].
    unfold allpairs. apply in_map_iff. exists (a, b0). split; auto. apply in_prod_iff. auto. }
  assert (CE : map (fun q : nat * nat * (K * list (state2 * K)) => snd (snd q)) pl = map colE reps) by (unfold pl; rewrite map_map; reflexivity).
  assert (EE : map (fun q : nat * nat * (K * list (state2 * K)) => fst (snd q)) pl = map enE reps) by (unfold pl; rewrite map_map; reflexivity).
  rewrite CE in *. rewrite EE in *.
  assert (SX : forall x, In x ss -> exists a b, In a (o_states s) /\ In b (o_states s) /\ x = mkTwo_pair a b).
  { intros x Hx. destruct (S1 x Hx) as (es & e & He1 & He2 & <-). apply in_map_iff in He1. destruct He1 as (p & <- & _). eapply colE_states; eauto. }
  assert (NM : forall p, In p reps -> norm2 ss (colE p) = if liveP p then 1 else 0).
  { intros [i j] Hp. pose proof Hp as Hp'. apply in_reps in Hp. destruct Hp as (Hi & Hj & Ht).
    apply (mode_taken Hi Hj) in Ht. destruct Ht as [Ht _].
    unfold norm2. rewrite (@lsum_reindex (fun x => sqv (coef (colE (i, j)) x)) ss allpairs); auto.
    - unfold allpairs. rewrite lsum_map. cbn [fst snd]. unfold liveP. cbn [fst snd]. destruct (live i j) eqn:Lv.
      + rewrite (lsum_ext _ (fun p => sconj (exchanged rt u (sg i j) i j (fst p) (snd p)) * exchanged rt u (sg i j) i j (fst p) (snd p))).
        2:{ intros p _. unfold sqv. rewrite (mode_coef _ Hi Hj), Lv. reflexivity. }
        pose proof (@exchanged_orthonormal K rt rt_conj rt_half u (o_states s) n ON sg sg_ok i j i j Hi Hi) as X. unfold inner2 in X. rewrite X by lia.
        rewrite !Nat.eqb_refl. reflexivity.
      + apply lsum_zero. intros p _. rewrite (mode_coef _ Hi Hj), Lv. unfold sqv. rewrite sconj_0. ring.
    - apply distinct2_prod. apply WF.
    - intros x y Exy. rewrite (coef_eq _ _ _ Exy). reflexivity.
    - intros x Hx. destruct (SX x Hx) as (a & b0 & Ha & Hb & ->). exists (mkTwo_pair a b0). split; [|apply eq2_refl].
      unfold allpairs. apply in_map_iff. exists (a, b0). split; auto. apply in_prod_iff. auto.
    - intros v Hv Hn. rewrite coef_none; [unfold sqv; rewrite sconj_0; ring|]. intros e He.
      destruct (S2 (colE (i, j)) e) as (x & Hx & Ex); auto; [apply in_map; auto|]. specialize (Hn x Hx).
      destruct (eq2 (fst e) v) eqn:Q; auto. assert (eq2 x v = true) by (eapply eq2_trans; eauto). rewrite eq2_sym in Hn. congruence. }
  set (lk := filter (fun k => liveP (nth k reps (0, 0)%nat)) (seq 0 (length reps))).
  assert (LK : long thr ss (map colE reps) = lk).
  { unfold long. rewrite map_length. unfold lk. apply filter_ext_in. intros k Hk. apply in_seq in Hk.
    rewrite (nth_indep _ [] (colE (0, 0)%nat)) by (rewrite map_length; lia). rewrite map_nth, NM by (apply nth_In; lia).
    destruct (liveP _); auto. }
  rewrite LK in *.
  assert (SL : map (fun k => nth k reps (0, 0)%nat) lk = shown).
  { unfold lk, shown. rewrite <- (select_filter liveP (0, 0)%nat reps 0). 
    rewrite (filter_ext (fun i => liveP (nth (i - 0) reps (0, 0)%nat)) (fun i => liveP (nth i reps (0, 0)%nat))) by (intros; rewrite Nat.sub_0_r; reflexivity).
    apply map_ext. intros k. rewrite Nat.sub_0_r. reflexivity. }
  assert (LL : length lk = length shown) by (rewrite <- SL, map_length; reflexivity).
  assert (NK : forall k p, nth_error shown k = Some p -> exists k0, nth_error lk k = Some k0 /\ (k0 < length reps)%nat /\ nth k0 reps (0, 0)%nat = p).
  { intros k p Hk. rewrite <- SL in Hk. rewrite nth_error_map in Hk. destruct (nth_error lk k) as [k0|] eqn:E0; [|discriminate].
    exists k0. split; auto. injection Hk as Hk. split; auto. apply nth_error_In in E0. apply filter_In in E0. destruct E0 as [E0 _]. apply in_seq in E0. lia. }
  exists tbl, b, h. split; [exact E|]. exists shown.
  set (kept := filter (fun x => sltre thr (weight (concat (map colE reps)) x)) ss) in *.
  assert (TS : map snd tbl = kept) by (rewrite T; apply map_snd_combine_seq).
  assert (TL : length tbl = length kept) by (rewrite <- TS, map_length; reflexivity).
  assert (WT : forall x, weight (concat (map colE reps)) x = occupation rt u shown (fst1 x) (snd1 x)).
  { intros x. unfold occupation. rewrite <- flat_map_concat_map, weight_flat_map. unfold shown.
    assert (IR : forall p, In p reps -> In p reps) by auto. revert IR. generalize reps at 1 3 4. intros rs. induction rs as [|[i j] rs IH]; intros IR; [reflexivity|].
    rewrite lsum_cons, IH by (intros; apply IR; right; auto). pose proof (IR (i, j) (or_introl eq_refl)) as Hp. apply in_reps in Hp.
    rewrite (mode_weight x (proj1 Hp) (proj1 (proj2 Hp))). cbn [filter]. unfold liveP at 2. cbn [fst snd]. destruct (live i j); [|ring].
    rewrite lsum_cons. reflexivity. }
  refine (conj _ (conj _ (conj _ (conj _ (conj _ (conj _ (conj _ (conj _ (conj _ (conj _ (conj _ _))))))))))).
  - apply NoDup_filter, NoDup_filter, nodup_list_prod; apply seq_NoDup.
  - intros i j. unfold shown. rewrite filter_In, in_reps. unfold liveP. cbn [fst snd]. split.
    + intros ((Hi & Hj & Ht) & Lv). apply (mode_taken Hi Hj) in Ht. rewrite window_iff in Ht. destruct Ht as [Ht W]. split; auto. split; [lia|]. split; auto. split; auto. intros ->. destruct Ht as [Ht|[Ht _]]; auto. lia.
    + intros (Hi & Hj & (Ht & Lv) & W). assert (Hj' : (j < n)%nat) by lia. split; auto. split; auto. split; auto. apply (mode_taken Hi Hj'). rewrite window_iff. split; auto.
      destruct (Nat.eq_dec i j) as [->|Ne]; [right; auto|left; lia].
  - rewrite T at 1. rewrite map_fst_combine_seq, TL. reflexivity.
  - rewrite TS. apply distinct2_filter. auto.
  - intros x Hx. rewrite TS in Hx. apply filter_In in Hx. apply SX, Hx.
  - intros a b0 Ha Hb. rewrite TS. split.
    + intros (x & Hx & Ex). apply filter_In in Hx. destruct Hx as [Hx Wx]. rewrite (weight_eq _ _ _ Ex), WT in Wx. exact Wx.
    + intros Wx. change a with (fst1 (mkTwo_pair a b0)) in Wx. change b0 with (snd1 (mkTwo_pair a b0)) in Wx at 2.
      assert (Wy : sltre thr (weight (concat (map colE reps)) (mkTwo_pair a b0)) = true) by (rewrite WT; exact Wx).
      assert (X : exists e, In e (concat (map colE reps)) /\ eq2 (fst e) (mkTwo_pair a b0) = true).
      { destruct (existsb (fun e => eq2 (fst e) (mkTwo_pair a b0)) (concat (map colE reps))) eqn:Ex; [apply existsb_exists in Ex; exact Ex|].
        rewrite weight_none, thr0 in Wy; [discriminate|]. intros e He. destruct (eq2 (fst e) (mkTwo_pair a b0)) eqn:Q; auto.
        apply not_true_iff_false in Ex. exfalso. apply Ex. apply existsb_exists. eauto. }
      destruct X as (e & He & Ee). apply in_concat in He. destruct He as (es & Hes & He).
      destruct (S2 es e Hes He) as (x & Hx & Ex). assert (Q : eq2 x (mkTwo_pair a b0) = true) by (eapply eq2_trans; eauto).
      exists x. split; auto. apply filter_In. split; auto. rewrite (weight_eq _ _ _ Q). exact Wy.
  - rewrite TL. exact B1.
  - rewrite B2. exact LL.
  - rewrite H1. exact LL.
  - rewrite H2. exact LL.
  - intros r k x i j Hr Hk. rewrite TS in Hr. destruct (NK k _ Hk) as (k0 & Hk0 & Lk & Ek).
    rewrite (B3 r k x k0 Hr Hk0).
    rewrite (nth_indep _ [] (colE (0, 0)%nat)) by (rewrite map_length; lia). rewrite map_nth, Ek.
    apply nth_error_In in Hk. unfold shown in Hk. apply filter_In in Hk. destruct Hk as [Hk Lv]. unfold liveP in Lv. cbn [fst snd] in Lv. apply in_reps in Hk.
    rewrite mode_coef, Lv by tauto. reflexivity.
  - intros k k' i j Hk Hk'. destruct (NK k _ Hk) as (k0 & Hk0 & Lk & Ek).
    rewrite (H3 k k' k0) by (auto; rewrite LL; auto).
    destruct (Nat.eqb k k'); auto. rewrite (nth_indep _ 0 (enE (0, 0)%nat)) by (rewrite map_length; lia). rewrite map_nth, Ek. reflexivity.
Qed.
End Core.
