(** Pair bases without symmetry, of chosen pairs of one-atom basis vectors. *)
From Verif Require Import Base StateModel StateProofs Matrix LookupModel LookupProofs SystemModel RangeModel BasisProofs
  SystemProofs OverlapProofs OverlapProofs2 PairModel PairSpec PairProofs PairProofs2 PairProofs3 PairProofs4.
From Coq Require Import ZArith Lia Bool String Arith List.
Import ListNotations.
Set Implicit Arguments.
Local Open Scope nat_scope.
Local Open Scope list_scope.

Lemma distinct2_prod2 : forall ss tt, distinct ss -> distinct tt -> distinct2 (map (fun p => mkTwo_pair (fst p) (snd p)) (list_prod ss tt)).
Proof.
  intros xs ss Dx D. induction Dx as [|x xs F Dx IH]; [constructor|]. cbn [list_prod]. rewrite map_app, map_map. cbn [fst snd].
  apply distinct2_app; auto.
  - clear - D. induction D as [|y ys Fy Dy IHy]; [constructor|]. cbn. constructor; auto. rewrite Forall_forall in *.
    intros z Hz. apply in_map_iff in Hz. destruct Hz as (w & <- & Hw). rewrite eq2_pair, (Fy w Hw). apply andb_false_r.
  - intros p q Hp Hq. apply in_map_iff in Hp. destruct Hp as (y & <- & _). apply in_map_iff in Hq. destruct Hq as ([a b] & <- & Hab).
    apply in_prod_iff in Hab. rewrite eq2_pair. rewrite Forall_forall in F. cbn. rewrite (F a (proj1 Hab)). reflexivity.
Qed.

Section Product.
Context {K : StarRing}.
Add Ring Kr12 : (s_ring K).
Local Open Scope star_scope.
Variable hs : string -> N.
Variable hi : Z -> N.
Variable hf : Z -> N.
Variable rt : K.
Variable energy : state1 -> res K.
Variables s1 s2 : @onesys K.
Variables species1 species2 : string.
Variable chosen : list (nat * nat).
Variable thr : K.
Hypothesis thr0 : sltre thr 0 = false.
Hypothesis thr1 : sltre thr 1 = true.
Variable rq : @request K state2.
Hypothesis rq0 : rq_add rq = [].
Hypothesis WF1 : wf_one s1.
Hypothesis WF2 : wf_one s2.
Hypothesis KF : kinds_fit s1 s2.
Hypothesis ON1 : orthonormal s1.
Hypothesis ON2 : orthonormal s2.
Hypothesis IR : in_range s1 s2 (pairs s1 s2 chosen).

Notation u := (amp s1).
Notation v := (amp s2).
Notation artP i j := (artificial s1 (colof s1 i) || artificial s2 (colof s2 j)).
Definition colP (p : nat * nat) : list (state2 * K) :=
  flat_map (ent rt s1 s2 NA NA None (fst p) (snd p) (artP (fst p) (snd p))) (list_prod (colof s1 (fst p)) (colof s2 (snd p))).
Definition enP (p : nat * nat) : K := nth (fst p) (o_en s1) 0 + nth (snd p) (o_en s2) 0.

Lemma art_entry : forall (s : @onesys K) c e st, In e c -> artificial s c = false -> nth_error (o_states s) (fst e) = Some st -> isArtificial st = false.
Proof.
  intros s c e st He Hc Hst. unfold artificial in Hc. apply not_true_iff_false in Hc. apply not_true_iff_false. intro Y. apply Hc.
  apply existsb_exists. exists e. rewrite Hst. auto.
Qed.

Lemma cols_fineP : forall i j, (i < length (o_cols s1))%nat -> (j < length (o_cols s2))%nat ->
  cols_ok s1 s2 (artP i j) (colof s1 i) (colof s2 j).
Proof.
  intros i j Hi Hj e1 e2 H1 H2. destruct WF1 as (_ & _ & W1). destruct WF2 as (_ & _ & W2).
  assert (C1 : In (colof s1 i) (o_cols s1)) by (apply nth_In; auto). assert (C2 : In (colof s2 j) (o_cols s2)) by (apply nth_In; auto).
  pose proof (proj2 (W1 _ C1) _ H1) as L1. pose proof (proj2 (W2 _ C2) _ H2) as L2.
  destruct (nth_error (o_states s1) (fst e1)) as [a|] eqn:Ea; [|apply nth_error_None in Ea; lia].
  destruct (nth_error (o_states s2) (fst e2)) as [b|] eqn:Eb; [|apply nth_error_None in Eb; lia].
  exists a, b. split; auto. split; auto. destruct (artP i j) eqn:A; auto. right.
  apply orb_false_iff in A. destruct A as [A1 A2].
  apply KF; try (eapply nth_error_In; eauto). - apply (@art_entry _ _ _ _ H1 A1 Ea). - apply (@art_entry _ _ _ _ H2 A2 Eb).
Qed.

Lemma planP_at : forall p, (fst p < length (o_cols s1))%nat -> (snd p < length (o_cols s2))%nat ->
  pair_plan hs hi hf rt s1 s2 NA NA NA None rq p = Ok (if enValid2 rq (enP p) then Some (enP p, colP p) else None).
Proof.
  intros [i j] Hi Hj. cbn [fst snd] in *. unfold pair_plan. destruct WF1 as (_ & W1 & _). destruct WF2 as (_ & W2 & _).
  rewrite (nth_error_nth' (o_cols s1) [] Hi), (nth_error_nth' (o_cols s2) [] Hj).
  rewrite (nth_error_nth' (o_en s1) 0) by lia. rewrite (nth_error_nth' (o_en s2) 0) by lia.
  change (nth i (o_cols s1) []) with (colof s1 i). change (nth j (o_cols s2) []) with (colof s2 j).
  unfold enP. cbn [fst snd]. assert (SKP : skipped (if artP i j then NA else NA) NA (Nat.leb i j) (Nat.ltb i j) = false) by (destruct (artP i j); auto).
  rewrite SKP. destruct (enValid2 rq _); auto.
  rewrite (col_entries_ok hs hi hf rt NA NA None i j (cols_fineP Hi Hj)). reflexivity.
Qed.

Definition validP (p : nat * nat) : bool := enValid2 rq (enP p).
Lemma planP_filter : forall ps, in_range s1 s2 ps ->
  plan hs hi hf rt s1 s2 NA NA NA None rq ps = Ok (map (fun p => (p, (enP p, colP p))) (filter validP ps)).
Proof.
  induction ps as [|p ps IH]; intros H; auto. cbn [plan filter]. destruct p as [i j]. destruct (H i j (or_introl eq_refl)).
  rewrite planP_at by auto. cbn [bind].
  rewrite IH by (intros i' j' H'; apply H; right; auto). cbn [bind]. unfold validP. destruct (enValid2 rq (enP (i, j))); reflexivity.
Qed.

Definition allP : list state2 := map (fun p => mkTwo_pair (fst p) (snd p)) (list_prod (o_states s1) (o_states s2)).

Lemma colP_states : forall p x, In x (colP p) -> exists a b, In a (o_states s1) /\ In b (o_states s2) /\ fst x = mkTwo_pair a b.
Proof.
  intros p x H. unfold colP in H. apply in_flat_map in H. destruct H as (e & _ & H). unfold ent in H.
  destruct (nth_error (o_states s1) (fst (fst e))) as [a|] eqn:Ea; [|destruct H]. destruct (nth_error (o_states s2) (fst (snd e))) as [b|] eqn:Eb; [|destruct H].
  apply nth_error_In in Ea, Eb. cbv zeta in H. destruct (_ && _); [|destruct H]. destruct H as [<-|H].
  - exists a, b. auto.
  - assert (Q : forall art i j, exch NA NA art i j = false) by (intros [] i j; unfold exch; cbn; apply andb_false_r). rewrite Q in H. destruct H.
Qed.

Lemma condP : forall art i j a b, rot_ok None art a b && agree NA NA art i j a b = true /\ exch NA NA art i j = false.
Proof. intros [] i j a b; unfold rot_ok, agree, exch, linv; cbn [isS orb]; rewrite !andb_false_r; auto. Qed.
Lemma coefP : forall p x, coef (colP p) x = u (fst p) (fst1 x) * v (snd p) (snd1 x).
Proof.
  intros [i j] x. unfold colP. cbn [fst snd]. rewrite coef_col. cbv zeta. destruct (condP (artP i j) i j (fst1 x) (snd1 x)) as [-> ->]. reflexivity.
Qed.
Lemma weightP : forall i j x, (i < length (o_cols s1))%nat -> (j < length (o_cols s2))%nat ->
  weight (colP (i, j)) x = (sconj (u i (fst1 x)) * u i (fst1 x)) * (sconj (v j (snd1 x)) * v j (snd1 x)).
Proof.
  intros i j x Hi Hj. unfold colP. cbn [fst snd]. rewrite weight_col. cbv zeta. destruct (condP (artP i j) i j (fst1 x) (snd1 x)) as [-> ->].
  destruct WF1 as (D1 & _ & W1). destruct WF2 as (D2 & _ & W2). rewrite (@one_wt_amp K s1), (@one_wt_amp K s2); auto; [apply W2, nth_In; auto|apply W1, nth_In; auto].
Qed.

Theorem product_core : exists tbl b h,
  initBasis2 hs hi hf rt energy s1 s2 species1 species2 NA NA NA None chosen thr rq = (tbl, Ok (b, h)) /\
  product_basis s1 s2 thr (filter validP (pairs s1 s2 chosen)) tbl b h.
Proof.
  set (ps := filter validP (pairs s1 s2 chosen)). set (pl := map (fun p => (p, (enP p, colP p))) ps).
  assert (PL : plan hs hi hf rt s1 s2 NA NA NA None rq (pairs s1 s2 chosen) = Ok pl) by (apply planP_filter; exact IR).
  assert (IRs : forall i j, In (i, j) ps -> (i < length (o_cols s1))%nat /\ (j < length (o_cols s2))%nat).
  { intros i j H. apply filter_In in H. apply IR. apply H. }
  destruct (@init_spec K hs hi hf rt energy s1 s2 species1 species2 NA NA NA None chosen thr rq allP pl rq0 PL) as (ss & D & S1 & S2 & tbl & b & h & E & T & B1 & B2 & H1 & H2 & B3 & H3).
  { unfold capacity, allP. rewrite map_length, prod_length. lia. }
  { intros q x Hq Hx. apply in_map_iff in Hq. destruct Hq as (p & <- & _). cbn [snd] in Hx.
    destruct (colP_states p x Hx) as (a & b0 & Ha & Hb & Ex). exists (mkTwo_pair a b0). rewrite Ex. split; [|apply eq2_refl].
    unfold allP. apply in_map_iff. exists (a, b0). split; auto. apply in_prod_iff. auto. }
  assert (CE : map (fun q : nat * nat * (K * list (state2 * K)) => snd (snd q)) pl = map colP ps) by (unfold pl; rewrite map_map; reflexivity).
  assert (EE : map (fun q : nat * nat * (K * list (state2 * K)) => fst (snd q)) pl = map enP ps) by (unfold pl; rewrite map_map; reflexivity).
  rewrite CE in *. rewrite EE in *.
  assert (SX : forall x, In x ss -> exists a b, In a (o_states s1) /\ In b (o_states s2) /\ x = mkTwo_pair a b).
  { intros x Hx. destruct (S1 x Hx) as (es & e & He1 & He2 & <-). apply in_map_iff in He1. destruct He1 as (p & <- & _). eapply colP_states; eauto. }
  assert (NM : forall p, In p ps -> norm2 ss (colP p) = 1).
  { intros [i j] Hp. destruct (IRs i j Hp) as [Hi Hj].
    unfold norm2. rewrite (@lsum_reindex K (fun x => sqv (coef (colP (i, j)) x)) ss allP); auto.
    - unfold allP. rewrite lsum_map. cbn [fst snd].
      rewrite (lsum_ext _ (fun p => (sconj (u i (fst p)) * u i (fst p)) * (sconj (v j (snd p)) * v j (snd p)))).
      2:{ intros p _. unfold sqv. rewrite coefP. cbn [fst snd]. rewrite s_conj_mul.
          change (fst1 (mkTwo_pair (fst p) (snd p))) with (fst p). change (snd1 (mkTwo_pair (fst p) (snd p))) with (snd p). ring. }
      rewrite (@lsum_prod K _ _ (fun a => sconj (u i a) * u i a) (fun b => sconj (v j b) * v j b)).
      pose proof (ON1 Hi Hi) as O1. pose proof (ON2 Hj Hj) as O2. rewrite Nat.eqb_refl in O1, O2. cbv beta in O1, O2. rewrite O1, O2. ring.
    - apply distinct2_prod2; [apply WF1|apply WF2].
    - intros x y Exy. rewrite (coef_eq _ _ _ Exy). reflexivity.
    - intros x Hx. destruct (SX x Hx) as (a & b0 & Ha & Hb & ->). exists (mkTwo_pair a b0). split; [|apply eq2_refl].
      unfold allP. apply in_map_iff. exists (a, b0). split; auto. apply in_prod_iff. auto.
    - intros w Hv Hn. rewrite coef_none; [unfold sqv; rewrite sconj_0; ring|]. intros e He.
      destruct (S2 (colP (i, j)) e) as (x & Hx & Ex); auto; [apply in_map; auto|]. specialize (Hn x Hx).
      destruct (eq2 (fst e) w) eqn:Q; auto. assert (eq2 x w = true) by (eapply eq2_trans; eauto). rewrite eq2_sym in Hn. congruence. }
  assert (LK : long thr ss (map colP ps) = seq 0 (length ps)).
  { unfold long. rewrite map_length. assert (G : forall k, In k (seq 0 (length ps)) -> sltre thr (norm2 ss (nth k (map colP ps) [])) = true).
    { intros k Hk. apply in_seq in Hk. rewrite (nth_indep _ [] (colP (0, 0)%nat)) by (rewrite map_length; lia). rewrite map_nth, NM; auto. apply nth_In. lia. }
    clear - G. induction (seq 0 (length ps)) as [|k ks IH]; auto. cbn. rewrite (G k (or_introl eq_refl)). f_equal. apply IH. intros; apply G; right; auto. }
  rewrite LK, seq_length in *.
  exists tbl, b, h. split; [exact E|].
  set (kept := filter (fun x => sltre thr (weight (concat (map colP ps)) x)) ss) in *.
  assert (TS : map snd tbl = kept) by (rewrite T; apply map_snd_combine_seq).
  assert (TL : length tbl = length kept) by (rewrite <- TS, map_length; reflexivity).
  assert (WT : forall x, weight (concat (map colP ps)) x = occupation_product u v ps (fst1 x) (snd1 x)).
  { intros x. unfold occupation_product. rewrite <- flat_map_concat_map, weight_flat_map. apply lsum_ext. intros [i j] Hp. destruct (IRs i j Hp).
    rewrite weightP by auto. reflexivity. }
  refine (conj _ (conj _ (conj _ (conj _ (conj _ (conj B2 (conj H1 (conj H2 (conj _ _))))))))).
  - rewrite T at 1. rewrite map_fst_combine_seq, TL. reflexivity.
  - rewrite TS. apply distinct2_filter. auto.
  - intros x Hx. rewrite TS in Hx. apply filter_In in Hx. apply SX, Hx.
  - intros a b0 Ha Hb. rewrite TS. split.
    + intros (x & Hx & Ex). apply filter_In in Hx. destruct Hx as [Hx Wx]. rewrite (weight_eq _ _ _ Ex), WT in Wx. exact Wx.
    + intros Wx. change a with (fst1 (mkTwo_pair a b0)) in Wx. change b0 with (snd1 (mkTwo_pair a b0)) in Wx at 2.
      assert (Wy : sltre thr (weight (concat (map colP ps)) (mkTwo_pair a b0)) = true) by (rewrite WT; exact Wx).
      assert (X : exists e, In e (concat (map colP ps)) /\ eq2 (fst e) (mkTwo_pair a b0) = true).
      { destruct (existsb (fun e => eq2 (fst e) (mkTwo_pair a b0)) (concat (map colP ps))) eqn:Ex; [apply existsb_exists in Ex; exact Ex|].
        rewrite weight_none, thr0 in Wy; [discriminate|]. intros e He. destruct (eq2 (fst e) (mkTwo_pair a b0)) eqn:Q; auto.
        apply not_true_iff_false in Ex. exfalso. apply Ex. apply existsb_exists. eauto. }
      destruct X as (e & He & Ee). apply in_concat in He. destruct He as (es & Hes & He).
      destruct (S2 es e Hes He) as (x & Hx & Ex). assert (Q : eq2 x (mkTwo_pair a b0) = true) by (eapply eq2_trans; eauto).
      exists x. split; auto. apply filter_In. split; auto. rewrite (weight_eq _ _ _ Q). exact Wy.
  - rewrite TL. exact B1.
  - intros r k x i j Hr Hk. rewrite TS in Hr. assert (Lk : (k < length ps)%nat) by (apply nth_error_Some; congruence).
    rewrite (B3 r k x k Hr) by (rewrite (nth_error_nth' _ 0%nat), seq_nth by (rewrite ?seq_length; auto); reflexivity).
    rewrite (nth_indep _ [] (colP (0, 0)%nat)) by (rewrite map_length; lia). rewrite map_nth, (nth_error_nth _ _ _ Hk).
    apply coefP.
  - intros k k' i j Hk Hk'. assert (Lk : (k < length ps)%nat) by (apply nth_error_Some; congruence).
    rewrite (H3 k k' k) by (auto; rewrite (nth_error_nth' _ 0%nat), seq_nth by (rewrite ?seq_length; auto); reflexivity).
    destruct (Nat.eqb k k'); auto. rewrite (nth_indep _ 0 (enP (0, 0)%nat)) by (rewrite map_length; lia). rewrite map_nth, (nth_error_nth _ _ _ Hk). reflexivity.
Qed.

Lemma validP_iff : forall i j, validP (i, j) = true <-> in_window rq (nth i (o_en s1) 0 + nth j (o_en s2) 0).
Proof using.
  intros i j. clear - rq s1 s2. unfold validP, enP, enValid2, in_window. cbn [fst snd]. rewrite andb_true_iff. destruct (rq_emin rq), (rq_emax rq); split; intros [A B]; split; auto; try discriminate; intros; try congruence; auto.
Qed.
End Product.
