(** Proofs about SystemOne::initializeBasis with reflection symmetry (C59), continued. *)
From Verif Require Import Base StateModel StateProofs Matrix LookupModel LookupProofs SystemModel RangeModel RangeProofs BasisProofs
  OverlapProofs OverlapProofs2 ReflSpec ReflProofs.
From Coq Require Import ZArith Lia Bool String Ascii FinFun List.
Import ListNotations.
Set Implicit Arguments.
Local Open Scope Z_scope.

Section P.
Context {K : StarRing}.
Add Ring Kr4 : (s_ring K).
Variable hs : string -> N.
Variable hi : Z -> N.
Variable hf : Z -> N.
Variable rt : K.
Variable iu : option K.
Variable sref : parity.
Notation entry := (state1 * nat * K)%type.
Notation colspec := (colspec hs hi hf rt iu sref).
Notation valid_cols := (valid_cols hs hi hf rt iu sref).
Definition ival : K := match iu with Some i => i | None => s0 end.

Lemma tsum_num_out : forall (fl : list entry) a r c, (r < a)%nat -> tsum (numbered a fl) r c = s0.
Proof.
  induction fl as [|[[s k] v] fl IH]; intros a r c H; auto.
  unfold numbered. cbn [length seq combine map fst snd tsum]. fold (numbered (S a) fl). rewrite IH by lia.
  destruct (Nat.eqb_spec a r); [lia|]. cbn. ring.
Qed.

Lemma tsum_num : forall (fl : list entry) a r c s k v, nth_error fl r = Some (s, k, v) ->
  tsum (numbered a fl) (a + r) c = if Nat.eqb k c then v else s0.
Proof.
  induction fl as [|[[s' k'] v'] fl IH]; intros a r c s k v H; [destruct r; discriminate|].
  unfold numbered. cbn [length seq combine map fst snd tsum]. fold (numbered (S a) fl).
  destruct r as [|r]; cbn in H.
  - injection H as -> -> ->. rewrite Nat.add_0_r, Nat.eqb_refl, tsum_num_out by lia. cbn. ring.
  - replace (a + S r)%nat with (S a + r)%nat by lia. rewrite (IH _ _ _ _ _ _ H).
    destruct (Nat.eqb_spec a (S a + r)); [lia|]. cbn. ring.
Qed.

(** States of the columns of different represented states differ; they are not mirror images either. *)
Lemma cross : forall p q cp s v, colspec p cp -> keep p = true -> keep q = true -> eq1 p q = false -> In (s, v) cp ->
  eq1 s q = false /\ (alone q = false -> mirror s q = false).
Proof.
  intros p q cp s v C Kp Kq D H. unfold keep, isArtificial in Kp, Kq. apply orb_true_iff in Kp, Kq. rewrite Z.eqb_eq, Z.leb_le in Kp, Kq.
  assert (Dn : ~ same1 p q) by (intro Q; apply eq1_iff in Q; congruence).
  destruct (col_states _ _ C H) as [->|(A & M & R)].
  - split; auto. intros Al. unfold alone, isArtificial in Al. apply orb_false_iff in Al. rewrite !Z.eqb_neq in Al.
    apply not_true_iff_false. intro E. unfold mirror in E. rewrite !andb_true_iff, !Z.eqb_eq in E.
    destruct E as ((((E1 & E2) & E3) & E4) & E5). lia.
  - apply refl_fields in R. destruct R as (N & R1 & R2 & R3 & R4 & R5). split.
    + apply not_true_iff_false. intro E. apply eq1_iff in E. destruct E as (E1 & E2 & E3 & E4 & E5). lia.
    + intros Al. apply not_true_iff_false. intro E. unfold mirror in E. rewrite !andb_true_iff, !Z.eqb_eq, String.eqb_eq in E.
      destruct E as ((((E1 & E2) & E3) & E4) & E5). apply Dn. unfold same1. repeat split; try congruence; lia.
Qed.

Lemma cross_states : forall p q cp cq s v s' v', colspec p cp -> colspec q cq -> keep p = true -> keep q = true -> eq1 p q = false ->
  In (s, v) cp -> In (s', v') cq -> eq1 s s' = false.
Proof.
  intros p q cp cq s v s' v' Cp Cq Kp Kq D H H'.
  destruct (cross _ _ _ Cp Kp Kq D H) as [X Y].
  destruct (col_states _ _ Cq H') as [->|(A & M & R)]; auto.
  assert (Al : alone q = false). { unfold alone. rewrite A. apply Z.eqb_neq. lia. }
  specialize (Y Al). apply refl_fields in R. destruct R as (N & R1 & R2 & R3 & R4 & R5).
  apply not_true_iff_false. intro E. apply eq1_iff in E. destruct E as (E1 & E2 & E3 & E4 & E5).
  apply not_true_iff_false in Y. apply Y. unfold mirror. rewrite !andb_true_iff, !Z.eqb_eq, String.eqb_eq. repeat split; congruence.
Qed.

Lemma own_amp : forall p cp s v, colspec p cp -> In (s, v) cp -> v = amp rt ival sref p s.
Proof.
  intros p cp s v C H. unfold amp. destruct C as [st Al|str i A M R Ei].
  - destruct H as [H|[]]. injection H as <- <-. rewrite st. rewrite (proj2 (eq1_iff _ _) (ltac:(repeat split) : same1 p p)). reflexivity.
  - assert (Al : alone p = false). { unfold alone. rewrite A. apply Z.eqb_neq. lia. }
    rewrite Al. destruct H as [H|[H|[]]]; injection H as <- <-.
    + rewrite (proj2 (eq1_iff _ _) (ltac:(repeat split) : same1 p p)). reflexivity.
    + apply refl_fields in R. destruct R as (N & R1 & R2 & R3 & R4 & R5).
      assert (eq1 str p = false) as ->.
      { apply not_true_iff_false. intro E. apply eq1_iff in E. destruct E as (E1 & E2 & E3 & E4 & E5). lia. }
      assert (mirror str p = true) as ->.
      { unfold mirror. rewrite !andb_true_iff, !Z.eqb_eq, String.eqb_eq. repeat split; congruence. }
      unfold ival. rewrite Ei. reflexivity.
Qed.

Lemma valid_nth' : forall reps cols c st, valid_cols reps cols -> nth_error reps c = Some st ->
  exists col, nth_error cols c = Some col /\ colspec st col.
Proof.
  intros reps cols c st V. revert c. induction V; intros c H'; destruct c; cbn in *; try discriminate.
  - injection H' as <-. eauto.
  - apply IHV. exact H'.
Qed.

Lemma distinct_nth : forall reps i k p q, distinct reps -> i <> k -> nth_error reps i = Some p -> nth_error reps k = Some q -> eq1 p q = false.
Proof.
  induction reps as [|x reps IH]; intros i k p q D N Hi Hk; [destruct i; discriminate|].
  inversion D as [|? ? D1 D2]; subst. rewrite Forall_forall in D1. destruct i, k; cbn in *; try lia.
  - injection Hi as <-. apply D1. eapply nth_error_In; eauto.
  - injection Hk as <-. apply nth_error_In in Hi. specialize (D1 _ Hi).
    apply not_true_iff_false in D1. apply not_true_iff_false. intro E. apply D1. apply eq1_iff in E. apply eq1_iff.
    destruct E as (E1 & E2 & E3 & E4 & E5). repeat split; congruence.
  - apply (IH i k); auto.
Qed.

Section G.
Variables (reps : list state1) (cols : list (list (state1 * K))).
Hypothesis V : valid_cols reps cols.
Hypothesis Rk : Forall repok reps.
Hypothesis D : distinct reps.

Lemma cols_len : length cols = length reps.
Proof. generalize V. clear. unfold ReflProofs.valid_cols. intros H. induction H; cbn; congruence. Qed.

Lemma entry_amp : forall r c s k v st, nth_error (flatten 0 cols) r = Some (s, k, v) -> nth_error reps c = Some st ->
  tsum (numbered 0 (flatten 0 cols)) r c = amp rt ival sref st s.
Proof.
  intros r c s k v st H Hc. rewrite (tsum_num _ 0 r c H : tsum (numbered 0 (flatten 0 cols)) r c = _).
  apply nth_error_In in H. apply in_flatten in H. destruct H as (k' & col & v' & H1 & H2 & H3). cbn [e_st fst] in *.
  injection H3 as -> ->. cbn [plus]. destruct (valid_nth k' V H1) as (p & Hp & C).
  destruct (Nat.eqb_spec k' c) as [->|N].
  - rewrite Hp in Hc. injection Hc as ->. eapply own_amp; eauto.
  - rewrite Forall_forall in Rk. pose proof (Rk p (nth_error_In _ _ Hp)) as Kp. pose proof (Rk st (nth_error_In _ _ Hc)) as Ks.
    destruct (cross _ _ _ C Kp Ks (@distinct_nth _ _ _ _ _ D N Hp Hc) H2) as [X Y].
    unfold amp. rewrite X. destruct (alone st); auto. rewrite Y; auto.
Qed.

Lemma flat_distinct : distinct (map (@e_st K) (flatten 0 cols)).
Proof.
  generalize 0%nat. generalize V, Rk, D. clear V Rk D. unfold ReflProofs.valid_cols. intros VV. induction VV as [|st col reps cols C V IH]; intros Rk D k; cbn [flatten map]. { constructor. }
  inversion Rk as [|? ? K0 R0]; subst. inversion D as [|? ? D1 D2]; subst. rewrite Forall_forall in D1.
  rewrite map_app. specialize (IH R0 D2 (S k)).
  assert (X : forall s v, In (s, v) col -> Forall (fun t => eq1 s t = false) (map (@e_st K) (flatten (S k) cols))).
  { intros s v Hs. apply Forall_forall. intros t Ht. apply in_map_iff in Ht. destruct Ht as (e & <- & He).
    apply in_flatten in He. destruct He as (c & col' & v' & H1 & H2 & _). destruct (valid_nth c V H1) as (p & Hp & Cp).
    rewrite Forall_forall in R0. pose proof (nth_error_In _ _ Hp) as Ip.
    exact (@cross_states st p col col' s v (e_st e) v' C Cp K0 (R0 p Ip) (D1 p Ip) Hs H2). }
  destruct C as [Al|str i A M R Ei].
  - cbn. constructor; auto. apply (X st s1). left; auto.
  - cbn. constructor; [constructor|constructor; auto].
    + apply refl_fields in R. apply not_true_iff_false. intro E. apply eq1_iff in E. destruct E as (E1 & E2 & E3 & E4 & E5). lia.
    + apply (X st rt). left; auto.
    + apply (X str (smul rt (phase_of i sref st))). right; left; auto.
Qed.

Lemma flat_states : forall s, In s (map (@e_st K) (flatten 0 cols)) <->
  exists st, In st reps /\ (s = st \/ (alone st = false /\ getReflected hs hi hf st = Ok s)).
Proof.
  intros s. split.
  - intros H. apply in_map_iff in H. destruct H as (e & <- & He). apply in_flatten in He. destruct He as (c & col & v & H1 & H2 & _).
    destruct (valid_nth c V H1) as (p & Hp & C). exists p. split. { eapply nth_error_In; eauto. }
    destruct (col_states _ _ C H2) as [X|(A & M & R)]; auto. right. split; auto.
    unfold alone. rewrite A. apply Z.eqb_neq. lia.
  - intros (st & Hin & H). destruct (In_nth_error _ _ Hin) as [c Hc]. destruct (valid_nth' c V Hc) as (col & Hcol & C).
    assert (exists v, In (s, v) col) as [v Hv].
    { destruct C as [Al|str i A M R Ei]; destruct H as [->|[H1 H2]]; try (eexists; left; reflexivity).
      - congruence.
      - rewrite H2 in R. injection R as ->. eexists; right; left; reflexivity. }
    apply in_map_iff. exists (s, c, v). split; auto. apply in_flatten. exists c, col, v. cbn. auto.
Qed.

Lemma lsum_flat : forall (g : K -> K) cs k c, (c < length cs)%nat ->
  lsum (fun e : entry => if Nat.eqb (snd (fst e)) (k + c) then g (snd e) else s0) (flatten k cs) = lsum (fun p => g (snd p)) (nth c cs []).
Proof.
  intros g. induction cs as [|col cs IH]; intros k c H; [cbn in H; lia|]. cbn [flatten]. rewrite lsum_app.
  assert (T : forall k', lsum (fun e : entry => if Nat.eqb (snd (fst e)) k' then g (snd e) else s0) (tag k col)
      = if Nat.eqb k k' then lsum (fun p => g (snd p)) col else s0).
  { intros k'. unfold tag. rewrite lsum_map. cbn [fst snd]. destruct (Nat.eqb k k'); auto. apply lsum_zero. auto. }
  assert (O : forall k' k2, (k' < k2)%nat -> lsum (fun e : entry => if Nat.eqb (snd (fst e)) k' then g (snd e) else s0) (flatten k2 cs) = s0).
  { intros k' k2 Hk. apply lsum_zero. intros e He. apply in_flatten in He. destruct He as (c' & _ & v & _ & _ & He).
    rewrite He. cbn. destruct (Nat.eqb_spec (k2 + c') k'); [lia|auto]. }
  rewrite T. destruct c as [|c].
  - rewrite Nat.add_0_r, Nat.eqb_refl, O by lia. cbn [nth]. ring.
  - destruct (Nat.eqb_spec k (k + S c)); [lia|]. cbn [nth]. rewrite <- (IH (S k) c) by (cbn in H; lia).
    rewrite Nat.add_succ_r. cbn [plus]. ring.
Qed.

Lemma col_norm : forall st col, colspec st col -> sconj rt = rt -> sadd (smul rt rt) (smul rt rt) = s1 ->
  (forall i, iu = Some i -> smul (sconj i) i = s1) ->
  lsum (fun p => smul (sconj (snd p)) (snd p)) col = s1.
Proof.
  intros st col C R1 R2 I. destruct C as [Al|str i A M R Ei]; cbn [lsum fold_right snd].
  - rewrite sconj_1. ring.
  - rewrite s_conj_mul, R1. unfold phase_of. specialize (I i Ei).
    set (u := if Z.even (l st + (m2 st - j2 st) / 2) then s1 else sopp s1).
    set (w := match sref with ODD => sopp s1 | _ => s1 end).
    assert (U : smul (sconj u) u = s1). { unfold u. destruct (Z.even _); rewrite ?sconj_opp, ?sconj_1; ring. }
    assert (W : smul (sconj w) w = s1). { unfold w. destruct sref; rewrite ?sconj_opp, ?sconj_1; ring. }
    rewrite !s_conj_mul.
    transitivity (sadd (smul rt rt) (smul (smul rt rt) (smul (smul (smul (sconj u) u) (smul (sconj i) i)) (smul (sconj w) w)))). { ring. }
    rewrite U, I, W. transitivity (sadd (smul rt rt) (smul rt rt)); [ring|exact R2].
Qed.

Lemma flat_isometry : sconj rt = rt -> sadd (smul rt rt) (smul rt rt) = s1 ->
  (forall i, iu = Some i -> smul (sconj i) i = s1) ->
  isometry (mtrip (length (flatten 0 cols)) (length cols) (numbered 0 (flatten 0 cols))).
Proof.
  intros R1 R2 I. unfold isometry. split; [reflexivity|]. split; [reflexivity|]. cbn [nr nc at_ mmul madj mid mtrip]. intros c c' Hc Hc'.
  set (fl := flatten 0 cols) in *.
  destruct fl as [|d fl'] eqn:Efl.
  { (* no entries: no columns *)
    exfalso. destruct cols as [|col0 cs] eqn:Ec; [cbn in Hc; lia|]. inversion V as [|st ? ? ? C ?]; subst.
    unfold fl in Efl. cbn in Efl. apply app_eq_nil in Efl. destruct C; cbn in Efl; destruct Efl; discriminate. }
  rewrite <- Efl in *. clear Efl. rewrite Nat.min_id.
  transitivity (bsum (length fl) (fun r => (fun e : entry => if Nat.eqb c c' then (if Nat.eqb (snd (fst e)) (0 + c) then smul (sconj (snd e)) (snd e) else s0) else s0) (nth r fl d))).
  { apply bsum_ext. intros r Hr. destruct (nth_error fl r) as [[[s k] v]|] eqn:E; [|apply nth_error_None in E; lia].
    rewrite (nth_error_nth _ _ d E).
    rewrite (tsum_num _ 0 r c E : tsum (numbered 0 fl) r c = _), (tsum_num _ 0 r c' E : tsum (numbered 0 fl) r c' = _). cbn [fst snd plus].
    destruct (Nat.eqb_spec c c') as [->|N].
    - destruct (Nat.eqb k c'); auto. rewrite sconj_0. ring.
    - destruct (Nat.eqb_spec k c); [|rewrite sconj_0; ring]. destruct (Nat.eqb_spec k c'); [lia|ring]. }
  rewrite bsum_lsum.
  transitivity (lsum (fun e : entry => if Nat.eqb c c' then (if Nat.eqb (snd (fst e)) (0 + c) then smul (sconj (snd e)) (snd e) else s0) else s0) fl).
  { rewrite <- lsum_map with (g := fun r => nth r fl d) (f := fun e : entry => if Nat.eqb c c' then (if Nat.eqb (snd (fst e)) (0 + c) then smul (sconj (snd e)) (snd e) else s0) else s0).
    f_equal. clear. induction fl as [|x fl IH]; auto. cbn [length seq map nth]. f_equal. rewrite <- seq_shift, map_map. exact IH. }
  unfold delta. destruct (Nat.eqb c c').
  - etransitivity; [exact (@lsum_flat (fun v => smul (sconj v) v) cols 0%nat c Hc)|].
    destruct (nth_error cols c) as [col|] eqn:E; [|apply nth_error_None in E; lia].
    rewrite (nth_error_nth _ _ [] E). destruct (valid_nth c V E) as (st & _ & C). eapply col_norm; eauto.
  - apply lsum_zero. auto.
Qed.
End G.

(** The whole result. *)
Lemma refl_final : forall (srefNA : sref <> NA) energy sp srot (rq : @request K state1) s2 tbl b h,
  spin2 sp = Ok s2 -> 0 <= s2 -> sets_ok srot rq ->
  (forall j, In j (rg_j (rq_rg rq)) -> Z.Even (j - s2)) ->
  (forall m, In m (rg_m (rq_rg rq)) -> Z.Even (m - s2)) ->
  (rg_j (rq_rg rq) = [] \/ s2 <= 1) ->
  distinct (rq_add rq) ->
  initBasis1 hs hi hf rt iu energy sp sref srot rq = (tbl, Ok (b, h)) ->
  exists reps : list state1,
    distinct reps /\
    (forall st, In st reps <-> (isArtificial st = true \/ 0 <= m2 st) /\
       ((exists nn ll jj mm, wanted energy sp srot rq s2 nn ll jj mm /\ mkOne hs hi hf sp nn ll jj mm = Ok st) \/
        (In st (rq_add rq) /\ passes srot st = true))) /\
    map fst tbl = seq 0 (length tbl) /\ distinct (map snd tbl) /\
    (forall s, In s (map snd tbl) <-> exists st, In st reps /\ (s = st \/ (alone st = false /\ getReflected hs hi hf st = Ok s))) /\
    (forall st, In st reps -> alone st = false -> iu <> None) /\
    nr b = length tbl /\ nc b = length reps /\
    (forall r c s st, nth_error (map snd tbl) r = Some s -> nth_error reps c = Some st ->
       at_ b r c = amp rt ival sref st s) /\
    nr h = length reps /\ nc h = length reps /\ diagonal h /\
    (forall c st, nth_error reps c = Some st ->
       if isArtificial st then at_ h c c = s0 else energy (species st) (n st) (l st) (j2 st) = Ok (at_ h c c)) /\
    (forall nn ll jj mm, wanted energy sp srot rq s2 nn ll jj mm -> wanted energy sp srot rq s2 nn ll jj (- mm)) /\
    (sconj rt = rt -> sadd (smul rt rt) (smul rt rt) = s1 -> (forall i, iu = Some i -> smul (sconj i) i = s1) -> isometry b).
Proof.
  intros srefNA energy sp srot rq s2 tbl b h Hs Hs0 So Pj Pm Hr Da H.
  destruct (@init_refl K hs hi hf rt iu sref srefNA energy sp srot rq s2 tbl b h Hs So Da H) as (cols & G & Et & Eb & Eh & HE & Mi & Ea).
  set (bl := filter (fun p => keep (fst p)) (built hs hi hf energy sp srot rq s2)) in *.
  set (al := filter (fun st => passes srot st && keep st) (rq_add rq)) in *.
  destruct G as (V & Rk & D & Le).
  assert (Tl : length tbl = length (flatten 0 cols)).
  { rewrite Et. cbn [accR accF a_tbl]. rewrite combine_length, seq_length, map_length. apply Nat.min_id. }
  assert (Ts : map snd tbl = map (@e_st K) (flatten 0 cols)).
  { rewrite Et. cbn [accR accF a_tbl]. pose proof (map_snd_combine_seq (map (@e_st K) (flatten 0 cols)) 0) as T. rewrite map_length in T. exact T. }
  pose proof (cols_len V) as Cl.
  exists (map fst bl ++ al).
  refine (conj D (conj _ (conj _ (conj _ (conj _ (conj _ (conj _ (conj _ (conj _ (conj _ (conj _ (conj _ (conj _ (conj _ _)))))))))))))).
  - intros st. rewrite in_app_iff. unfold al. rewrite filter_In, in_map_iff.
    assert (Kk : keep st = true <-> (isArtificial st = true \/ 0 <= m2 st)).
    { unfold keep. rewrite orb_true_iff, Z.leb_le. reflexivity. }
    split.
    + intros [([st' e] & E & Hin)|[H1 H2]].
      * cbn in E. subst st'. unfold bl in Hin. apply filter_In in Hin. destruct Hin as [Hin Hk]. cbn in Hk. split; [apply Kk; auto|].
        left. apply built_in in Hin; auto. destruct Hin as (x&y&z&w&Hi&Em). exists x,y,z,w. split; auto.
        apply items_wanted; auto. eauto.
      * apply andb_true_iff in H2. destruct H2 as [H2 H3]. split; [apply Kk; auto|]. right. auto.
    + intros [Hk [(x&y&z&w&Hw&Em)|[H1 H2]]].
      * left. apply items_wanted in Hw; auto. destruct Hw as [e Hi]. exists (st, e). split; auto.
        unfold bl. apply filter_In. split; [|apply Kk; auto]. apply built_in; auto. exists x,y,z,w. auto.
      * right. split; auto. apply andb_true_iff. split; auto. apply Kk; auto.
  - rewrite Tl, Et. cbn [accR accF a_tbl]. pose proof (map_fst_combine_seq (map (@e_st K) (flatten 0 cols)) 0) as T. rewrite map_length in T. exact T.
  - rewrite Ts. eapply flat_distinct; eauto.
  - intros s. rewrite Ts. apply (flat_states V).
  - intros st Hin Al. destruct (In_nth_error _ _ Hin) as [c Hc]. destruct (valid_nth' c V Hc) as (col & _ & C).
    destruct C; congruence.
  - rewrite Eb. reflexivity.
  - rewrite Eb. cbn [mtrip nc]. exact Cl.
  - intros r c s st Hr' Hc. rewrite Eb. cbn [mtrip at_ accR accF a_bt]. rewrite Ts, nth_error_map in Hr'.
    destruct (nth_error (flatten 0 cols) r) as [[[s' k] v]|] eqn:Ef; [|discriminate]. cbn in Hr'. injection Hr' as ->.
    eapply entry_amp; eauto.
  - rewrite Eh. exact Cl.
  - rewrite Eh. exact Cl.
  - rewrite Eh. intros i j Hi Hj Hij. cbn [mtrip at_]. unfold diag. apply tsum_ht_off. auto.
  - intros c st Hc. rewrite Eh. cbn [mtrip at_]. unfold diag. rewrite tsum_ht by lia. rewrite Nat.sub_0_r.
    destruct (Nat.lt_ge_cases c (length (map fst bl))) as [L|L].
    + rewrite nth_error_app1 in Hc by auto. rewrite app_nth1 by (rewrite map_length in *; auto).
      rewrite nth_error_map in Hc. destruct (nth_error bl c) as [[st' e]|] eqn:Eq; [|discriminate]. cbn in Hc. injection Hc as ->.
      rewrite (nth_error_nth (map snd bl) c s0 (x := e)) by (rewrite nth_error_map, Eq; auto).
      apply nth_error_In in Eq. unfold bl in Eq. apply filter_In in Eq. destruct Eq as [Eq _].
      apply built_in in Eq; auto. destruct Eq as (x&y&z&w&Hi&Em).
      pose proof (@items_n_pos _ _ _ _ _ _ _ _ _ _ _ Hi) as Hz.
      apply items_in in Hi. destruct Hi as (_&_&_&_&_&_&Hen&_).
      apply mkOne_inv in Em. destruct Em as (_&E1&E2&E3&E4&_).
      unfold isArtificial. rewrite E2. apply Z.eqb_neq in Hz. rewrite Hz, E1, E3, E4. exact Hen.
    + rewrite nth_error_app2 in Hc by auto. rewrite app_nth2 by (rewrite map_length in *; auto). rewrite !map_length in *.
      rewrite (nth_error_nth (map (aenergy energy) al) _ s0 (x := aenergy energy st)) by (rewrite nth_error_map, Hc; auto).
      apply nth_error_In in Hc. unfold al in Hc. apply filter_In in Hc. destruct Hc as [Hin _]. unfold aenergy.
      destruct (isArtificial st) eqn:EA; auto. destruct (Ea st Hin) as [X|[e X]]; [congruence|]. rewrite X. reflexivity.
  - intros nn ll jj mm Hw. pose proof Hw as Hw0. apply items_wanted in Hw0; auto. destruct Hw0 as [e Hi].
    destruct (Mi _ _ _ _ _ Hi) as [->|Hm]; [exact Hw|]. apply (allowed_m_in hs hi hf energy sp) in Hm.
    destruct Hw as (W1 & W2 & W3 & W4 & W5 & W6 & W7 & W8 & W9 & W10 & W11).
    assert (Z.Even (- mm - jj)). { destruct W5 as [q Hq]. exists (- q - jj). lia. }
    destruct Hm as [Hm1 Hm2]. unfold wanted.
    refine (conj W1 (conj W2 (conj W3 (conj _ (conj _ (conj W6 (conj W7 (conj W8 (conj _ (conj Hm2 W11)))))))))); [lia|assumption|].
    destruct Hm1 as [[Hm1 _]|Hm1]; [left; exact Hm1|right; exact Hm1].
  - intros R1 R2 I. rewrite Eb. cbn [accR accF a_bt]. rewrite Tl. eapply flat_isometry; eauto.
Qed.
End P.
