(** Proofs about SystemOne::initializeBasis with reflection symmetry (C59). *)
From Verif Require Import Base StateModel StateProofs Matrix LookupModel LookupProofs SystemModel RangeModel RangeProofs BasisProofs ReflSpec.
From Coq Require Import ZArith Lia Bool String Ascii FinFun List.
Import ListNotations.
Set Implicit Arguments.
Local Open Scope Z_scope.

Lemma in_combine_seq : forall A (l : list A) x a, In x l -> exists r, In (r, x) (combine (seq a (length l)) l).
Proof.
  induction l as [|y l IH]; intros x a H; [destruct H|]. cbn. destruct H as [->|H].
  - exists a. left; auto.
  - destruct (IH x (S a) H) as [r Hr]. exists r. right; auto.
Qed.

Section P.
Context {K : StarRing}.
Add Ring Kr3 : (s_ring K).
Variable hs : string -> N.
Variable hi : Z -> N.
Variable hf : Z -> N.
Variable rt : K.
Variable iu : option K.
Notation accK := (@acc K).

Notation entry := (state1 * nat * K)%type.
Definition e_st (e : entry) : state1 := fst (fst e).
Definition tag (k : nat) (c : list (state1 * K)) : list entry := map (fun p => (fst p, k, snd p)) c.
Fixpoint flatten (k : nat) (cols : list (list (state1 * K))) : list entry :=
  match cols with [] => [] | c :: cs => tag k c ++ flatten (S k) cs end.

Lemma flatten_app : forall cs ds k, flatten k (cs ++ ds) = flatten k cs ++ flatten (k + length cs) ds.
Proof.
  induction cs as [|c cs IH]; intros; cbn [flatten app length]. { rewrite Nat.add_0_r. reflexivity. }
  rewrite IH, app_assoc. rewrite Nat.add_succ_r. reflexivity.
Qed.

Definition numbered (k : nat) (fl : list entry) : list (nat * nat * K) :=
  map (fun p => (fst p, snd (fst (snd p)), snd (snd p))) (combine (seq k (length fl)) fl).
Definition accF (fl : list entry) (idx : nat) (ht : list (nat * nat * K)) : accK :=
  Acc (combine (seq 0 (length fl)) (map e_st fl)) idx (numbered 0 fl) ht.

Definition fresh (st : state1) (fl : list entry) : Prop := forall e, In e fl -> eq1 (e_st e) st = false.

Lemma addB_fresh : forall fl idx ht st v, fresh st fl ->
  addBasisvectors st v (accF fl idx ht) = accF (fl ++ [(st, idx, v)]) idx ht.
Proof.
  intros fl idx ht st v F. unfold addBasisvectors, accF. cbn [a_tbl a_idx a_bt a_ht].
  destruct (tfind eq1 (combine (seq 0 (length fl)) (map e_st fl)) st) eqn:E.
  { apply tfind_some in E. destruct E as (s & Hin & E). apply in_combine_r in Hin.
    apply in_map_iff in Hin. destruct Hin as (e & <- & He). rewrite (F e He) in E. discriminate. }
  rewrite combine_length, seq_length, map_length, Nat.min_id. f_equal.
  - rewrite map_app. cbn [map]. pose proof (combine_seq_snoc (map e_st fl) st 0) as C.
    rewrite !app_length, map_length in *. cbn in *. rewrite C. reflexivity.
  - unfold numbered. pose proof (combine_seq_snoc fl (st, idx, v) 0) as C.
    rewrite C, map_app. reflexivity.
Qed.

Definition diag (es : list K) : list (nat * nat * K) :=
  map (fun p => (fst p, fst p, snd p)) (combine (seq 0 (length es)) es).
Definition accR (cols : list (list (state1 * K))) (es : list K) : accK :=
  accF (flatten 0 cols) (length cols) (diag es).

Lemma diag_snoc : forall es e, diag (es ++ [e]) = diag es ++ [(length es, length es, e)].
Proof. intros. unfold diag. rewrite combine_seq_snoc, map_app. reflexivity. Qed.

(** The symmetry that is used for a state. *)
Variable sref : parity.
Hypothesis srefNA : sref <> NA.
Definition eff (st : state1) : parity := if isArtificial st then NA else sref.

(** Column of a represented state. *)
Inductive colspec (st : state1) : list (state1 * K) -> Prop :=
| col_sole : alone st = true -> colspec st [(st, s1)]
| col_two : forall str i, isArtificial st = false -> 0 < m2 st -> getReflected hs hi hf st = Ok str -> iu = Some i ->
    colspec st [(st, rt); (str, smul rt (phase_of i sref st))].

Definition keep (st : state1) : bool := isArtificial st || (0 <=? m2 st).

Lemma step_sym : forall st e cols es a', length es = length cols ->
  addSymmetrized hs hi hf rt iu st e (eff st) (accR cols es) = (a', Ok tt) ->
  (keep st = true -> fresh st (flatten 0 cols)) ->
  (forall str, keep st = true -> getReflected hs hi hf st = Ok str -> 0 < m2 st -> fresh str (flatten 0 cols) /\ eq1 st str = false) ->
  if keep st then exists col, colspec st col /\ a' = accR (cols ++ [col]) (es ++ [e])
  else a' = accR cols es.
Proof.
  intros st e cols es a' Le H F1 F2. unfold eff in H. unfold keep in *. 
  assert (G1 : forall fl v, fresh st fl -> fl = flatten 0 cols ->
     Acc (a_tbl (addBasisvectors st v (accF fl (length cols) (diag es ++ [(length cols, length cols, e)]))))
       (S (a_idx (addBasisvectors st v (accF fl (length cols) (diag es ++ [(length cols, length cols, e)])))))
       (a_bt (addBasisvectors st v (accF fl (length cols) (diag es ++ [(length cols, length cols, e)]))))
       (a_ht (addBasisvectors st v (accF fl (length cols) (diag es ++ [(length cols, length cols, e)]))))
     = accR (cols ++ [[(st, v)]]) (es ++ [e])).
  { intros fl v F ->. rewrite addB_fresh by exact F. unfold accR. rewrite diag_snoc, flatten_app, app_length, Le.
    unfold tag. cbn [flatten tag map app length plus]. cbn [fst snd]. unfold accF. cbn [a_tbl a_idx a_bt a_ht].
    rewrite Nat.add_1_r. reflexivity. }
  destruct (isArtificial st) eqn:A; cbn [orb] in *.
  - exists [(st, s1)]. split. { apply col_sole. unfold alone. rewrite A. reflexivity. }
    unfold addSymmetrized in H. injection H as <-. apply (G1 (flatten 0 cols) s1); auto.
  - assert (getM2 st = Ok (m2 st)) as M by (unfold getM2, shouldBeArtificial; rewrite A; reflexivity).
    assert (H' : (if m2 st <? 0 then (accR cols es, Ok tt) else
        let a1 := Acc (a_tbl (accR cols es)) (a_idx (accR cols es)) (a_bt (accR cols es)) (a_ht (accR cols es) ++ [(a_idx (accR cols es), a_idx (accR cols es), e)]) in
        let v := if m2 st =? 0 then s1 else rt in
        let a2 := addBasisvectors st v a1 in
        if m2 st =? 0 then (Acc (a_tbl a2) (S (a_idx a2)) (a_bt a2) (a_ht a2), Ok tt)
        else match iu, getReflected hs hi hf st with
             | Some i, Ok str =>
                 let w := smul (smul v (smul (sgnZ (l st + (m2 st - j2 st) / 2)) i))
                               (match sref with EVEN => s1 | _ => sopp s1 end) in
                 let a3 := addBasisvectors str w a2 in
                 (Acc (a_tbl a3) (S (a_idx a3)) (a_bt a3) (a_ht a3), Ok tt)
             | _, _ => (a2, Throw)
             end) = (a', Ok tt)).
    { rewrite <- H. unfold addSymmetrized. destruct sref; try congruence; rewrite M; reflexivity. }
    clear H. cbv zeta in H'.
    change (Acc (a_tbl (accR cols es)) (a_idx (accR cols es)) (a_bt (accR cols es)) (a_ht (accR cols es) ++ [(a_idx (accR cols es), a_idx (accR cols es), e)]))
        with (accF (flatten 0 cols) (length cols) (diag es ++ [(length cols, length cols, e)])) in H'.
    destruct (Z.ltb_spec (m2 st) 0) as [L|L].
    + injection H' as <-. destruct (Z.leb_spec 0 (m2 st)); [lia|]. reflexivity.
    + assert (E0 : (0 <=? m2 st) = true) by (apply Z.leb_le; lia). rewrite E0 in *.
      destruct (Z.eqb_spec (m2 st) 0) as [Z|Z].
      * exists [(st, s1)]. split. { apply col_sole. unfold alone. rewrite Z. apply orb_true_r. }
        injection H' as <-. apply (G1 (flatten 0 cols) s1); auto.
      * destruct iu as [i|] eqn:Ei; [|discriminate].
        destruct (getReflected hs hi hf st) as [str| |] eqn:R; try discriminate.
        exists [(st, rt); (str, smul rt (phase_of i sref st))]. split.
        { apply col_two; auto. lia. }
        destruct (F2 str eq_refl eq_refl ltac:(lia)) as [F3 F4].
        apply pair_equal_spec in H'. destruct H' as [<- _]. rewrite (@addB_fresh (flatten 0 cols) _ _ st rt) by auto.
        rewrite (@addB_fresh _ _ _ str).
        2:{ intros x Hx. apply in_app_iff in Hx. destruct Hx as [Hx|[<-|[]]]; auto. }
        unfold accR. rewrite diag_snoc, flatten_app, app_length, Le, Nat.add_1_r, Nat.add_0_l.
        cbn [flatten tag map app length fst snd]. unfold accF at 1 2 3 4. cbn [a_tbl a_idx a_bt a_ht].
        rewrite <- app_assoc. cbn [app].
        replace (smul (smul rt (smul (sgnZ (l st + (m2 st - j2 st) / 2)) i)) match sref with EVEN => s1 | _ => sopp s1 end)
          with (smul rt (phase_of i sref st)); [reflexivity|].
        unfold phase_of, sgnZ. destruct sref; try congruence; ring.
Qed.

(** States that are represented. *)
Definition repok (st : state1) : Prop := keep st = true.
Definition valid_cols (reps : list state1) (cols : list (list (state1 * K))) : Prop := Forall2 colspec reps cols.

Lemma in_flatten : forall cols k e, In e (flatten k cols) <->
  exists c col v, nth_error cols c = Some col /\ In (e_st e, v) col /\ e = (e_st e, (k + c)%nat, v).
Proof.
  induction cols as [|c cols IH]; intros k e; cbn [flatten].
  - split; [intros []|]. intros (c & col & v & H & _). destruct c; discriminate.
  - rewrite in_app_iff, IH. split.
    + intros [H|H].
      * unfold tag in H. apply in_map_iff in H. destruct H as ([s v] & <- & H). exists 0%nat, c, v.
        cbn. rewrite Nat.add_0_r. auto.
      * destruct H as (c' & col & v & H1 & H2 & H3). exists (S c'), col, v. rewrite Nat.add_succ_r. auto.
    + intros (c' & col & v & H1 & H2 & H3). destruct c' as [|c'].
      * left. cbn in H1. injection H1 as <-. rewrite H3, Nat.add_0_r. unfold tag. apply in_map_iff. exists (e_st e, v). auto.
      * right. exists c', col, v. rewrite Nat.add_succ_r in H3. auto.
Qed.

Lemma refl_fields : forall st str, getReflected hs hi hf st = Ok str ->
  n st <> 0 /\ species str = species st /\ n str = n st /\ l str = l st /\ j2 str = j2 st /\ m2 str = - m2 st.
Proof.
  intros st str H. destruct (Z.eq_dec (n st) 0) as [E|E]. { rewrite getReflected_art in H by auto. discriminate. }
  rewrite getReflected_num in H by auto. apply mkOne_inv in H. tauto.
Qed.

Lemma col_states : forall st col s v, colspec st col -> In (s, v) col ->
  s = st \/ (isArtificial st = false /\ 0 < m2 st /\ getReflected hs hi hf st = Ok s).
Proof.
  intros st col s v C H. destruct C.
  - destruct H as [H|[]]. injection H as <- <-. auto.
  - destruct H as [H|[H|[]]]; injection H as <- <-; auto.
Qed.

Lemma valid_nth : forall reps cols c col, valid_cols reps cols -> nth_error cols c = Some col ->
  exists st, nth_error reps c = Some st /\ colspec st col.
Proof.
  intros reps cols c col V. revert c. induction V; intros c H'; destruct c; cbn in *; try discriminate.
  - injection H' as <-. eauto.
  - apply IHV. exact H'.
Qed.

Lemma eq1_n : forall a b, eq1 a b = true -> n a = n b.
Proof. intros a b H. apply eq1_iff in H. unfold same1 in H. tauto. Qed.

(** A new represented state and its mirror image are not in the table. *)
Lemma fresh_new : forall reps cols st, valid_cols reps cols -> Forall repok reps -> keep st = true ->
  (forall p, In p reps -> eq1 p st = false) ->
  fresh st (flatten 0 cols) /\
  forall str, getReflected hs hi hf st = Ok str -> 0 < m2 st -> fresh str (flatten 0 cols) /\ eq1 st str = false.
Proof.
  intros reps cols st V R K0 D. rewrite Forall_forall in R. split.
  - intros e He. apply in_flatten in He. destruct He as (c & col & v & H1 & H2 & _).
    destruct (valid_nth c V H1) as (p & Hp & C). apply nth_error_In in Hp.
    destruct (col_states _ _ C H2) as [->|(A & M & Re)]; [auto|].
    apply refl_fields in Re. destruct Re as (Nn & _ & En & _ & _ & Em).
    apply not_true_iff_false. intro E. apply eq1_iff in E. destruct E as (_ & E1 & _ & _ & E2).
    unfold keep, isArtificial in K0. apply orb_true_iff in K0. rewrite Z.eqb_eq, Z.leb_le in K0.
    destruct K0; lia.
  - intros str Rs Ms. apply refl_fields in Rs. destruct Rs as (Nn & Es & En & El & Ej & Em). split.
    + intros e He. apply in_flatten in He. destruct He as (c & col & v & H1 & H2 & _).
      destruct (valid_nth c V H1) as (p & Hp & C). apply nth_error_In in Hp.
      destruct (col_states _ _ C H2) as [->|(A & M & Re)].
      * apply not_true_iff_false. intro E. apply eq1_iff in E. destruct E as (_ & E1 & _ & _ & E2).
        specialize (R p Hp). unfold repok, keep, isArtificial in R. apply orb_true_iff in R. rewrite Z.eqb_eq, Z.leb_le in R.
        destruct R; lia.
      * apply refl_fields in Re. destruct Re as (Np & Eps & Epn & Epl & Epj & Epm).
        apply not_true_iff_false. intro E. apply eq1_iff in E. destruct E as (E0 & E1 & E2 & E3 & E4).
        specialize (D p Hp). apply not_true_iff_false in D. apply D. apply eq1_iff. unfold same1.
        repeat split; try congruence; lia.
    + apply not_true_iff_false. intro E. apply eq1_iff in E. destruct E as (_ & _ & _ & _ & E). lia.
Qed.

Definition good (reps : list state1) (cols : list (list (state1 * K))) (es : list K) : Prop :=
  valid_cols reps cols /\ Forall repok reps /\ distinct reps /\ length es = length reps.

Lemma good_len : forall reps cols es, good reps cols es -> length es = length cols.
Proof. intros reps cols es (V & _ & _ & L). rewrite L. clear - V. induction V; cbn; congruence. Qed.

Lemma distinct_snoc : forall reps st, distinct reps -> (forall p, In p reps -> eq1 p st = false) -> distinct (reps ++ [st]).
Proof.
  unfold distinct. induction reps as [|p reps IH]; intros st D H; cbn [app]. { constructor; constructor. }
  inversion D; subst. constructor.
  - apply Forall_app. split; auto. constructor; auto. apply H. left; auto.
  - apply IH; auto. intros; apply H; right; auto.
Qed.

Lemma step_good : forall st e reps cols es a', good reps cols es ->
  addSymmetrized hs hi hf rt iu st e (eff st) (accR cols es) = (a', Ok tt) ->
  (forall p, In p reps -> eq1 p st = false) ->
  exists cols', a' = accR cols' (es ++ if keep st then [e] else []) /\
    good (reps ++ if keep st then [st] else []) cols' (es ++ if keep st then [e] else []).
Proof.
  intros st e reps cols es a' G H D. pose proof (good_len G) as L. destruct G as (V & R & Ds & Le).
  assert (F : keep st = true -> fresh st (flatten 0 cols) /\
     forall str, getReflected hs hi hf st = Ok str -> 0 < m2 st -> fresh str (flatten 0 cols) /\ eq1 st str = false).
  { intros K0. eapply fresh_new; eauto. }
  pose proof (@step_sym st e cols es a' L H) as S.
  assert (S' := S (fun k => proj1 (F k)) (fun str k => proj2 (F k) str)). clear S.
  destruct (keep st) eqn:K0.
  - destruct S' as (col & C & ->). exists (cols ++ [col]). split; [reflexivity|].
    refine (conj _ (conj _ (conj _ _))).
    + apply Forall2_app; auto.
    + apply Forall_app; auto.
    + apply distinct_snoc; auto.
    + rewrite !app_length, Le. reflexivity.
  - subst a'. exists cols. rewrite !app_nil_r. split; [reflexivity|]. refine (conj _ (conj _ (conj _ _))); auto.
Qed.

Variable energy : string -> Z -> Z -> Z -> res K.
Variable sp : string.
Variable srot : option (list Z).
Variable rq : @request K state1.
Notation doit := (do_item hs hi hf rt iu sp sref srot rq).
Notation itemsK := (items energy sp srot rq).
Notation stof := (st_of hs hi hf sp).

Lemma eff_one : forall nn ll jj mm st, mkOne hs hi hf sp nn ll jj mm = Ok st -> eff st = sref.
Proof.
  intros nn ll jj mm st H. apply mkOne_inv in H. destruct H as (N & _ & E & _). unfold eff, isArtificial.
  rewrite E. apply Z.eqb_neq in N. rewrite N. reflexivity.
Qed.

Lemma loop_items : forall its reps cols es a' l',
  good reps cols es -> loop doit its (accR cols es) = (a', Ok tt) ->
  map stof its = map Ok l' -> distinct (map fst l') ->
  (forall p q, In p reps -> In q (map fst l') -> eq1 p q = false) ->
  exists cols', let new := filter (fun p => keep (fst p)) l' in
    a' = accR cols' (es ++ map snd new) /\ good (reps ++ map fst new) cols' (es ++ map snd new).
Proof.
  induction its as [|i its IH]; intros reps cols es a' l' G H E Dl D.
  - destruct l'; [|discriminate]. cbn in *. injection H as <-. exists cols. rewrite !app_nil_r. auto.
  - destruct l' as [|[st e] l']; [discriminate|]. cbn [map] in E. injection E as E1 E2.
    destruct i as [| |nn ll jj mm e0]; try discriminate. cbn in E1.
    destruct (mkOne hs hi hf sp nn ll jj mm) as [s| |] eqn:Em; try discriminate. injection E1 as -> ->.
    cbn [loop] in H. destruct (doit (IV nn ll jj mm e) (accR cols es)) as [a1 [[]| |]] eqn:Hd; try discriminate.
    assert (Hs : addSymmetrized hs hi hf rt iu st e (eff st) (accR cols es) = (a1, Ok tt)).
    { rewrite (eff_one _ _ _ _ Em). unfold do_item in Hd. rewrite Em in Hd.
      destruct sref; [exact Hd| |]; destruct (negb (mm =? 0) && _); try discriminate; exact Hd. }
    cbn [map fst] in *.
    destruct (@step_good st e reps cols es a1 G Hs) as (cols1 & -> & G1).
    { intros p Hp. apply D; auto. left; auto. }
    inversion Dl as [|? ? D1 D2]; subst. rewrite Forall_forall in D1.
    destruct (IH _ _ _ _ _ G1 H E2 D2) as (cols' & A & B).
    { intros p q Hp Hq. apply in_app_iff in Hp. destruct Hp as [Hp|Hp].
      - apply D; auto. right; auto.
      - destruct (keep st); [destruct Hp as [<-|[]]|destruct Hp]. auto. }
    exists cols'. cbv zeta. cbn [filter fst]. destruct (keep st); cbn [map fst snd].
    + rewrite <- (app_assoc es) in A, B. rewrite <- (app_assoc reps) in B. split; [exact A | exact B].
    + rewrite (app_nil_r es) in A, B. rewrite (app_nil_r reps) in B. split; [exact A | exact B].
Qed.

Lemma check_same : forall st (a a' : accK) r, check_added sp st a = (a', r) -> a' = a.
Proof.
  intros st a a' r H. unfold check_added in H. destruct (tfind eq1 (a_tbl a) st); [congruence|].
  destruct (negb _ && _); congruence.
Qed.
Lemma loop_check_ok : forall ll (a a' : accK), loop (check_added sp) ll a = (a', Ok tt) -> a' = a /\
  forall st, In st ll -> tfind eq1 (a_tbl a) st = None /\ (isArtificial st = true \/ species st = sp).
Proof.
  induction ll as [|st ll IH]; intros a a' H; cbn in H. { split; [congruence|intros ? []]. }
  destruct (check_added sp st a) as [a1 [[]| |]] eqn:E; try discriminate. pose proof (check_same _ _ E) as ->.
  destruct (IH _ _ H) as [-> I]. split; auto. intros s [<-|Hs]; auto.
  unfold check_added in E. destruct (tfind eq1 (a_tbl a) st); [discriminate|]. split; auto.
  destruct (isArtificial st); auto. cbn in E. destruct (String.eqb_spec (species st) sp); auto. discriminate.
Qed.

Definition aenergy (st : state1) : K :=
  if isArtificial st then s0
  else match energy (species st) (n st) (l st) (j2 st) with Ok e => e | _ => s0 end.

Lemma loop_adds : forall ll reps cols es a',
  good reps cols es -> loop (add_one hs hi hf rt iu energy sref srot rq) ll (accR cols es) = (a', Ok tt) ->
  distinct ll -> (forall p q, In p reps -> In q ll -> eq1 p q = false) ->
  exists cols', let new := filter (fun st => passes srot st && keep st) ll in
    a' = accR cols' (es ++ map aenergy new) /\ good (reps ++ new) cols' (es ++ map aenergy new).
Proof.
  induction ll as [|st ll IH]; intros reps cols es a' G H Dl D.
  - cbn in H. injection H as <-. exists cols. cbn. rewrite !app_nil_r. auto.
  - cbn [loop] in H. destruct (add_one hs hi hf rt iu energy sref srot rq st (accR cols es)) as [a1 [[]| |]] eqn:Ha; try discriminate.
    inversion Dl as [|? ? D1 D2]; subst. rewrite Forall_forall in D1.
    assert (Q : exists cols1, a1 = accR cols1 (es ++ if passes srot st && keep st then [aenergy st] else []) /\
       good (reps ++ if passes srot st && keep st then [st] else []) cols1 (es ++ if passes srot st && keep st then [aenergy st] else [])).
    { unfold add_one in Ha. change (if isArtificial st then NA else sref) with (eff st) in Ha.
      assert (Hp : (if match (if isArtificial st then None else srot) with None => false | Some ms => negb (existsb (Z.eqb (m2 st)) ms) end then true else false) = negb (passes srot st)).
      { unfold passes. destruct (isArtificial st); cbn; auto. destruct srot; auto. destruct (negb _); reflexivity. }
      destruct (if isArtificial st then Ok s0 else energy (species st) (n st) (l st) (j2 st)) as [e| |] eqn:Ee; try discriminate.
      assert (aenergy st = e) as <-.
      { unfold aenergy. destruct (isArtificial st); [congruence|]. rewrite Ee. reflexivity. }
      destruct (match (if isArtificial st then None else srot) with None => false | Some ms => negb (existsb (Z.eqb (m2 st)) ms) end).
      - symmetry in Hp. apply negb_true_iff in Hp. rewrite Hp. cbn [andb]. injection Ha as <-. exists cols. rewrite !app_nil_r. auto.
      - symmetry in Hp. apply negb_false_iff in Hp. rewrite Hp. cbn [andb].
        assert (Hs : addSymmetrized hs hi hf rt iu st (aenergy st) (eff st) (accR cols es) = (a1, Ok tt)).
        { destruct (eff st); auto; destruct (negb (m2 st =? 0)); auto;
          destruct (getReflected hs hi hf st); try discriminate; destruct (existsb _ _); try discriminate; auto. }
        apply (@step_good st (aenergy st) reps cols es a1 G Hs). intros p Hp'. apply D; auto. left; auto. }
    destruct Q as (cols1 & -> & G1).
    destruct (IH _ _ _ _ G1 H D2) as (cols' & A & B).
    { intros p q Hp Hq. apply in_app_iff in Hp. destruct Hp as [Hp|Hp].
      - apply D; auto. right; auto.
      - destruct (passes srot st && keep st); [destruct Hp as [<-|[]]|destruct Hp]. auto. }
    exists cols'. cbv zeta. cbn [filter]. destruct (passes srot st && keep st); cbn [map].
    + rewrite <- (app_assoc es) in A, B. rewrite <- (app_assoc reps) in B. split; [exact A | exact B].
    + rewrite (app_nil_r es) in A, B. rewrite (app_nil_r reps) in B. split; [exact A | exact B].
Qed.

(** The result of initializeBasis. *)
Lemma init_refl : forall s2 tbl b h,
  spin2 sp = Ok s2 -> sets_ok srot rq -> distinct (rq_add rq) ->
  initBasis1 hs hi hf rt iu energy sp sref srot rq = (tbl, Ok (b, h)) ->
  exists cols, let reps := map fst (filter (fun p => keep (fst p)) (built hs hi hf energy sp srot rq s2))
                            ++ filter (fun st => passes srot st && keep st) (rq_add rq) in
    let es := map snd (filter (fun p => keep (fst p)) (built hs hi hf energy sp srot rq s2))
                            ++ map aenergy (filter (fun st => passes srot st && keep st) (rq_add rq)) in
    good reps cols es /\ tbl = a_tbl (accR cols es) /\
    b = mtrip (length tbl) (length cols) (a_bt (accR cols es)) /\
    h = mtrip (length cols) (length cols) (diag es) /\
    noEx energy sp srot rq s2 /\
    (forall nn ll jj mm e, In (IV nn ll jj mm e) (itemsK s2) -> mm = 0 \/ In (- mm) (allowed_m srot rq jj)) /\
    (forall st, In st (rq_add rq) -> isArtificial st = true \/ exists e, energy (species st) (n st) (l st) (j2 st) = Ok e).
Proof.
  intros s2 tbl b h Hs So Da H. unfold initBasis1 in H.
  destruct (is_nil (rg_n (rq_rg rq))); [discriminate|]. rewrite Hs, loop_n_items in H.
  change (Acc [] 0 [] []) with (accR [] []) in H.
  destruct (loop doit (itemsK s2) (accR [] [])) as [a1 [[]| |]] eqn:L1; [|discriminate|discriminate].
  assert (HE : noEx energy sp srot rq s2).
  { assert (forall its a a', loop doit its a = (a', Ok tt) -> ~ In ITh its /\ ~ In IUB its) as Q.
    { induction its as [|i its IH]; intros a a' HL; [split; intros []|]. cbn [loop] in HL.
      destruct (doit i a) as [a2 [[]| |]] eqn:Ed; try discriminate.
      destruct (IH _ _ HL) as [Q1 Q2]. split; intros [->|Hi]; auto; cbn in Ed; discriminate. }
    exact (Q _ _ _ L1). }
  assert (G0 : good [] [] []).
  { refine (conj _ (conj _ (conj _ _))); constructor. }
  destruct (@loop_items (itemsK s2) [] [] [] a1 (built hs hi hf energy sp srot rq s2) G0 L1) as (cols1 & A1 & G1).
  { apply built_map; auto. } { apply built_distinct; auto. } { intros p q []. }
  cbn [app] in A1, G1.
  destruct (loop (check_added sp) (rq_add rq) a1) as [a2 [[]| |]] eqn:L2; [|discriminate|discriminate].
  apply loop_check_ok in L2. destruct L2 as [-> C]. rewrite A1 in *.
  destruct (loop (add_one hs hi hf rt iu energy sref srot rq) (rq_add rq) _) as [a3 [[]| |]] eqn:L3; [|discriminate|discriminate].
  destruct (@loop_adds (rq_add rq) _ _ _ a3 G1 L3 Da) as (cols2 & A3 & G3).
  { intros p q Hp Hq. destruct (C q Hq) as [N _].
    (* p is in the table *)
    destruct G1 as (V & _).
    destruct (In_nth_error _ _ Hp) as [k Hk].
    assert (exists col, nth_error cols1 k = Some col /\ colspec p col) as (col & Hc & Cs).
    { clear - V Hk. revert k Hk. induction V; intros k Hk; destruct k; cbn in *; try discriminate.
      - injection Hk as <-. eauto. - apply IHV. exact Hk. }
    assert (exists v, In (p, v) col) as [v Hv] by (destruct Cs; eexists; left; reflexivity).
    assert (Hin : In (p, k, v) (flatten 0 cols1)).
    { apply in_flatten. exists k, col, v. cbn. auto. }
    apply (in_map e_st) in Hin. cbn [e_st fst] in Hin.
    destruct (@in_combine_seq _ (map e_st (flatten 0 cols1)) p 0%nat Hin) as [r Hr].
    apply (@tfind_none _ eq1 _ _ N r). cbn [accR accF a_tbl]. rewrite map_length in Hr. exact Hr. }
  exists cols2. cbv zeta. split; [exact G3|]. rewrite A3 in H. cbn [fst snd] in H.
  injection H as <- <- <-. split; [reflexivity|]. split; [reflexivity|]. split; [reflexivity|]. split; [exact HE|]. split.
  - assert (forall its a a', loop doit its a = (a', Ok tt) -> forall nn ll jj mm e, In (IV nn ll jj mm e) its -> mm = 0 \/ In (- mm) (allowed_m srot rq jj)) as Q.
    { induction its as [|i its IH]; intros a a' HL nn ll jj mm e Hi; [destruct Hi|]. cbn [loop] in HL.
      destruct (doit i a) as [a2 [[]| |]] eqn:Ed; try discriminate. destruct Hi as [->|Hi]; [|eapply IH; eauto].
      unfold do_item in Ed. destruct (mkOne hs hi hf sp nn ll jj mm); try discriminate.
      destruct (Z.eqb_spec mm 0) as [Ez|Ez]; [left; auto|]. right.
      destruct (existsb (Z.eqb (- mm)) (allowed_m srot rq jj)) eqn:Ex.
      - apply existsb_exists in Ex. destruct Ex as (x & Hx & Hxe). apply Z.eqb_eq in Hxe. rewrite Hxe. exact Hx.
      - cbn [negb andb] in Ed. destruct sref; [congruence|discriminate|discriminate]. }
    intros. eapply Q; eauto.
  - assert (forall ll a a', loop (add_one hs hi hf rt iu energy sref srot rq) ll a = (a', Ok tt) -> forall st, In st ll ->
       isArtificial st = true \/ exists e, energy (species st) (n st) (l st) (j2 st) = Ok e) as Q.
    { induction ll as [|i ll IH]; intros a a' HL st Hi; [destruct Hi|]. cbn [loop] in HL.
      destruct (add_one hs hi hf rt iu energy sref srot rq i a) as [a2 [[]| |]] eqn:Ed; try discriminate. destruct Hi as [->|Hi]; [|eapply IH; eauto].
      unfold add_one in Ed. destruct (isArtificial st); [left; auto|]. right.
      destruct (energy (species st) (n st) (l st) (j2 st)); try discriminate. eauto. }
    exact (Q _ _ _ L3).
Qed.
End P.
