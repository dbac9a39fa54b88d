(** SystemTwo::initializeBasis with states added by the user: the basis is extended. *)
From Coq Require Import ZArith Lia Bool String Arith List.
Import ListNotations.
From Verif Require Import Base StateModel StateProofs Matrix LookupModel LookupProofs SystemModel RangeModel BasisProofs
  SystemProofs OverlapProofs OverlapProofs2 PairModel PairSpec PairProofs PairProofs2 PairProofs3 PairProofs4 UserSpec PairProofs7.
Set Implicit Arguments.
Local Open Scope nat_scope.
Local Open Scope list_scope.

Lemma distinct2_app_inv : forall a b, distinct2 (a ++ b) -> distinct2 a /\ distinct2 b /\ forall x y, In x a -> In y b -> eq2 x y = false.
Proof.
  induction a as [|x a IH]; intros b D; [split; [constructor|split; auto]; intros x y []|]. inversion D as [|? ? F D']; subst. destruct (IH _ D') as (A & B & C).
  rewrite Forall_forall in F. split; [|split; auto].
  - constructor; auto. apply Forall_forall. intros y Hy. apply F, in_app_iff. auto.
  - intros u y [<-|Hu] Hy; auto. apply F, in_app_iff. auto.
Qed.

(** ** Conditions of the code and of the specification *)
Section Bridge.
Variables sinv sperm : parity.
Variable srot : option (list Z).
Lemma art2_iff : forall x, art2 x = false <-> atomic x.
Proof. intros x. unfold art2, atomic. apply orb_false_iff. Qed.
Lemma art2_true : forall x, art2 x = true <-> ~ atomic x.
Proof. intros x. rewrite <- art2_iff. destruct (art2 x); split; congruence. Qed.
Lemma neq_eq : forall x, neq1 (fst1 x) (snd1 x) = negb (eq1 (fst1 x) (snd1 x)).
Proof. intros. apply neq1_negb. Qed.
Lemma isS_iff : forall p, isS p = true <-> p <> NA.
Proof. destruct p; cbn; split; congruence. Qed.

Lemma exch_iff : forall x s, exchange_sign sinv sperm x s <-> exch2 sinv sperm x = true /\ s = sX2 sinv sperm x.
Proof.
  intros x s. unfold exchange_sign, exch2, sX2, linv2. rewrite neq_eq. destruct (art2 x) eqn:A.
  - apply art2_true in A. cbn [isS orb]. split.
    + intros (E & [(H1 & H2 & _)|(_ & H2 & ->)]); [contradiction|]. rewrite E. split; [|reflexivity]. apply andb_true_iff. split; auto. apply isS_iff; auto.
    + intros (E & ->). apply andb_true_iff in E. destruct E as [E1 E2]. apply isS_iff in E1. split; [destruct (eq1 _ _); auto; discriminate|]. right. auto.
  - apply art2_iff in A. split.
    + intros (E & [(H1 & H2 & ->)|(H1 & H2 & ->)]); rewrite E.
      * assert (S : isS sinv = true) by (apply isS_iff; auto). rewrite S. split; [reflexivity|]. unfold sign_inv, sgn_inv, pm. destruct sinv; reflexivity || congruence.
      * destruct H1 as [->|H1]; [|contradiction]. cbn. split; [|reflexivity]. rewrite andb_true_r. apply isS_iff; auto.
    + intros (E & ->). apply andb_true_iff in E. destruct E as [E1 E2]. split; [destruct (eq1 _ _); auto; discriminate|].
      destruct sinv; cbn in *; [right|left|left]; repeat split; auto; try congruence; try (apply A); try (apply isS_iff in E1; auto).
Qed.

Lemma lt_swap : forall a b, eq1 a b = false -> (lt1 a b = false <-> lt1 b a = true).
Proof. intros a b E. destruct (lt1_trichotomy a b) as [(->&_&->)|[(_&Q&_)|(->&_&->)]]; [|congruence|]; split; congruence. Qed.

Lemma rot_iff : forall x, rot2 srot x = true <-> (atomic x -> forall ms, srot = Some ms -> In (Z.quot (m2 (fst1 x) + m2 (snd1 x)) 2) ms).
Proof.
  intros x. unfold rot2. destruct (art2 x) eqn:A.
  - apply art2_true in A. split; auto. intros _ Q. contradiction.
  - apply art2_iff in A. destruct srot as [ms|]; [|split; auto; intros; discriminate]. split.
    + intros E _ ms' Q. injection Q as <-. apply existsb_exists in E. destruct E as (z & Hz & Ez). apply Z.eqb_eq in Ez. congruence.
    + intros H. apply existsb_exists. eexists. split; [apply (H A _ eq_refl)|]. apply Z.eqb_refl.
Qed.
Lemma agree_iff : forall x, agree2 sinv sperm x = true <->
  (sinv <> NA -> atomic x -> sperm <> NA -> eq1 (fst1 x) (snd1 x) = false -> sign_inv sinv x = sign_perm sperm).
Proof.
  intros x. unfold agree2, linv2. rewrite neq_eq. destruct (art2 x) eqn:A.
  - apply art2_true in A. cbn. split; auto; intros; contradiction.
  - apply art2_iff in A. rewrite negb_true_iff, !andb_false_iff, !negb_false_iff.
    assert (X : sgn_inv sinv (pm (l (fst1 x) + l (snd1 x))) = sign_inv sinv x) by (unfold sgn_inv, sign_inv, pm; destruct sinv; reflexivity).
    rewrite X. change (sgn_perm sperm) with (sign_perm sperm). rewrite Z.eqb_eq. split.
    + intros H I _ P E. destruct H as [[[H|H]|H]|H]; auto; [apply isS_iff in I; congruence|apply isS_iff in P; congruence|congruence].
    + intros H. destruct (isS sinv) eqn:I; auto. destruct (isS sperm) eqn:P; auto. destruct (eq1 (fst1 x) (snd1 x)) eqn:E; auto.
      right. apply H; auto; apply isS_iff; auto.
Qed.
Lemma skip_iff : forall x, skip2 sinv sperm x = false <->
  ((eq1 (fst1 x) (snd1 x) = true -> (sinv = EVEN -> ~ atomic x) /\ sperm <> EVEN) /\
   (forall s, exchange_sign sinv sperm x s -> lt1 (snd1 x) (fst1 x) = true)).
Proof.
  intros x. unfold skip2, le1. destruct (eq1 (fst1 x) (snd1 x)) eqn:E.
  - assert (L : lt1 (fst1 x) (snd1 x) = false) by (destruct (lt1_trichotomy (fst1 x) (snd1 x)) as [(_&Q&_)|[(Q&_)|(Q&_)]]; congruence).
    rewrite L. cbn [orb]. unfold linv2. destruct (art2 x) eqn:A.
    + apply art2_true in A. cbn. split.
      * intros H. split; [|intros s (Q & _); congruence]. intros _. split; auto. intros ->. discriminate.
      * intros (H & _). destruct (H eq_refl) as [_ P]. destruct sperm; auto; congruence.
    + apply art2_iff in A. split.
      * intros H. split; [|intros s (Q & _); congruence]. intros _. split; [intros ->; discriminate|]. intros ->. destruct sinv; discriminate.
      * intros (H & _). destruct (H eq_refl) as [I P]. destruct sinv; [|exfalso; apply I; auto|]; destruct sperm; auto; congruence.
  - rewrite orb_false_r. assert (X : skipped (linv2 sinv x) sperm (lt1 (fst1 x) (snd1 x)) (lt1 (fst1 x) (snd1 x)) = exch2 sinv sperm x && lt1 (fst1 x) (snd1 x)).
    { unfold exch2. rewrite neq_eq, E. cbn [negb]. rewrite andb_true_r. unfold skipped. destruct (linv2 sinv x), sperm, (lt1 (fst1 x) (snd1 x)); reflexivity. }
    rewrite X. split.
    + intros H. split; [congruence|]. intros s Hs. apply exch_iff in Hs. destruct Hs as [Hs _]. rewrite Hs in H. apply lt_swap in H; auto.
    + intros (_ & H). destruct (exch2 sinv sperm x) eqn:EX; auto. cbn. apply lt_swap; auto. apply (H (sX2 sinv sperm x)). apply exch_iff. auto.
Qed.
Lemma sel_iff : forall x, sel2 sinv sperm srot x = true <-> stands sinv sperm srot x.
Proof.
  intros x. unfold sel2, stands. rewrite !andb_true_iff, negb_true_iff, rot_iff, agree_iff, skip_iff. tauto.
Qed.
End Bridge.

Section Users2.
Context {K : StarRing}.
Add Ring Kr16 : (s_ring K).
Local Open Scope star_scope.
Variable rt : K.
Variable energy : state1 -> res K.
Variables sinv sperm : parity.
Variable srot : option (list Z).
Notation acc := (@acc2 K).
Notation ex := (exch2 sinv sperm).
Notation sel := (sel2 sinv sperm srot).
Notation new := (unew sinv sperm).
Notation uc := (ucol rt sinv sperm).

Lemma energy_iff : forall x e, user_energy energy x = Ok e <-> pair_energy energy x e.
Proof.
  intros x e. unfold user_energy, pair_energy, atom_energy. split.
  - intros H. destruct (isArtificial (fst1 x)).
    + cbn [bind] in H. destruct (isArtificial (snd1 x)).
      * cbn [bind] in H. injection H as <-. exists 0, 0. auto.
      * destruct (energy (snd1 x)) as [e2| |]; try discriminate. injection H as <-. exists 0, e2. auto.
    + destruct (energy (fst1 x)) as [e1| |]; try discriminate. cbn [bind] in H. destruct (isArtificial (snd1 x)).
      * cbn [bind] in H. injection H as <-. exists e1, 0. auto.
      * destruct (energy (snd1 x)) as [e2| |]; try discriminate. injection H as <-. exists e1, e2. auto.
  - intros (e1 & e2 & H1 & H2 & ->). destruct (isArtificial (fst1 x)), (isArtificial (snd1 x)); subst; rewrite ?H1, ?H2; reflexivity.
Qed.
Definition en2 (x : state2) : K := match user_energy energy x with Ok e => e | _ => 0 end.

Lemma uplan_iff : forall rq x, (exists o, uplan energy sinv sperm srot rq x = Ok o) <->
  (exists e, pair_energy energy x e) /\ has_partner sinv sperm srot (rq_add rq) x.
Proof.
  intros rq x. unfold uplan. split.
  - intros (o & H). destruct (user_energy energy x) as [e| |] eqn:E; try discriminate. cbn [bind] in H. split; [exists e; apply energy_iff; auto|].
    intros s Hs R A. apply exch_iff in Hs. destruct Hs as [Hs ->]. rewrite Hs in H.
    assert (R' : rot2 srot x = true) by (apply rot_iff; auto). assert (A' : agree2 sinv sperm x = true) by (apply agree_iff; auto).
    rewrite R', A' in H. cbn [andb] in H. destruct (partner2 rq x) eqn:P; [|discriminate]. unfold partner2 in P. apply existsb_exists in P. exact P.
  - intros ((e & E) & P). apply energy_iff in E. rewrite E. cbn [bind]. destruct (rot2 srot x) eqn:R; [|cbn; eauto]. destruct (agree2 sinv sperm x) eqn:A; [|cbn; eauto].
    cbn [andb]. destruct (ex x) eqn:X; [|cbn; eauto]. assert (PP : partner2 rq x = true).
    { apply existsb_exists. apply (P (sX2 sinv sperm x)).
      - apply exch_iff. auto.
      - apply rot_iff. auto.
      - intros. apply (proj1 (agree_iff sinv sperm x)); auto. unfold exch2 in X. rewrite neq_eq in X. apply andb_true_iff in X. destruct (eq1 _ _); auto. destruct X; discriminate. }
    rewrite PP. cbn. eauto.
Qed.

Lemma uplan_val : forall rq x o, uplan energy sinv sperm srot rq x = Ok o -> o = if sel x then Some (en2 x) else None.
Proof.
  intros rq x o H. unfold uplan, sel2, en2 in *. destruct (user_energy energy x) as [e| |]; try discriminate. cbn [bind] in H.
  destruct (rot2 srot x && agree2 sinv sperm x); [|injection H as <-; reflexivity]. destruct (ex x && _); [discriminate|]. injection H as <-. cbn [andb].
  destruct (skip2 sinv sperm x); reflexivity.
Qed.

(** ** Adding fresh states *)
Lemma tfind_fresh : forall (tbl : list (nat * state2)) x, (forall y, In y (map snd tbl) -> eq2 y x = false) -> tfind eq2 tbl x = None.
Proof.
  intros tbl x H. unfold tfind. destruct (find _ tbl) as [e|] eqn:F; auto. apply find_some in F. destruct F as [F1 F2]. rewrite H in F2; [discriminate|]. apply in_map; auto.
Qed.
Lemma addAll_fresh : forall es (c : acc), distinct2 (map snd (p_tbl c) ++ map fst es) ->
  (length (map snd (p_tbl c) ++ map fst es) <= length (p_sq c))%nat ->
  exists c', addAll es c = (c', Ok tt) /\ map snd (p_tbl c') = map snd (p_tbl c) ++ map fst es.
Proof.
  induction es as [|[x v] es IH]; intros c D L.
  - exists c. cbn. rewrite app_nil_r. auto.
  - cbn [map fst] in *. destruct (distinct2_app_inv _ _ D) as (_ & _ & X).
    assert (F : tfind eq2 (p_tbl c) x = None) by (apply tfind_fresh; intros y Hy; apply X; cbn; auto).
    unfold addAll. cbn [loop2 fst snd]. unfold addB at 1. rewrite F.
    assert (B : Nat.ltb (length (p_tbl c)) (length (p_sq c)) = true).
    { apply Nat.ltb_lt. rewrite app_length, map_length in L. cbn in L. clear - L. lia. }
    rewrite B. match goal with |- context [loop2 _ es ?c1] => destruct (IH c1) as (c' & E & T) end.
    + cbn [p_tbl]. rewrite map_app, <- app_assoc. exact D.
    + cbn [p_tbl p_sq]. rewrite map_app, <- app_assoc, upd_length. exact L.
    + exists c'. split; [exact E|]. rewrite T. cbn [p_tbl]. rewrite map_app, <- app_assoc. reflexivity.
Qed.

Lemma user_loop : forall rq cap xs (c : acc) cols ens, reached cap cols ens c ->
  (forall x, In x xs -> exists o, uplan energy sinv sperm srot rq x = Ok o) ->
  distinct2 (map snd (p_tbl c) ++ flat_map new (filter sel xs)) ->
  (length (map snd (p_tbl c) ++ flat_map new (filter sel xs)) <= cap)%nat ->
  exists c', loop2 (user_step rt energy sinv sperm srot rq) xs c = (c', Ok tt) /\
    reached cap (cols ++ map uc (filter sel xs)) (ens ++ map en2 (filter sel xs)) c' /\
    map snd (p_tbl c') = map snd (p_tbl c) ++ flat_map new (filter sel xs).
Proof.
  intros rq cap. induction xs as [|x xs IH]; intros c cols ens R P D L.
  - exists c. cbn. rewrite !app_nil_r. auto.
  - cbn [loop2 filter]. rewrite user_step_eq. destruct (P x (or_introl eq_refl)) as (o & Ho). rewrite Ho. apply uplan_val in Ho. subst o.
    assert (P' : forall y, In y xs -> exists o, uplan energy sinv sperm srot rq y = Ok o) by (intros; apply P; right; auto).
    cbn [filter] in D, L. destruct (sel x) eqn:S.
    + cbn [flat_map] in D, L. pose proof R as (I & PC & LE & PH & LT). rewrite <- ucol_states with (rt := rt) in D, L.
      destruct (@addAll_fresh (uc x) (next (en2 x) c)) as (c1 & E1 & T1).
      { cbn [next p_tbl]. rewrite app_assoc in D. apply (distinct2_app_inv _ _ D). }
      { cbn [next p_tbl p_sq]. rewrite (i_cap I). rewrite app_assoc, app_length in L. clear - L. lia. }
      rewrite E1. cbn [next p_tbl] in T1.
      destruct (@addAll_keeps K cap (uc x) (flatten 0 cols) (next (en2 x) c) c1) as (I1 & C1 & H1 & L1 & _); auto.
      { apply inv_frame. exact I. }
      assert (R1 : reached cap (cols ++ [uc x]) (ens ++ [en2 x]) (closecol c1)) by (eapply reached_col; eauto).
      destruct (IH (closecol c1) _ _ R1 P') as (c' & E' & R' & T').
      { cbn [closecol p_tbl]. rewrite T1, <- app_assoc. exact D. }
      { cbn [closecol p_tbl]. rewrite T1, <- app_assoc. exact L. }
      exists c'. split; [exact E'|]. split.
      * cbn [map]. rewrite <- !app_assoc in R'. exact R'.
      * rewrite T'. cbn [closecol p_tbl flat_map]. rewrite T1, <- app_assoc, ucol_states. reflexivity.
    + apply IH; auto.
Qed.

(** ** The new states are different *)
Lemma eq2_swapped : forall x y, eq2 (swapped x) (swapped y) = eq2 x y.
Proof. intros x y. unfold swapped, eq2. cbn. apply andb_comm. Qed.
Lemma eq2_iff : forall x y, eq2 x y = true <-> eq1 (fst1 x) (fst1 y) = true /\ eq1 (snd1 x) (snd1 y) = true.
Proof. intros. unfold eq2. apply andb_true_iff. Qed.
Lemma exch_own : forall y, ex y = true -> eq2 y (swapped y) = false /\ eq2 (swapped y) y = false.
Proof.
  intros y H. unfold exch2 in H. rewrite neq_eq in H. apply andb_true_iff in H. destruct H as [_ H].
  assert (A : eq2 y (swapped y) = false). { unfold eq2, swapped. cbn. destruct (eq1 (fst1 y) (snd1 y)); [discriminate|reflexivity]. }
  split; auto. rewrite eq2_sym. auto.
Qed.
Lemma sel_lt : forall y, sel y = true -> ex y = true -> lt1 (snd1 y) (fst1 y) = true.
Proof. intros y S X. apply sel_iff in S. destruct S as (_ & _ & _ & S). apply (S (sX2 sinv sperm y)). apply exch_iff. auto. Qed.
Lemma sel_partner : forall y z, sel y = true -> sel z = true -> ex y = true -> eq2 (swapped y) z = false.
Proof.
  intros y z Sy Sz Xy. destruct (eq2 (swapped y) z) eqn:E; auto. exfalso. apply eq2_iff in E. cbn in E. destruct E as [E1 E2].
  apply eq1_iff in E1, E2. pose proof (sel_lt _ Sy Xy) as L.
  assert (A : art2 z = art2 y). { unfold art2, isArtificial. destruct E1 as (_ & -> & _). destruct E2 as (_ & -> & _). apply orb_comm. }
  assert (Xz : ex z = true).
  { unfold exch2, linv2 in *. rewrite A. apply andb_true_iff in Xy. destruct Xy as [-> Xy]. cbn. rewrite neq_eq in *. apply negb_true_iff. apply negb_true_iff in Xy.
    destruct (eq1 (fst1 z) (snd1 z)) eqn:Q; auto. rewrite <- Xy. symmetry. apply eq1_iff in Q. apply eq1_iff. unfold same1 in *. intuition congruence. }
  pose proof (sel_lt _ Sz Xz) as M. rewrite <- (@same1_lt_l _ _ (fst1 z) E2) in M. rewrite <- (@same1_lt_r _ _ (fst1 y) E1) in M.
  destruct (lt1_trichotomy (fst1 y) (snd1 y)) as [(_&_&Q)|[(Q&_&_)|(Q&_&_)]]; congruence.
Qed.

Lemma in_new : forall y z, In z (new y) <-> z = y \/ (ex y = true /\ z = swapped y).
Proof. intros y z. unfold unew. destruct (ex y); cbn; intuition congruence. Qed.

Lemma new_apart : forall y z a b, sel y = true -> sel z = true -> eq2 y z = false -> In a (new y) -> In b (new z) -> eq2 a b = false.
Proof.
  intros y z a b Sy Sz N Ha Hb. apply in_new in Ha, Hb. destruct Ha as [->|[Xy ->]], Hb as [->|[Xz ->]]; auto.
  - rewrite eq2_sym. apply sel_partner; auto.
  - apply sel_partner; auto.
  - rewrite eq2_swapped. auto.
Qed.
Lemma new_distinct1 : forall y, distinct2 (new y).
Proof.
  intros y. unfold unew. destruct (ex y) eqn:X; repeat constructor. apply (exch_own _ X).
Qed.
Lemma news_distinct : forall ys, distinct2 ys -> (forall y, In y ys -> sel y = true) -> distinct2 (flat_map new ys).
Proof.
  induction ys as [|y ys IH]; intros D S; [constructor|]. cbn [flat_map]. inversion D as [|? ? F D']; subst. apply distinct2_app.
  - apply new_distinct1.
  - apply IH; auto. intros; apply S; right; auto.
  - intros a b Ha Hb. apply in_flat_map in Hb. destruct Hb as (z & Hz & Hb). rewrite Forall_forall in F.
    apply (@new_apart y z); auto; apply S; cbn; auto.
Qed.

(** ** Coefficients and weights of the new columns *)
Lemma coef_uc : forall y z, coef (uc y) z = (if eq2 y z then val2 rt sinv sperm y else 0) +
  (if ex y then if eq2 (swapped y) z then kz (sX2 sinv sperm y) (val2 rt sinv sperm y) else 0 else 0).
Proof. intros y z. unfold ucol. rewrite coef_cons. cbn [fst snd]. destruct (ex y); [rewrite coef_cons; cbn [fst snd]|]; unfold coef; cbn; ring. Qed.
Lemma weight_uc : forall y z, weight (uc y) z = (if eq2 y z then sqv (val2 rt sinv sperm y) else 0) +
  (if ex y then if eq2 (swapped y) z then sqv (val2 rt sinv sperm y) else 0 else 0).
Proof. intros y z. unfold ucol. rewrite weight_cons. cbn [fst snd]. destruct (ex y); [rewrite weight_cons; cbn [fst snd]; rewrite sqv_kz|]; unfold weight; cbn; ring. Qed.

Lemma weight_own : forall y z, In z (new y) -> weight (uc y) z = sqv (val2 rt sinv sperm y).
Proof.
  intros y z H. rewrite weight_uc. apply in_new in H. destruct H as [->|[X ->]].
  - rewrite eq2_refl. destruct (ex y) eqn:X; [|ring]. rewrite (proj2 (exch_own _ X)). ring.
  - rewrite X, (proj1 (exch_own _ X)), eq2_refl. ring.
Qed.
Lemma uc_none : forall y z, (forall a, In a (new y) -> eq2 a z = false) -> forall e, In e (uc y) -> eq2 (fst e) z = false.
Proof. intros y z H e He. apply H. rewrite <- ucol_states with (rt := rt). apply in_map; auto. Qed.

Lemma weight_news : forall ys z, distinct2 ys -> (forall y, In y ys -> sel y = true) -> In z (flat_map new ys) ->
  exists y, In y ys /\ In z (new y) /\ weight (concat (map uc ys)) z = sqv (val2 rt sinv sperm y).
Proof.
  intros ys z D S H. apply in_flat_map in H. destruct H as (y & Hy & Hz). exists y. split; auto. split; auto.
  destruct (in_split _ _ Hy) as (l1 & l2 & ->). rewrite map_app, concat_app. cbn [map concat]. rewrite !weight_app, (@weight_own y z Hz).
  destruct (distinct2_app_inv _ _ D) as (D1 & D2 & X). inversion D2 as [|? ? F D3]; subst. rewrite Forall_forall in F.
  assert (Z : forall l, (forall w, In w l -> sel w = true /\ eq2 w y = false) -> weight (concat (map uc l)) z = 0).
  { intros l0 Hl. apply weight_none. intros e He. apply in_concat in He. destruct He as (es & Hes & He). apply in_map_iff in Hes. destruct Hes as (w & <- & Hw).
    destruct (Hl w Hw). eapply uc_none; eauto. intros a Ha. apply (@new_apart w y); auto. }
  rewrite !Z; [ring| |].
  - intros w Hw. split; [apply S, in_app_iff; cbn; auto|]. rewrite eq2_sym. auto.
  - intros w Hw. split; [apply S, in_app_iff; cbn; auto|]. apply X; cbn; auto.
Qed.

Hypothesis R1 : sconj rt = rt.
Hypothesis R2 : rt * rt + rt * rt = 1.

Lemma norm_own : forall y, lsum (fun z => sqv (coef (uc y) z)) (new y) = 1.
Proof.
  intros y. unfold unew. destruct (ex y) eqn:X.
  - rewrite !lsum_cons. unfold lsum at 1. cbn [fold_right]. rewrite !coef_uc, X, !eq2_refl. destruct (exch_own _ X) as [-> ->].
    unfold val2. rewrite X. rewrite <- R2. assert (Q : forall z, sqv (0 + kz z rt) = rt * rt).
    { intros z. replace (0 + kz z rt) with (kz z rt) by ring. rewrite sqv_kz. unfold sqv. rewrite R1. reflexivity. }
    rewrite Q. replace (rt + 0) with rt by ring. unfold sqv. rewrite R1. ring.
  - rewrite lsum_cons. unfold lsum at 1. cbn [fold_right]. rewrite coef_uc, X, eq2_refl. unfold val2, sqv. rewrite X. replace (1 + 0 : K) with (1 : K) by ring. rewrite sconj_1. ring.
Qed.
Lemma norm_news : forall ss ys y, distinct2 (ss ++ flat_map new ys) -> distinct2 ys -> (forall y, In y ys -> sel y = true) -> In y ys ->
  norm2 (ss ++ flat_map new ys) (uc y) = 1.
Proof.
  intros ss ys y D DY S Hy. destruct (distinct2_app_inv _ _ D) as (_ & _ & X). unfold norm2. rewrite lsum_app.
  assert (Z : forall l, (forall z a, In z l -> In a (new y) -> eq2 a z = false) -> lsum (fun z => sqv (coef (uc y) z)) l = 0).
  { intros l0 Hl. apply lsum_zero. intros z Hz. rewrite coef_none; [unfold sqv; rewrite sconj_0; ring|]. intros e He. eapply uc_none; eauto. }
  rewrite Z. 2:{ intros z a Hz Ha. rewrite eq2_sym. apply X; auto. apply in_flat_map. eauto. }
  destruct (in_split _ _ Hy) as (l1 & l2 & ->). rewrite flat_map_app. cbn [flat_map]. rewrite !lsum_app, norm_own.
  destruct (distinct2_app_inv _ _ DY) as (_ & D2 & XX). inversion D2 as [|? ? F D3]; subst. rewrite Forall_forall in F.
  rewrite !Z; [ring| |].
  - intros z a Hz Ha. apply in_flat_map in Hz. destruct Hz as (w & Hw & Hz). apply (@new_apart y w); auto; try (apply S, in_app_iff; cbn; auto).
  - intros z a Hz Ha. apply in_flat_map in Hz. destruct Hz as (w & Hw & Hz). rewrite eq2_sym. apply (@new_apart w y); auto; try (apply S, in_app_iff; cbn; auto).
    apply XX; cbn; auto.
Qed.

Lemma reached_pad : forall cap m cols ens (c : acc), reached cap cols ens c -> reached (cap + m) cols ens (padc m c).
Proof.
  intros cap m cols ens c (I & PC & LE & PH & L). destruct I as [I1 I2 I3 I4 I5 I6]. split; [|cbn; repeat split; auto; lia].
  constructor; cbn [padc p_tbl p_bt p_sq]; auto.
  - intros r Hr. destruct (Nat.lt_ge_cases r cap) as [H|H].
    + rewrite app_nth1 by lia. apply I5. auto.
    + rewrite app_nth2 by lia. rewrite nth_repeat0. symmetry. apply lsum_zero. intros t Ht.
      assert (X : (fst (fst t) < length (p_tbl c))%nat).
      { clear - I3 Ht. induction I3 as [|t' f bt fl R F IH]; [destruct Ht|]. destruct Ht as [<-|Ht]; auto. destruct R as (_ & _ & y & Hy & _).
        rewrite <- (map_length snd). apply nth_error_Some. congruence. }
      destruct (Nat.eqb_spec (fst (fst t)) r); auto. lia.
  - rewrite app_length, repeat_length. lia.
Qed.

Lemma reached_cover : forall cap cols ens (c : acc) es e, reached cap cols ens c -> In es cols -> In e es ->
  exists x, In x (map snd (p_tbl c)) /\ eq2 x (fst e) = true.
Proof.
  intros cap cols ens c es e (I & _) He1 He2. pose proof (i_bt I) as F2.
  assert (X : forall f, In f (flatten 0 cols) -> exists x, In x (map snd (p_tbl c)) /\ eq2 x (fst (fst f)) = true).
  { clear - F2. induction F2 as [|t f bt fl R F IH]; [intros f []|]. intros g [<-|Hg]; auto.
    destruct R as (_ & _ & y & Hy & Ey). exists y. split; auto. eapply nth_error_In; eauto. }
  assert (Y : exists f, In f (flatten 0 cols) /\ fst (fst f) = fst e).
  { clear - He1 He2. generalize 0%nat. induction cols as [|es' cs IH]; [destruct He1|]. intros k. destruct He1 as [->|He1].
    - exists (fst e, k, snd e). split; auto. cbn. apply in_app_iff. left. unfold at_col. apply in_map_iff. exists e. auto.
    - destruct (IH He1 (S k)) as (f & Hf & Ef). exists f. split; auto. cbn. apply in_app_iff. auto. }
  destruct Y as (f & Hf & <-). auto.
Qed.
End Users2.
