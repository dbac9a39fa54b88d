(** Proofs about StateModel. *)
From Verif Require Import Base StateModel.
From Coq Require Import ZArith NArith Lia Bool String Ascii List.
Local Open Scope Z_scope.
Set Implicit Arguments.

(** ** Strings *)
Lemma ascii_eq_of_N : forall c d, N_of_ascii c = N_of_ascii d -> c = d.
Proof.
  intros c d H. rewrite <- (ascii_N_embedding c), <- (ascii_N_embedding d). now rewrite H.
Qed.

Lemma str_ltb_irrefl : forall a, str_ltb a a = false.
Proof.
  induction a as [|c a IH]; cbn; [reflexivity|].
  rewrite N.ltb_irrefl. exact IH.
Qed.

Lemma str_ltb_trans : forall a b c, str_ltb a b = true -> str_ltb b c = true -> str_ltb a c = true.
Proof.
  induction a as [|x a IH]; intros [|y b] [|z c]; cbn; try congruence.
  intros H1 H2.
  destruct (N_of_ascii x <? N_of_ascii y)%N eqn:E1.
  - destruct (N_of_ascii y <? N_of_ascii z)%N eqn:E2.
    + apply N.ltb_lt in E1, E2.
      destruct (N_of_ascii x <? N_of_ascii z)%N eqn:E3; [reflexivity|].
      apply N.ltb_ge in E3. lia.
    + destruct (N_of_ascii z <? N_of_ascii y)%N eqn:E3; [congruence|].
      apply N.ltb_lt in E1. apply N.ltb_ge in E2, E3.
      destruct (N_of_ascii x <? N_of_ascii z)%N eqn:E4; [reflexivity|].
      apply N.ltb_ge in E4. lia.
  - destruct (N_of_ascii y <? N_of_ascii x)%N eqn:E1'; [congruence|].
    apply N.ltb_ge in E1, E1'.
    destruct (N_of_ascii y <? N_of_ascii z)%N eqn:E2.
    + apply N.ltb_lt in E2.
      destruct (N_of_ascii x <? N_of_ascii z)%N eqn:E4; [reflexivity|].
      apply N.ltb_ge in E4. lia.
    + destruct (N_of_ascii z <? N_of_ascii y)%N eqn:E3; [congruence|].
      apply N.ltb_ge in E2, E3.
      destruct (N_of_ascii x <? N_of_ascii z)%N eqn:E4.
      * reflexivity.
      * destruct (N_of_ascii z <? N_of_ascii x)%N eqn:E5.
        -- apply N.ltb_lt in E5. lia.
        -- eapply IH; eassumption.
Qed.

Lemma str_ltb_total : forall a b, str_ltb a b = false -> str_ltb b a = false -> a = b.
Proof.
  induction a as [|x a IH]; intros [|y b]; cbn; try congruence.
  destruct (N_of_ascii x <? N_of_ascii y)%N eqn:E1; [congruence|].
  destruct (N_of_ascii y <? N_of_ascii x)%N eqn:E2; [congruence|].
  intros H1 H2. apply N.ltb_ge in E1, E2.
  assert (x = y) by (apply ascii_eq_of_N; lia). subst y.
  f_equal. now apply IH.
Qed.

Lemma str_ltb_asym : forall a b, str_ltb a b = true -> str_ltb b a = false.
Proof.
  intros a b H. destruct (str_ltb b a) eqn:E; [|reflexivity].
  pose proof (str_ltb_trans _ _ _ H E) as K. rewrite str_ltb_irrefl in K. discriminate.
Qed.

(** ** One-atom states *)
Definition same1 (a b : state1) : Prop :=
  species a = species b /\ n a = n b /\ l a = l b /\ j2 a = j2 b /\ m2 a = m2 b.

Lemma eq1_iff : forall a b, eq1 a b = true <-> same1 a b.
Proof.
  intros a b. unfold eq1, same1.
  rewrite !andb_true_iff, !Z.eqb_eq, String.eqb_eq. tauto.
Qed.

Lemma eq1_refl : forall a, eq1 a a = true.
Proof. intro a. apply eq1_iff. repeat split. Qed.

Lemma neq1_negb : forall a b, neq1 a b = negb (eq1 a b).
Proof.
  intros a b. unfold neq1, eq1.
  destruct (String.eqb _ _), (n a =? n b), (l a =? l b), (j2 a =? j2 b), (m2 a =? m2 b); reflexivity.
Qed.

(** Lexicographic reading of operator<. *)
Definition ltP (a b : state1) : Prop :=
  str_ltb (species a) (species b) = true \/
  (species a = species b /\
   (n a < n b \/ (n a = n b /\
     (l a < l b \/ (l a = l b /\
       (j2 a < j2 b \/ (j2 a = j2 b /\ m2 a < m2 b))))))).

Lemma lt1_iff : forall a b, lt1 a b = true <-> ltP a b.
Proof.
  intros a b. unfold lt1, ltP.
  rewrite !orb_true_iff, !andb_true_iff, !orb_true_iff, !andb_true_iff, !orb_true_iff,
    !andb_true_iff, !orb_true_iff, !andb_true_iff, !Z.ltb_lt, !Z.eqb_eq, String.eqb_eq. tauto.
Qed.

Lemma lt1_irrefl : forall a, lt1 a a = false.
Proof.
  intro a. destruct (lt1 a a) eqn:E; [|reflexivity].
  apply lt1_iff in E. destruct E as [E|[_ E]].
  - rewrite str_ltb_irrefl in E. discriminate.
  - lia.
Qed.

Lemma lt1_trans : forall a b c, lt1 a b = true -> lt1 b c = true -> lt1 a c = true.
Proof.
  intros a b c H1 H2. apply lt1_iff in H1, H2. apply lt1_iff.
  destruct H1 as [H1|[E1 H1]], H2 as [H2|[E2 H2]].
  - left. eapply str_ltb_trans; eassumption.
  - left. congruence.
  - left. congruence.
  - right. split; [congruence|]. lia.
Qed.

Lemma lt1_trichotomy : forall a b,
  (lt1 a b = true /\ eq1 a b = false /\ lt1 b a = false) \/
  (lt1 a b = false /\ eq1 a b = true /\ lt1 b a = false) \/
  (lt1 a b = false /\ eq1 a b = false /\ lt1 b a = true).
Proof.
  intros a b.
  assert (Hab : lt1 a b = true \/ lt1 a b = false) by (destruct (lt1 a b); auto).
  assert (Hba : lt1 b a = true \/ lt1 b a = false) by (destruct (lt1 b a); auto).
  destruct (eq1 a b) eqn:E.
  - right; left. pose proof E as E'. apply eq1_iff in E. destruct E as (E1&E2&E3&E4&E5).
    assert (F : forall x y, same1 x y -> lt1 x y = false).
    { intros x y (F1&F2&F3&F4&F5). destruct (lt1 x y) eqn:G; [|reflexivity].
      apply lt1_iff in G. destruct G as [G|[_ G]]; [rewrite F1, str_ltb_irrefl in G; discriminate|lia]. }
    rewrite !F; unfold same1; intuition congruence.
  - assert (NE : ~ same1 a b) by (intro S; apply eq1_iff in S; congruence).
    destruct (lt1 a b) eqn:L1; destruct (lt1 b a) eqn:L2; try tauto.
    + pose proof (lt1_trans _ _ _ L1 L2) as K. rewrite lt1_irrefl in K. discriminate.
    + exfalso. apply NE.
      assert (N1 : ~ ltP a b) by (rewrite <- lt1_iff; congruence).
      assert (N2 : ~ ltP b a) by (rewrite <- lt1_iff; congruence).
      unfold ltP in N1, N2.
      assert (S : species a = species b).
      { apply str_ltb_total.
        - destruct (str_ltb (species a) (species b)); [exfalso; tauto|reflexivity].
        - destruct (str_ltb (species b) (species a)); [exfalso; tauto|reflexivity]. }
      assert (N1' : ~ (n a < n b \/ n a = n b /\ (l a < l b \/ l a = l b /\
         (j2 a < j2 b \/ j2 a = j2 b /\ m2 a < m2 b)))) by tauto.
      assert (N2' : ~ (n b < n a \/ n b = n a /\ (l b < l a \/ l b = l a /\
         (j2 b < j2 a \/ j2 b = j2 a /\ m2 b < m2 a)))).
      { symmetry in S. tauto. }
      clear N1 N2. unfold same1. split; [exact S|]. lia.
Qed.

(** ** Two-atom states *)
Definition same2 (a b : state2) : Prop := same1 (fst1 a) (fst1 b) /\ same1 (snd1 a) (snd1 b).

Lemma eq2_iff : forall a b, eq2 a b = true <-> same2 a b.
Proof. intros a b. unfold eq2, same2. rewrite andb_true_iff, !eq1_iff. tauto. Qed.

Lemma neq2_negb : forall a b, neq2 a b = negb (eq2 a b).
Proof. intros a b. unfold neq2, eq2. rewrite !neq1_negb. destruct (eq1 _ _), (eq1 _ _); reflexivity. Qed.

Lemma same1_lt_l : forall a b c, same1 a b -> lt1 a c = lt1 b c.
Proof. intros a b c (H1&H2&H3&H4&H5). unfold lt1. now rewrite H1, H2, H3, H4, H5. Qed.
Lemma same1_lt_r : forall a b c, same1 a b -> lt1 c a = lt1 c b.
Proof. intros a b c (H1&H2&H3&H4&H5). unfold lt1. now rewrite H1, H2, H3, H4, H5. Qed.
Lemma same1_eq_l : forall a b c, same1 a b -> eq1 a c = eq1 b c.
Proof. intros a b c (H1&H2&H3&H4&H5). unfold eq1. now rewrite H1, H2, H3, H4, H5. Qed.
Lemma eq1_sym : forall a b, eq1 a b = eq1 b a.
Proof.
  intros a b. unfold eq1.
  rewrite String.eqb_sym, (Z.eqb_sym (n a)), (Z.eqb_sym (l a)), (Z.eqb_sym (j2 a)), (Z.eqb_sym (m2 a)).
  reflexivity.
Qed.

Lemma lt2_irrefl : forall a, lt2 a a = false.
Proof. intro a. unfold lt2. rewrite !lt1_irrefl. now rewrite andb_false_r. Qed.

Lemma lt2_trans : forall a b c, lt2 a b = true -> lt2 b c = true -> lt2 a c = true.
Proof.
  intros a b c. unfold lt2. rewrite !orb_true_iff, !andb_true_iff.
  intros [H1|[E1 H1]] [H2|[E2 H2]].
  - left. eapply lt1_trans; eassumption.
  - left. apply eq1_iff in E2. now rewrite <- (same1_lt_r _ E2).
  - left. apply eq1_iff in E1. now rewrite (same1_lt_l _ E1).
  - right. split.
    + apply eq1_iff in E1. rewrite (same1_eq_l _ E1). exact E2.
    + eapply lt1_trans; eassumption.
Qed.

Lemma lt2_trichotomy : forall a b,
  (lt2 a b = true /\ eq2 a b = false /\ lt2 b a = false) \/
  (lt2 a b = false /\ eq2 a b = true /\ lt2 b a = false) \/
  (lt2 a b = false /\ eq2 a b = false /\ lt2 b a = true).
Proof.
  intros a b. unfold lt2, eq2. rewrite (eq1_sym (fst1 b)).
  destruct (lt1_trichotomy (fst1 a) (fst1 b)) as [(->&->&->)|[(->&->&->)|(->&->&->)]];
  destruct (lt1_trichotomy (snd1 a) (snd1 b)) as [(->&->&->)|[(->&->&->)|(->&->&->)]];
  cbn; tauto.
Qed.

(** ** Construction, hashes *)
Section Hash.
  Variables (hs : string -> N) (hi hf : Z -> N).

  (** States obtainable through the public constructors. *)
  Definition built1 (s : state1) : Prop :=
    (exists sp n0 l0 j0 m0, mkOne hs hi hf sp n0 l0 j0 m0 = Ok s) \/
    (exists lab, mkLabel hs lab = Ok s).

  Inductive built2 : state2 -> Prop :=
  | b2_num : forall s1 s2' n1 n2 l1 l2 j1 jj m1 mm s,
      mkTwo hs hi hf s1 s2' n1 n2 l1 l2 j1 jj m1 mm = Ok s -> built2 s
  | b2_lab : forall l1 l2 s, mkTwo_label hs l1 l2 = Ok s -> built2 s
  | b2_pair : forall a b, built1 a -> built1 b -> built2 (mkTwo_pair a b).

  Lemma mkOne_inv : forall sp n0 l0 j0 m0 s,
    mkOne hs hi hf sp n0 l0 j0 m0 = Ok s ->
    n0 <> 0 /\ species s = sp /\ n s = n0 /\ l s = l0 /\ j2 s = j0 /\ m2 s = m0 /\
    analyzeSpecies sp = Ok (element s, s2 s) /\
    hashv s = hash_combine (hash_combine (hash_combine (hash_combine (hash_combine 0
            (hs sp)) (hi n0)) (hi l0)) (hf j0)) (hf m0).
  Proof.
    intros sp n0 l0 j0 m0 s H. unfold mkOne in H.
    destruct (analyzeSpecies sp) as [[el x]| |] eqn:E; cbn in H; try discriminate.
    unfold getSpecies, getN, getL, getJ2, getM2, shouldBeArtificial, isArtificial in H. cbn in H.
    destruct (n0 =? 0) eqn:Z0; cbn in H; [discriminate|].
    injection H as H. subst s. cbn. apply Z.eqb_neq in Z0. repeat split; auto.
  Qed.

  Lemma mkOne_ok : forall sp n0 l0 j0 m0 x,
    n0 <> 0 -> analyzeSpecies sp = Ok x ->
    exists s, mkOne hs hi hf sp n0 l0 j0 m0 = Ok s.
  Proof.
    intros sp n0 l0 j0 m0 [el x] H E. unfold mkOne. rewrite E. cbn.
    unfold getSpecies, getN, getL, getJ2, getM2, shouldBeArtificial, isArtificial. cbn.
    apply Z.eqb_neq in H. rewrite H. cbn. eexists; reflexivity.
  Qed.

  Lemma mkOne_zero : forall sp l0 j0 m0, sp <> EmptyString ->
    mkOne hs hi hf sp 0 l0 j0 m0 = Throw.
  Proof.
    intros sp l0 j0 m0 H. unfold mkOne, analyzeSpecies.
    destruct (str_last sp) as [c|] eqn:E.
    - destruct (is_digit c); reflexivity.
    - exfalso. destruct sp as [|c sp]; [congruence|].
      clear H. revert c E. induction sp as [|d sp IH]; intros c E; [discriminate|].
      cbn in E. apply (IH d). exact E.
  Qed.

  Lemma mkLabel_ok : forall lab, mkLabel hs lab = Ok (St1 lab EmptyString 0 0 0 0 0 (hs lab)).
  Proof. reflexivity. Qed.

  Lemma built1_num : forall s, built1 s -> n s <> 0 ->
    hashv s = hash_combine (hash_combine (hash_combine (hash_combine (hash_combine 0
            (hs (species s))) (hi (n s))) (hi (l s))) (hf (j2 s))) (hf (m2 s))
    /\ analyzeSpecies (species s) = Ok (element s, s2 s).
  Proof.
    intros s [(sp&n0&l0&j0&m0&H)|[lab H]] Hn.
    - apply mkOne_inv in H. destruct H as (_&H1&H2&H3&H4&H5&H6&H7). subst. auto.
    - rewrite mkLabel_ok in H. injection H as H. subst s. cbn in Hn. congruence.
  Qed.

  Lemma built1_lab : forall s, built1 s -> n s = 0 ->
    s = St1 (species s) EmptyString 0 0 0 0 0 (hs (species s)).
  Proof.
    intros s [(sp&n0&l0&j0&m0&H)|[lab H]] Hn.
    - apply mkOne_inv in H. destruct H as (H0&H1&H2&_). congruence.
    - rewrite mkLabel_ok in H. injection H as H. subst s. reflexivity.
  Qed.

  Lemma built1_eq_full : forall a b, built1 a -> built1 b -> same1 a b -> a = b.
  Proof.
    intros a b Ha Hb (E1&E2&E3&E4&E5).
    destruct (Z.eq_dec (n a) 0) as [Z0|NZ].
    - rewrite (built1_lab Ha Z0). rewrite E2 in Z0. rewrite (built1_lab Hb Z0). cbn. now rewrite E1.
    - destruct (built1_num Ha NZ) as [H1 H2]. rewrite E2 in NZ.
      destruct (built1_num Hb NZ) as [K1 K2].
      destruct a, b; cbn in *. subst. rewrite K2 in H2. injection H2 as -> ->.
      reflexivity.
  Qed.

  Lemma built2_parts : forall s, built2 s ->
    built1 (fst1 s) /\ built1 (snd1 s) /\
    hashv2 s = hash_combine (hash_combine 0 (hashv (fst1 s))) (hashv (snd1 s)).
  Proof.
    intros s [s1 s2' n1 n2 l1 l2 j1 jj m1 mm x H|l1 l2 x H|a b Ha Hb].
    - unfold mkTwo in H.
      destruct (mkOne hs hi hf s1 n1 l1 j1 m1) as [a| |] eqn:E1; try discriminate.
      destruct (mkOne hs hi hf s2' n2 l2 jj mm) as [b| |] eqn:E2; try discriminate.
      cbn in H. injection H as <-. cbn. repeat split; left; eauto 10.
    - unfold mkTwo_label in H. rewrite !mkLabel_ok in H. cbn in H. injection H as <-. cbn.
      repeat split; right; eexists; reflexivity.
    - cbn. auto.
  Qed.

  Lemma built2_eq_full : forall a b, built2 a -> built2 b -> same2 a b -> a = b.
  Proof.
    intros a b Ha Hb [S1 S2].
    destruct (built2_parts Ha) as (A1&A2&A3). destruct (built2_parts Hb) as (B1&B2&B3).
    pose proof (built1_eq_full A1 B1 S1) as E1. pose proof (built1_eq_full A2 B2 S2) as E2.
    destruct a, b; cbn in *. subst. reflexivity.
  Qed.

  (** ** Reflection *)
  Lemma getReflected_art : forall s, n s = 0 -> getReflected hs hi hf s = Throw.
  Proof.
    intros s H. unfold getReflected, getSpecies, shouldBeArtificial, isArtificial.
    rewrite H. reflexivity.
  Qed.

  Lemma getReflected_num : forall s, n s <> 0 ->
    getReflected hs hi hf s = mkOne hs hi hf (species s) (n s) (l s) (j2 s) (- m2 s).
  Proof.
    intros s H. apply Z.eqb_neq in H.
    unfold getReflected, getSpecies, getN, getL, getJ2, getM2, shouldBeArtificial, isArtificial.
    rewrite H. reflexivity.
  Qed.

  Lemma built1_species_ok : forall s, built1 s -> n s <> 0 ->
    exists x, analyzeSpecies (species s) = Ok x.
  Proof. intros s Hb Hn. destruct (built1_num Hb Hn) as [_ H]. eauto. Qed.

  Lemma getReflected_spec : forall s, built1 s -> n s <> 0 ->
    exists r, getReflected hs hi hf s = Ok r /\ built1 r /\
      species r = species s /\ n r = n s /\ l r = l s /\ j2 r = j2 s /\ m2 r = - m2 s /\
      getReflected hs hi hf r = Ok s.
  Proof.
    intros s Hb Hn. destruct (built1_species_ok Hb Hn) as [x Hx].
    rewrite (getReflected_num _ Hn).
    destruct (mkOne_ok _ (l s) (j2 s) (- m2 s) Hn Hx) as [r Hr].
    exists r. pose proof (mkOne_inv _ _ _ _ _ Hr) as (_&R1&R2&R3&R4&R5&_).
    assert (Br : built1 r) by (left; eauto 10).
    repeat split; auto.
    assert (Hnr : n r <> 0) by congruence.
    rewrite (getReflected_num _ Hnr), R1, R2, R3, R4, R5, Z.opp_involutive.
    destruct (mkOne_ok _ (l s) (j2 s) (m2 s) Hn Hx) as [t Ht]. rewrite Ht.
    f_equal. apply built1_eq_full; [left; eauto 10|exact Hb|].
    pose proof (mkOne_inv _ _ _ _ _ Ht) as (_&T1&T2&T3&T4&T5&_). repeat split; assumption.
  Qed.

  Lemma getReflected2_as : forall s, n (fst1 s) <> 0 -> n (snd1 s) <> 0 ->
    getReflected2 hs hi hf s =
    do! a <- getReflected hs hi hf (fst1 s) ; do! b <- getReflected hs hi hf (snd1 s) ;
    Ok (mkTwo_pair a b).
  Proof.
    intros s H1 H2. rewrite (getReflected_num _ H1), (getReflected_num _ H2).
    apply Z.eqb_neq in H1, H2.
    unfold getReflected2, getSpecies, getN, getL, getJ2, getM2, shouldBeArtificial, isArtificial.
    rewrite H1, H2. reflexivity.
  Qed.

  Lemma getReflected2_art : forall s, n (fst1 s) = 0 \/ n (snd1 s) = 0 ->
    getReflected2 hs hi hf s = Throw.
  Proof.
    intros s [H|H]; unfold getReflected2, getSpecies, shouldBeArtificial, isArtificial; rewrite H; cbn.
    - reflexivity.
    - destruct (n (fst1 s) =? 0); reflexivity.
  Qed.

  Lemma getReflected2_spec : forall s, built2 s -> n (fst1 s) <> 0 -> n (snd1 s) <> 0 ->
    exists r, getReflected2 hs hi hf s = Ok r /\ built2 r /\
      getReflected hs hi hf (fst1 s) = Ok (fst1 r) /\
      getReflected hs hi hf (snd1 s) = Ok (snd1 r) /\
      getReflected2 hs hi hf r = Ok s.
  Proof.
    intros s Hb H1 H2. destruct (built2_parts Hb) as (B1&B2&B3).
    destruct (getReflected_spec B1 H1) as (r1&R1&Br1&S1&N1&L1&J1&M1&RR1).
    destruct (getReflected_spec B2 H2) as (r2&R2&Br2&S2&N2&L2&J2&M2&RR2).
    exists (mkTwo_pair r1 r2). rewrite (getReflected2_as _ H1 H2), R1, R2. cbn.
    repeat split; auto.
    - now apply b2_pair.
    - rewrite getReflected2_as; cbn; try congruence. rewrite RR1, RR2. cbn.
      f_equal. unfold mkTwo_pair. destruct s as [a b h]; cbn in *. now rewrite B3.
  Qed.
End Hash.

(** ** Wildcards *)
Lemma match1_iff : forall a g, match1 a g = true <->
  species a = species g /\ (n g <> ARB -> n a = n g) /\ (l g <> ARB -> l a = l g) /\
  (j2 g <> ARB2 -> j2 a = j2 g) /\ (m2 g <> ARB2 -> m2 a = m2 g).
Proof.
  intros a g. unfold match1.
  rewrite !andb_true_iff, !orb_true_iff, !Z.eqb_eq, String.eqb_eq.
  destruct (Z.eq_dec (n g) ARB), (Z.eq_dec (l g) ARB), (Z.eq_dec (j2 g) ARB2), (Z.eq_dec (m2 g) ARB2);
    tauto.
Qed.

Lemma isGeneralized_iff : forall g, isGeneralized g = true <->
  n g = ARB \/ l g = ARB \/ j2 g = ARB2 \/ m2 g = ARB2.
Proof. intro g. unfold isGeneralized. rewrite !orb_true_iff, !Z.eqb_eq. tauto. Qed.

Lemma match1_exact : forall a g, isGeneralized g = false -> match1 a g = eq1 a g.
Proof.
  intros a g H. unfold isGeneralized in H. rewrite !orb_false_iff in H.
  destruct H as [[[H1 H2] H3] H4]. unfold match1, eq1. now rewrite H1, H2, H3, H4.
Qed.

Lemma match2_iff : forall a g, match2 a g = true <-> match1 (fst1 a) (fst1 g) = true /\ match1 (snd1 a) (snd1 g) = true.
Proof. intros a g. unfold match2. now rewrite andb_true_iff. Qed.

(** ** Symmetry *)
Lemma arr_lt_irrefl : forall a, arr_lt a a = false.
Proof. induction a as [|x a IH]; cbn; [reflexivity|]. now rewrite Z.ltb_irrefl. Qed.

Lemma arr_lt_trans : forall a b c, length a = length b -> length b = length c ->
  arr_lt a b = true -> arr_lt b c = true -> arr_lt a c = true.
Proof.
  induction a as [|x a IH]; intros [|y b] [|z c]; cbn; try congruence; try discriminate.
  intros L1 L2 H1 H2. injection L1 as L1. injection L2 as L2.
  destruct (x <? y) eqn:E1; [|destruct (y <? x) eqn:E1'; [congruence|]];
  (destruct (y <? z) eqn:E2; [|destruct (z <? y) eqn:E2'; [congruence|]]);
  (destruct (x <? z) eqn:E3; [reflexivity|destruct (z <? x) eqn:E3'; [try lia|]]); try lia.
  eapply IH; eassumption.
Qed.

Lemma arr_lt_total : forall a b, length a = length b ->
  arr_lt a b = false -> arr_lt b a = false -> a = b.
Proof.
  induction a as [|x a IH]; intros [|y b]; cbn; try congruence; try discriminate.
  intros L H1 H2. destruct (x <? y) eqn:E1; [congruence|]. destruct (y <? x) eqn:E2; [congruence|].
  assert (x = y) by lia. subst. f_equal. apply IH; congruence.
Qed.

Lemma sym_lt_irrefl : forall a, sym_lt a a = false.
Proof. intro a. apply arr_lt_irrefl. Qed.
Lemma sym_lt_trans : forall a b c, sym_lt a b = true -> sym_lt b c = true -> sym_lt a c = true.
Proof. intros a b c. apply arr_lt_trans; reflexivity. Qed.
Lemma sym_lt_total : forall a b, sym_lt a b = true \/ a = b \/ sym_lt b a = true.
Proof.
  intros a b. destruct (sym_lt a b) eqn:E1; [auto|]. destruct (sym_lt b a) eqn:E2; [auto|].
  right; left. assert (K : sym_arr a = sym_arr b) by (apply arr_lt_total; [reflexivity|exact E1|exact E2]).
  destruct a, b. unfold sym_arr in K. cbn in K. congruence.
Qed.

(** ** Full statements used by PropState.v *)
Lemma getReflected_full : forall hs hi hf s,
  built1 hs hi hf s ->
  (n s = 0 -> getReflected hs hi hf s = Throw) /\
  (n s <> 0 -> exists r, getReflected hs hi hf s = Ok r /\
     species r = species s /\ element r = element s /\ n r = n s /\ l r = l s /\ j2 r = j2 s /\
     m2 r = - m2 s /\ s2 r = s2 s /\
     exists t, getReflected hs hi hf r = Ok t /\ eq1 t s = true /\ hashv t = hashv s).
Proof.
  intros hs hi hf s B. split; [apply getReflected_art|]. intro Hn.
  destruct (getReflected_spec B Hn) as (r&R&Br&S&N&L&J&M&RR).
  exists r. assert (Hnr : n r <> 0) by congruence.
  destruct (built1_num B Hn) as [_ A]. destruct (built1_num Br Hnr) as [_ A'].
  rewrite S, A in A'. injection A' as A1 A2.
  repeat (split; [now auto|]). exists s. repeat split; auto using eq1_refl.
Qed.

Lemma getReflected2_full : forall hs hi hf s,
  built2 hs hi hf s ->
  (n (fst1 s) = 0 \/ n (snd1 s) = 0 -> getReflected2 hs hi hf s = Throw) /\
  (n (fst1 s) <> 0 -> n (snd1 s) <> 0 -> exists r, getReflected2 hs hi hf s = Ok r /\
     getReflected hs hi hf (fst1 s) = Ok (fst1 r) /\
     getReflected hs hi hf (snd1 s) = Ok (snd1 r) /\
     exists t, getReflected2 hs hi hf r = Ok t /\ eq2 t s = true /\ hashv2 t = hashv2 s).
Proof.
  intros hs hi hf s B. split; [apply getReflected2_art|]. intros H1 H2.
  destruct (getReflected2_spec B H1 H2) as (r&R&Br&R1&R2&RR).
  exists r. repeat (split; [now auto|]). exists s. split; [exact RR|].
  split; [|reflexivity]. unfold eq2. now rewrite !eq1_refl.
Qed.

Lemma match1_exact' : forall a g,
  n g <> ARB -> l g <> ARB -> j2 g <> ARB2 -> m2 g <> ARB2 -> match1 a g = eq1 a g.
Proof.
  intros a g H1 H2 H3 H4. apply match1_exact. destruct (isGeneralized g) eqn:E; [|reflexivity].
  apply isGeneralized_iff in E. tauto.
Qed.

Lemma match1_mono : forall a g g',
  species g' = species g ->
  (n g' = n g \/ n g' = ARB) -> (l g' = l g \/ l g' = ARB) ->
  (j2 g' = j2 g \/ j2 g' = ARB2) -> (m2 g' = m2 g \/ m2 g' = ARB2) ->
  match1 a g = true -> match1 a g' = true.
Proof.
  intros a g g' E1 E2 E3 E4 E5. rewrite !match1_iff. intros (M1&M2&M3&M4&M5).
  split; [congruence|]. repeat split; intro K.
  - destruct E2 as [E2|E2]; [|congruence]. rewrite E2 in *. auto.
  - destruct E3 as [E3|E3]; [|congruence]. rewrite E3 in *. auto.
  - destruct E4 as [E4|E4]; [|congruence]. rewrite E4 in *. auto.
  - destruct E5 as [E5|E5]; [|congruence]. rewrite E5 in *. auto.
Qed.

Lemma label_state : forall hs lab, exists s, mkLabel hs lab = Ok s /\
  getLabel s = Ok lab /\ getN s = Throw /\ getL s = Throw /\ getJ2 s = Throw /\
  getM2 s = Throw /\ getS2 s = Throw /\ getSpecies s = Throw /\ getElement s = Throw.
Proof. intros hs lab. eexists. rewrite mkLabel_ok. repeat split. Qed.

Lemma str_last_init : forall s c, str_last s = Some c ->
  s = (str_init s ++ String c EmptyString)%string.
Proof.
  induction s as [|d s IH]; intros c H; [discriminate|].
  destruct s as [|e s]; [cbn in *; congruence|].
  change (str_last (String d (String e s))) with (str_last (String e s)) in H.
  change (str_init (String d (String e s))) with (String d (str_init (String e s))).
  cbn [append]. f_equal. apply IH. exact H.
Qed.

Lemma str_last_app : forall p c, str_last (p ++ String c EmptyString) = Some c.
Proof.
  induction p as [|d p IH]; intro c; [reflexivity|]. cbn [append].
  specialize (IH c). destruct (p ++ String c EmptyString)%string eqn:E; [discriminate IH|]. exact IH.
Qed.

Lemma number_state : forall hs hi hf sp n0 l0 j0 m0, sp <> EmptyString ->
  (n0 = 0 -> mkOne hs hi hf sp n0 l0 j0 m0 = Throw) /\
  (n0 <> 0 -> exists s, mkOne hs hi hf sp n0 l0 j0 m0 = Ok s /\
     getSpecies s = Ok sp /\ getN s = Ok n0 /\ getL s = Ok l0 /\ getJ2 s = Ok j0 /\
     getM2 s = Ok m0 /\ getLabel s = Throw /\
     exists el sp2, getElement s = Ok el /\ getS2 s = Ok sp2 /\
       ((exists d, (d <= 9)%N /\ sp = (el ++ String (ascii_of_N (48 + d)) EmptyString)%string
                   /\ sp2 = Z.of_N d - 1) \/
        (el = sp /\ sp2 = 1 /\
         forall pre c, sp = (pre ++ String c EmptyString)%string ->
           (N_of_ascii c < 48 \/ 57 < N_of_ascii c)%N))).
Proof.
  intros hs hi hf sp n0 l0 j0 m0 Hsp. split; [intros ->; now apply mkOne_zero|]. intro Hn.
  assert (A : exists x, analyzeSpecies sp = Ok x).
  { unfold analyzeSpecies. destruct (str_last sp) as [c|] eqn:E.
    - destruct (is_digit c); eauto.
    - exfalso. destruct sp as [|c sp]; [congruence|]. clear Hsp. revert c E.
      induction sp as [|d sp IH]; intros c E; [discriminate|]. apply (IH d). exact E. }
  destruct A as [x A].
  destruct (mkOne_ok hs hi hf _ l0 j0 m0 Hn A) as [s Hs]. exists s.
  pose proof (mkOne_inv _ _ _ _ _ _ _ _ Hs) as (_&R1&R2&R3&R4&R5&R6&_).
  split; [exact Hs|]. assert (Hns : (n s =? 0) = false) by (apply Z.eqb_neq; congruence).
  unfold getSpecies, getN, getL, getJ2, getM2, getLabel, getElement, getS2, shouldBeArtificial, isArtificial.
  rewrite Hns. cbn [Bool.eqb bind].
  repeat (split; [congruence|]). exists (element s), (s2 s). split; [reflexivity|]. split; [reflexivity|].
  clear - R6. unfold analyzeSpecies in R6. destruct (str_last sp) as [c|] eqn:E; [|discriminate].
  destruct (is_digit c) eqn:D; injection R6 as R6 R7.
  - left. unfold is_digit in D. apply andb_true_iff in D. destruct D as [D1 D2].
    apply N.leb_le in D1, D2.
    exists (N_of_ascii c - 48)%N. split; [lia|]. split.
    + assert (Q : (48 + (N_of_ascii c - 48))%N = N_of_ascii c) by lia. rewrite Q.
      rewrite ascii_N_embedding. rewrite <- R6. apply str_last_init. exact E.
    + lia.
  - right. split; [auto|]. split; [auto|]. intros pre d K. rewrite K in E.
    rewrite str_last_app in E. injection E as <-. unfold is_digit in D.
    apply andb_false_iff in D. rewrite !N.leb_gt in D. lia.
Qed.
