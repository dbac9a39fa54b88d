(** Rotators of one- and two-atom systems. *)
From Verif Require Import Base StateModel StateProofs LookupModel LookupProofs Matrix FieldModel WignerModel WignerPoly
  WignerProofs WignerProofs2 WignerProofs3 SystemProofs OverlapModel OverlapProofs RotTable PairProofs.
From Coq Require Import ZArith Lia Bool Arith Reals Lra String List.
Import ListNotations.
Set Implicit Arguments.
Local Open Scope R_scope.

(** ** The D-matrix of one multiplet *)

Definition Dm (n : nat) (alpha beta gamma : R) (a b : nat) : CR :=
  wignerD (Z.of_nat n) (mq n a) (mq n b) alpha beta gamma.

Lemma conj_cis : forall x, sconj (cis x : CR) = cis (- x).
Proof. intro. unfold cis. cbn. unfold cconj. cbn. rewrite cos_neg, sin_neg. reflexivity. Qed.
Lemma conj_ofR : forall x, sconj (ofR x) = ofR x.
Proof. intro. unfold ofR. cbn. unfold cconj. cbn. f_equal. ring. Qed.

Lemma bsum_ofR : forall n (f : nat -> R), bsum (K := CR) n (fun i => ofR (f i)) = ofR (bsum (K := RR) n f).
Proof. induction n; intros; [reflexivity|]. cbn [bsum]. rewrite IHn, <- ofR_add. reflexivity. Qed.

Definition mh (n a : nat) : R := IZR (mq n a) / 2.

Lemma Dm_closed : forall n al be ga a b, (a <= n)%nat -> (b <= n)%nat ->
  Dm n al be ga a b = smul (s := CR) (smul (s := CR) (cis (- mh n a * al)) (ofR (dpoly n a b (snap be)))) (cis (- mh n b * ga)).
Proof. intros. unfold Dm, wignerD. rewrite wignerd_closed by auto. reflexivity. Qed.

Lemma dpoly_orth : forall n b c x, (b <= n)%nat -> (c <= n)%nat ->
  bsum (K := RR) (S n) (fun a => dpoly n a b x * dpoly n a c x) = if Nat.eqb b c then 1 else 0.
Proof.
  intros n b c x Hb Hc. etransitivity; [|exact (dpoly_0 n b c)]. replace 0 with (- x + x) by ring.
  rewrite <- dpoly_add by auto. apply (@bsum_ext RR). intros a Ha. rewrite (@dpoly_transpose n b a x) by lia. reflexivity.
Qed.

(** The columns are orthonormal. *)
Theorem Dm_unitary : forall n al be ga b c, (b <= n)%nat -> (c <= n)%nat ->
  bsum (K := CR) (S n) (fun a => smul (sconj (Dm n al be ga a b)) (Dm n al be ga a c)) = if Nat.eqb b c then @s1 CR else @s0 CR.
Proof.
  intros n al be ga b c Hb Hc.
  transitivity (smul (s := CR) (smul (s := CR) (cis (mh n b * ga)) (cis (- mh n c * ga)))
     (bsum (K := CR) (S n) (fun a => ofR (dpoly n a b (snap be) * dpoly n a c (snap be))))).
  - rewrite (@bsum_mul_l CR). apply (@bsum_ext CR). intros a Ha. rewrite !Dm_closed by lia.
    rewrite !s_conj_mul, !conj_cis, conj_ofR, ofR_mul.
    assert (E : smul (s := CR) (cis (- (- mh n a * al))) (cis (- mh n a * al)) = @s1 CR).
    { rewrite <- cis_add, <- cis_0. f_equal. ring. }
    replace (- (- mh n b * ga)) with (mh n b * ga) by ring.
    transitivity (smul (s := CR) (smul (s := CR) (cis (- (- mh n a * al))) (cis (- mh n a * al)))
      (smul (s := CR) (smul (s := CR) (cis (mh n b * ga)) (cis (- mh n c * ga))) (smul (s := CR) (ofR (dpoly n a b (snap be))) (ofR (dpoly n a c (snap be))))));
      [cring|]. rewrite E. cring.
  - rewrite bsum_ofR, dpoly_orth by auto. destruct (Nat.eqb_spec b c).
    + subst. rewrite <- cis_add. replace (mh n c * ga + - mh n c * ga) with 0 by ring. rewrite cis_0. apply injective_projections; cbn; ring.
    + apply injective_projections; cbn; ring.
Qed.

(** Angles for which the shortcut at pi/2 does not change the value. *)
Definition regular (beta : R) : Prop := snap beta = beta /\ snap (- beta) = - beta.

Lemma Dm_inverse : forall n al be ga a b, (a <= n)%nat -> (b <= n)%nat -> regular be ->
  Dm n (- ga) (- be) (- al) a b = sconj (Dm n al be ga b a).
Proof.
  intros n al be ga a b Ha Hb [R1 R2]. rewrite !Dm_closed by auto. rewrite R1, R2, dpoly_transpose by auto.
  rewrite !s_conj_mul, !conj_cis, conj_ofR.
  replace (- mh n a * - ga) with (- (- mh n a * ga)) by ring. replace (- mh n b * - al) with (- (- mh n b * al)) by ring. cring.
Qed.

Lemma Dm_0 : forall n a b, (a <= n)%nat -> (b <= n)%nat -> snap 0 = 0 ->
  Dm n 0 0 0 a b = if Nat.eqb a b then @s1 CR else @s0 CR.
Proof.
  intros n a b Ha Hb S. rewrite Dm_closed by auto. rewrite S, dpoly_0, !Rmult_0_r, cis_0.
  destruct (Nat.eqb a b); apply injective_projections; cbn; ring.
Qed.

(** The addition of angles about the y axis. *)
Lemma Dm_add : forall n x y a c, (a <= n)%nat -> (c <= n)%nat -> snap x = x -> snap y = y -> snap (x + y) = x + y ->
  bsum (K := CR) (S n) (fun b => smul (Dm n 0 x 0 a b) (Dm n 0 y 0 b c)) = Dm n 0 (x + y) 0 a c.
Proof.
  intros n x y a c Ha Hc X Y XY.
  transitivity (bsum (K := CR) (S n) (fun b => ofR (dpoly n a b x * dpoly n b c y))).
  - apply (@bsum_ext CR). intros b Hb. rewrite !Dm_closed by lia. rewrite X, Y, !Rmult_0_r, cis_0, ofR_mul. cring.
  - rewrite bsum_ofR, dpoly_add by auto. rewrite Dm_closed by auto. rewrite XY, !Rmult_0_r, cis_0. cring.
Qed.

(** ** States *)
Section S.
Variables (hs : string -> N) (hi : Z -> N) (hf : Z -> N).
Variable isreal : bool.

(** A state with quantum numbers -j <= m <= j, j - m an integer. *)
Definition physical (s : state1) : Prop :=
  n s <> 0%Z /\ species s <> EmptyString /\ exists k a, j2 s = Z.of_nat k /\ m2 s = mq k a /\ (a <= k)%nat.
Definition sameMult (s t : state1) : bool :=
  String.eqb (species s) (species t) && Z.eqb (n s) (n t) && Z.eqb (l s) (l t) && Z.eqb (j2 s) (j2 t).

Definition newst (s : state1) (m : Z) : state1 :=
  match mkOne hs hi hf (species s) (n s) (l s) (j2 s) m with Ok x => x | _ => s end.

Lemma newst_ok : forall s m, physical s -> mkOne hs hi hf (species s) (n s) (l s) (j2 s) m = Ok (newst s m) /\
  species (newst s m) = species s /\ n (newst s m) = n s /\ l (newst s m) = l s /\ j2 (newst s m) = j2 s /\ m2 (newst s m) = m.
Proof.
  intros s m (Hn & Hs & _). unfold newst.
  assert (A : exists x, analyzeSpecies (species s) = Ok x).
  { unfold analyzeSpecies. destruct (str_last (species s)) eqn:E.
    - destruct (is_digit a); eauto.
    - exfalso. clear Hn. destruct (species s) as [|c sp]; [congruence|]. clear Hs. revert c E.
      induction sp as [|d sp IH]; intros c E; [discriminate|]. apply (IH d). exact E. }
  destruct A as [x A]. destruct (@mkOne_ok hs hi hf (species s) (n s) (l s) (j2 s) m x Hn A) as [y E].
  rewrite E. apply mkOne_inv in E. intuition.
Qed.

Lemma mup_nat : forall k, mup (Z.of_nat k) = map (mq k) (seq 0 (S k)).
Proof. intro k. unfold mup. rewrite Nat2Z.id. apply map_ext. intro i. unfold mq. lia. Qed.

Variables (alpha beta gamma : R).
(** Real scalars are possible for these angles. *)
Hypothesis real_angles : isreal = true -> exists p q : Z, alpha = 2 * PI * IZR p /\ gamma = 2 * PI * IZR q.

Definition val (s : state1) (m : Z) : CR := convert isreal (wignerD (j2 s) m (m2 s) (- gamma) (- beta) (- alpha)).
Definition comps1 (s : state1) : list (state1 * CR) := map (fun m => (newst s m, val s m)) (mup (j2 s)).

Lemma sin_kpi : forall k : Z, sin (PI * IZR k) = 0.
Proof. intro k. rewrite Rmult_comm. apply sin_eq_0_1. exists k. ring. Qed.

Lemma cis_int : forall m p : Z, exists r, cis (- (IZR m / 2) * - (2 * PI * IZR p)) = ofR r.
Proof.
  intros m p. exists (cos (PI * IZR (m * p))). unfold cis, ofR.
  replace (- (IZR m / 2) * - (2 * PI * IZR p)) with (PI * IZR (m * p)) by (rewrite mult_IZR; field).
  rewrite sin_kpi. reflexivity.
Qed.

Lemma val_complex : forall s m, val s m = wignerD (j2 s) m (m2 s) (- gamma) (- beta) (- alpha).
Proof.
  intros s m. unfold val, convert. destruct isreal eqn:E; auto.
  destruct (real_angles eq_refl) as (p & q & -> & ->). unfold wignerD.
  destruct (cis_int m q) as [r1 ->]. destruct (cis_int (m2 s) p) as [r2 ->].
  change cmul with (@smul CR). rewrite <- !ofR_mul. reflexivity.
Qed.

Lemma remainder_multiple : forall p : Z, offAxis (2 * PI * IZR p) = false.
Proof.
  intro p. unfold offAxis, remainder2pi. pose proof PI_RGT_0.
  replace (2 * PI * IZR p / (2 * PI)) with (IZR p) by (field; lra).
  assert (E : up (IZR p - 1 / 2) = p).
  { symmetry. apply tech_up; lra. }
  rewrite E. replace (2 * PI * IZR p - 2 * PI * IZR p) with 0 by ring. rewrite Rabs_R0.
  destruct (Rlt_dec tolW 0); auto. exfalso. unfold tolW in r.
  assert (0 < / IZR (10 ^ 16)) by (apply Rinv_0_lt_compat, IZR_lt; reflexivity). lra.
Qed.
Lemma angles_pass : isreal && (offAxis alpha || offAxis gamma) = false.
Proof.
  destruct isreal eqn:E; auto. destruct (real_angles eq_refl) as (p & q & -> & ->).
  rewrite !remainder_multiple. reflexivity.
Qed.

Lemma getters : forall s, physical s -> getJ2 s = Ok (j2 s) /\ getM2 s = Ok (m2 s) /\ getSpecies s = Ok (species s) /\ getN s = Ok (n s) /\ getL s = Ok (l s).
Proof.
  intros s (Hn & _). unfold getJ2, getM2, getSpecies, getN, getL, shouldBeArtificial, isArtificial.
  apply Z.eqb_neq in Hn. rewrite Hn. cbn. auto.
Qed.

Lemma addRotated_eq : forall tbl e, physical (snd e) ->
  addRotated hs hi hf isreal tbl (alpha, beta, gamma) e =
  Ok (flat_map (fun p => match tfind eq1 tbl (fst p) with Some i => [(i, fst e, snd p)] | None => [] end) (comps1 (snd e))).
Proof.
  intros tbl [c s] P. cbn [fst snd] in *. unfold addRotated. rewrite angles_pass. cbn [fst snd].
  destruct (getters P) as (-> & -> & -> & -> & ->). cbn [bind]. unfold comps1.
  assert (G : forall ms acc, fold_left (fun acc m => do! l0 <- acc; do! x <- mkOne hs hi hf (species s) (n s) (l s) (j2 s) m;
      match tfind eq1 tbl x with
      | Some i => Ok (l0 ++ [(i, c, convert isreal (wignerD (j2 s) m (m2 s) (- gamma) (- beta) (- alpha)))]) | None => Ok l0 end) ms (Ok acc) =
    Ok (acc ++ flat_map (fun p => match tfind eq1 tbl (fst p) with Some i => [(i, c, snd p)] | None => [] end) (map (fun m => (newst s m, val s m)) ms))).
  { induction ms as [|m ms IH]; intro acc; cbn [fold_left map flat_map]. { rewrite app_nil_r. reflexivity. }
    destruct (newst_ok m P) as (E & _). cbn [bind]. rewrite E. cbn [bind fst snd].
    destruct (tfind eq1 tbl (newst s m)).
    - rewrite IH, <- app_assoc. reflexivity.
    - rewrite IH. reflexivity. }
  rewrite (G _ []). reflexivity.
Qed.

Theorem staterotator_eq : forall tbl, Forall (fun e => physical (snd e)) tbl ->
  staterotator hs hi hf isreal tbl (alpha, beta, gamma) = Ok (mtrip (length tbl) (length tbl) (triplets eq1 tbl comps1)).
Proof.
  intros tbl P. unfold staterotator, rotateAll, triplets.
  assert (G : forall l acc, Forall (fun e => physical (snd e)) l ->
    fold_left (fun acc e => do! l0 <- acc; do! l' <- addRotated hs hi hf isreal tbl (alpha, beta, gamma) e; Ok (l0 ++ l')) l (Ok acc) =
    Ok (acc ++ flat_map (fun e => flat_map (fun p => match tfind eq1 tbl (fst p) with Some i => [(i, fst e, snd p)] | None => [] end) (comps1 (snd e))) l)).
  { intro es; induction es as [|e es IH]; intros acc F; cbn [fold_left flat_map]. { rewrite app_nil_r. reflexivity. }
    inversion F; subst. cbn [bind]. rewrite addRotated_eq by auto. cbn [bind]. rewrite IH by auto. rewrite <- app_assoc. reflexivity. }
  rewrite (G tbl [] P). reflexivity.
Qed.

(** The amplitude of one state in the image of another. *)
Lemma amp1_closed : forall s t k a b, physical s -> physical t -> j2 t = Z.of_nat k -> m2 t = mq k b -> (b <= k)%nat ->
  (j2 s = Z.of_nat k -> m2 s = mq k a /\ (a <= k)%nat) ->
  amp eq1 comps1 s t = if sameMult s t then Dm k (- gamma) (- beta) (- alpha) a b else @s0 CR.
Proof.
  intros s t k a b Ps Pt Ht Hb Lb Hs. unfold amp, comps1. rewrite Ht, mup_nat, !lsum_map.
  destruct (sameMult s t) eqn:E.
  - unfold sameMult in E. rewrite !andb_true_iff, !Z.eqb_eq, String.eqb_eq in E. destruct E as [[[E1 E2] E3] E4].
    destruct (Hs (eq_trans E4 Ht)) as [Hm La].
    transitivity (lsum (K := CR) (fun x => smul (delta a x) (Dm k (- gamma) (- beta) (- alpha) x b)) (seq 0 (S k))).
    + apply lsum_ext. intros x Hx. apply in_seq in Hx. destruct (newst_ok (mq k x) Pt) as (_ & F1 & F2 & F3 & F4 & F5). cbn [fst snd].
      replace (eq1 (newst t (mq k x)) s) with (Nat.eqb a x).
      2:{ apply eq_true_iff_eq. rewrite Nat.eqb_eq, eq1_iff. unfold same1. rewrite F1, F2, F3, F4, F5, Hm. unfold mq. split.
          - intros ->. repeat split; auto.
          - intros (_ & _ & _ & _ & Q). lia. }
      unfold delta. rewrite val_complex, Ht, Hb. fold (Dm k (- gamma) (- beta) (- alpha) x b). destruct (Nat.eqb a x); cring.
    + rewrite <- bsum_lsum. apply (@bsum_delta_l CR (S k) a (fun x => Dm k (- gamma) (- beta) (- alpha) x b)). lia.
  - apply lsum_zero. intros x Hx. cbn [fst snd]. destruct (eq1 _ s) eqn:Q; auto. exfalso. apply eq1_iff in Q.
    destruct (newst_ok (mq k x) Pt) as (_ & F1 & F2 & F3 & F4 & F5). destruct Q as (Q1 & Q2 & Q3 & Q4 & Q5).
    assert (sameMult s t = true); [|congruence]. unfold sameMult. rewrite !andb_true_iff, !Z.eqb_eq, String.eqb_eq. intuition congruence.
Qed.

Lemma physical_new : forall s k a, physical s -> j2 s = Z.of_nat k -> (a <= k)%nat -> physical (newst s (mq k a)).
Proof.
  intros s k a P H La. destruct (newst_ok (mq k a) P) as (_ & F1 & F2 & F3 & F4 & F5). destruct P as (P1 & P2 & _).
  repeat split; try congruence. exists k, a. rewrite F4, F5. auto.
Qed.

(** The images of two states are orthonormal. *)
Lemma gram1 : forall s t, physical s -> physical t ->
  lsum (K := CR) (fun p => smul (sconj (snd p)) (amp eq1 comps1 (fst p) t)) (comps1 s) = if eq1 s t then @s1 CR else @s0 CR.
Proof.
  intros s t Ps Pt. pose proof Ps as (_ & _ & k & a & Hj & Hm & La). pose proof Pt as (_ & _ & k' & b & Hj' & Hm' & Lb).
  unfold comps1 at 2. rewrite Hj, mup_nat, !lsum_map, <- bsum_lsum.
  destruct (sameMult s t) eqn:E.
  - pose proof E as E'. unfold sameMult in E. rewrite !andb_true_iff, !Z.eqb_eq, String.eqb_eq in E. destruct E as [[[E1 E2] E3] E4].
    assert (k' = k) by lia. subst k'.
    transitivity (bsum (K := CR) (S k) (fun x => smul (sconj (Dm k (- gamma) (- beta) (- alpha) x a)) (Dm k (- gamma) (- beta) (- alpha) x b))).
    + apply (@bsum_ext CR). intros x Hx. cbn [fst snd]. rewrite val_complex, Hj, Hm. fold (Dm k (- gamma) (- beta) (- alpha) x a).
      destruct (newst_ok (mq k x) Ps) as (_ & F1 & F2 & F3 & F4 & F5).
      rewrite (@amp1_closed (newst s (mq k x)) t k x b); auto; try lia.
      * unfold sameMult. rewrite F1, F2, F3, F4. unfold sameMult in E'. rewrite E'. reflexivity.
      * apply physical_new; auto. lia.
    + rewrite Dm_unitary by auto. replace (eq1 s t) with (Nat.eqb a b); auto.
      apply eq_true_iff_eq. rewrite Nat.eqb_eq, eq1_iff. unfold same1. rewrite Hm, Hm'. unfold mq. split.
      * intros ->. repeat split; auto.
      * intros (_ & _ & _ & _ & Q). lia.
  - replace (eq1 s t) with false.
    2:{ symmetry. apply not_true_is_false. intro Q. apply eq1_iff in Q. destruct Q as (Q1 & Q2 & Q3 & Q4 & Q5).
        assert (sameMult s t = true); [|congruence]. unfold sameMult. rewrite !andb_true_iff, !Z.eqb_eq, String.eqb_eq. auto. }
    apply (@bsum_zero CR). intros x Hx. cbn [fst snd]. destruct (newst_ok (mq k x) Ps) as (_ & F1 & F2 & F3 & F4 & F5).
    rewrite (@amp1_closed (newst s (mq k x)) t k' (if Z.eqb (j2 s) (j2 t) then x else 0%nat) b); auto.
    + replace (sameMult (newst s (mq k x)) t) with false. cring. symmetry. unfold sameMult in *. rewrite F1, F2, F3, F4. exact E.
    + apply physical_new; auto. lia.
    + rewrite F4, F5. intro Q. assert (k' = k) by lia. subst k'. rewrite Hj, Hj', Z.eqb_refl. split; auto. lia.
Qed.
End S.
