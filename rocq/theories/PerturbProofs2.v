(** Proofs for C42: the C6 coefficient of one pair state. *)
From Verif Require Import Base StateModel StateProofs BasisnamesProofs FieldModel TwoSpec MESpec PerturbModel PerturbSpec PerturbProofs PerturbAngle.
From Coq Require Import ZArith QArith Reals Lra Lia Bool String List Permutation.
Local Open Scope list_scope.
Local Open Scope Z_scope.
Set Implicit Arguments.
Notation physical := MESpec.physical.

(** ** The loops *)
Lemma in_visits_m : forall g n0 l0 j0 n1 l1 j1 M0 M1 x, In x (visits_m g n0 l0 j0 n1 l1 j1 M0 M1) <->
  exists q0 q1, In (q0, q1) (array_q g) /\ Z.abs (M0 + 2 * q0) <= j0 /\ Z.abs (M1 + 2 * q1) <= j1 /\
    x = ((n0, l0, j0, M0 + 2 * q0), (n1, l1, j1, M1 + 2 * q1), (q0, q1)).
Proof.
  intros. unfold visits_m. rewrite in_flat_map. split.
  - intros ([q0 q1] & Hq & H). exists q0, q1. destruct (Z.ltb_spec j0 (Z.abs (M0 + 2 * q0))); [destruct H|].
    destruct (Z.ltb_spec j1 (Z.abs (M1 + 2 * q1))); [destruct H|]. destruct H as [<-|[]]. auto.
  - intros (q0 & q1 & Hq & H0 & H1 & ->). exists (q0, q1). split; auto.
    destruct (Z.ltb_spec j0 (Z.abs (M0 + 2 * q0))); [lia|]. destruct (Z.ltb_spec j1 (Z.abs (M1 + 2 * q1))); [lia|]. left. reflexivity.
Qed.

Lemma in_visits : forall g a b D x, In x (visits g a b (inject_Z D)) <->
  exists n0 l0 j0 n1 l1 j1 q0 q1, reached a D n0 l0 j0 /\ reached b D n1 l1 j1 /\ In (q0, q1) (array_q g) /\
    Z.abs (m2 a + 2 * q0) <= j0 /\ Z.abs (m2 b + 2 * q1) <= j1 /\
    x = ((n0, l0, j0, m2 a + 2 * q0), (n1, l1, j1, m2 b + 2 * q1), (q0, q1)).
Proof.
  intros. unfold visits, reached. split.
  - intros H. apply in_flat_map in H as (n0 & Hn0 & H). apply in_flat_map in H as (n1 & Hn1 & H).
    apply in_flat_map in H as (l0 & Hl0 & H). apply in_flat_map in H as (l1 & Hl1 & H).
    apply in_flat_map in H as (j0 & Hj0 & H). apply in_flat_map in H as (j1 & Hj1 & H).
    apply in_visits_m in H as (q0 & q1 & Hq & H0 & H1 & ->). exists n0, l0, j0, n1, l1, j1, q0, q1. tauto.
  - intros (n0 & l0 & j0 & n1 & l1 & j1 & q0 & q1 & (A & B & C) & (A' & B' & C') & Hq & H0 & H1 & ->).
    apply in_flat_map. exists n0. split; auto. apply in_flat_map. exists n1. split; auto.
    apply in_flat_map. exists l0. split; auto. apply in_flat_map. exists l1. split; auto.
    apply in_flat_map. exists j0. split; auto. apply in_flat_map. exists j1. split; auto.
    apply in_visits_m. exists q0, q1. auto.
Qed.

(** Every element carries the loop variables that produced it. *)
Definition loopvars (x : (Z * Z * Z * Z) * (Z * Z * Z * Z) * (Z * Z)) : Z * Z * Z * Z * Z * Z :=
  let '((n0, l0, j0, _), (n1, l1, j1, _), _) := x in (n0, n1, l0, l1, j0, j1).
Lemma visits_m_vars : forall g n0 l0 j0 n1 l1 j1 M0 M1 x, In x (visits_m g n0 l0 j0 n1 l1 j1 M0 M1) ->
  loopvars x = (n0, n1, l0, l1, j0, j1).
Proof. intros. apply in_visits_m in H as (q0 & q1 & _ & _ & _ & ->). reflexivity. Qed.
Lemma nodup_visits_m : forall g n0 l0 j0 n1 l1 j1 M0 M1, NoDup (array_q g) -> NoDup (visits_m g n0 l0 j0 n1 l1 j1 M0 M1).
Proof.
  intros. unfold visits_m. apply nodup_flat_map; auto.
  - intros [q0 q1] _. destruct (j0 <? _); [constructor|]. destruct (j1 <? _); repeat constructor; auto.
  - intros [q0 q1] [p0 p1] x _ _ H1 H2. destruct (j0 <? _); [destruct H1|]. destruct (j1 <? _); [destruct H1|].
    destruct (j0 <? _); [destruct H2|]. destruct (j1 <? _); [destruct H2|]. destruct H1 as [<-|[]]. destruct H2 as [H2|[]]. congruence.
Qed.

(** Six nested loops over duplicate-free ranges whose body records the loop variables. *)
Lemma nodup_six : forall (X : Type) (key : X -> Z * Z * Z * Z * Z * Z) (N0 N1 : list Z)
    (L0 L1 : Z -> list Z) (J0 J1 : Z -> list Z) (body : Z -> Z -> Z -> Z -> Z -> Z -> list X),
  NoDup N0 -> NoDup N1 -> (forall n, NoDup (L0 n)) -> (forall n, NoDup (L1 n)) ->
  (forall l, NoDup (J0 l)) -> (forall l, NoDup (J1 l)) ->
  (forall n0 n1 l0 l1 j0 j1, NoDup (body n0 n1 l0 l1 j0 j1)) ->
  (forall n0 n1 l0 l1 j0 j1 x, In x (body n0 n1 l0 l1 j0 j1) -> key x = (n0, n1, l0, l1, j0, j1)) ->
  NoDup (flat_map (fun n0 => flat_map (fun n1 => flat_map (fun l0 => flat_map (fun l1 =>
    flat_map (fun j0 => flat_map (fun j1 => body n0 n1 l0 l1 j0 j1) (J1 l1)) (J0 l0)) (L1 n1)) (L0 n0)) N1) N0).
Proof.
  intros X key N0 N1 L0 L1 J0 J1 body HN0 HN1 HL0 HL1 HJ0 HJ1 HB K.
  apply nodup_flat_map; auto.
  - intros n0 _. apply nodup_flat_map; auto.
    + intros n1 _. apply nodup_flat_map; auto.
      * intros l0 _. apply nodup_flat_map; auto.
        -- intros l1 _. apply nodup_flat_map; auto.
           ++ intros j0 _. apply nodup_flat_map; auto. intros u v x _ _ H H'. apply K in H. apply K in H'. congruence.
           ++ intros u v x _ _ H H'. apply in_flat_map in H as (? & _ & H). apply in_flat_map in H' as (? & _ & H').
              apply K in H. apply K in H'. congruence.
        -- intros u v x _ _ H H'. do 2 (apply in_flat_map in H as (? & _ & H)). do 2 (apply in_flat_map in H' as (? & _ & H')).
           apply K in H. apply K in H'. congruence.
      * intros u v x _ _ H H'. do 3 (apply in_flat_map in H as (? & _ & H)). do 3 (apply in_flat_map in H' as (? & _ & H')).
        apply K in H. apply K in H'. congruence.
    + intros u v x _ _ H H'. do 4 (apply in_flat_map in H as (? & _ & H)). do 4 (apply in_flat_map in H' as (? & _ & H')).
      apply K in H. apply K in H'. congruence.
  - intros u v x _ _ H H'. do 5 (apply in_flat_map in H as (? & _ & H)). do 5 (apply in_flat_map in H' as (? & _ & H')).
    apply K in H. apply K in H'. congruence.
Qed.

Lemma nodup_visits : forall g a b D, NoDup (array_q g) -> NoDup (visits g a b D).
Proof.
  intros g a b D N. unfold visits.
  apply (@nodup_six _ loopvars _ _ (fun n0 => l_set (l a) n0) (fun n1 => l_set (l b) n1)
           (fun l0 => j_set (s2 a) l0 (j2 a)) (fun l1 => j_set (s2 b) l1 (j2 b))
           (fun n0 n1 l0 l1 j0 j1 => visits_m g n0 l0 j0 n1 l1 j1 (m2 a) (m2 b)));
    try (intros; apply nodup_n_range || apply nodup_l_set || apply nodup_j_set).
  - intros. apply nodup_visits_m. auto.
  - intros n0 n1 l0 l1 j0 j1 x H. apply visits_m_vars in H. auto.
Qed.

(** ** Sums *)
Lemma Rsum_perm : forall A (f : A -> R) l l', Permutation l l' -> Rsum f l = Rsum f l'.
Proof. intros A f l l' P. induction P; [reflexivity|cbn; unfold Rsum in IHP; rewrite IHP; reflexivity|cbn; lra|congruence]. Qed.
Lemma Rsum_ext : forall A (f g : A -> R) l, (forall x, In x l -> f x = g x) -> Rsum f l = Rsum g l.
Proof. intros A f g l H. unfold Rsum. induction l as [|x l IH]; cbn; auto. rewrite (H x) by (left; auto). rewrite IH; auto. intros. apply H. right. auto. Qed.
Lemma Rsum_map : forall A B (h : A -> B) (f : B -> R) l, Rsum f (map h l) = Rsum (fun x => f (h x)) l.
Proof. unfold Rsum. induction l as [|x l IH]; cbn; auto. rewrite IH. auto. Qed.
Lemma Rsum_filter : forall A (f : A -> R) (p : A -> bool) l, (forall x, In x l -> p x = false -> f x = 0%R) ->
  Rsum f (filter p l) = Rsum f l.
Proof.
  intros A f p l H. unfold Rsum. induction l as [|x l IH]; cbn; auto. assert (IH' := IH (fun y Hy => H y (or_intror Hy))).
  destruct (p x) eqn:E; cbn; rewrite IH'; auto. rewrite (H x (or_introl eq_refl) E). lra.
Qed.
Lemma Rsum_zero : forall A (f : A -> R) l, (forall x, In x l -> f x = 0%R) -> Rsum f l = 0%R.
Proof. intros A f l H. unfold Rsum. induction l as [|x l IH]; cbn; auto. rewrite (H x) by (left; auto). rewrite IH; [lra|]. intros. apply H. right. auto. Qed.
Lemma sum_res_ok : forall A (f : A -> res R) (h : A -> R) l, (forall x, In x l -> f x = Ok (h x)) ->
  forall acc, sum_res f acc l = Ok (acc + Rsum h l)%R.
Proof.
  intros A f h l H. unfold Rsum. induction l as [|x l IH]; intros acc; cbn.
  - f_equal. lra.
  - rewrite (H x) by (left; auto). cbn. rewrite IH by (intros; apply H; right; auto). f_equal. lra.
Qed.

(** ** States *)
Section C42.
  Variables (hs : string -> N) (hi hf : Z -> N).
  Variables (energy : state1 -> res R) (dipole : state1 -> state1 -> res R) (kC : R).
  Variables (E : state1 -> R) (d : state1 -> state1 -> R).

  Definition quad (a : state1) : Z * Z * Z * Z := (n a, l a, j2 a, m2 a).

  Lemma quad_inv : forall a n0 l0 j0 m0, quad a = (n0, l0, j0, m0) -> n a = n0 /\ l a = l0 /\ j2 a = j0 /\ m2 a = m0.
  Proof. intros a n0 l0 j0 m0 H. unfold quad in H. injection H as A B C F. auto. Qed.
  Lemma built2_both : forall v, built2 hs hi hf v -> built1 hs hi hf (fst1 v) /\ built1 hs hi hf (snd1 v).
  Proof. intros v H. destruct (built2_parts H) as (A & B & _). auto. Qed.
  Lemma spin_of : forall a b, built1 hs hi hf a -> built1 hs hi hf b -> n a <> 0 -> n b <> 0 -> species a = species b -> s2 a = s2 b.
  Proof.
    intros a b Ha Hb Na Nb S. destruct (built1_num Ha Na) as [_ A]. destruct (built1_num Hb Nb) as [_ B]. rewrite S in A. congruence.
  Qed.
  Lemma mkOne_total : forall a n0 l0 j0 m0, built1 hs hi hf a -> n a <> 0 -> n0 <> 0 ->
    exists v, mkOne hs hi hf (species a) n0 l0 j0 m0 = Ok v /\ built1 hs hi hf v /\
      species v = species a /\ quad v = (n0, l0, j0, m0) /\ s2 v = s2 a.
  Proof.
    intros a n0 l0 j0 m0 B Na N0. destruct (built1_num B Na) as [_ S].
    destruct (@mkOne_ok hs hi hf (species a) n0 l0 j0 m0 _ N0 S) as [v V]. exists v.
    assert (Bv : built1 hs hi hf v) by (left; repeat eexists; exact V).
    destruct (mkOne_inv _ _ _ _ _ _ _ _ V) as (_ & Sp & En & El & Ej & Em & As & _).
    unfold quad. repeat split; auto; [congruence|]. rewrite S in As. congruence.
  Qed.
  Lemma mk_ok : forall st n0 l0 j0 m0 n1 l1 j1 m1, built2 hs hi hf st -> n (fst1 st) <> 0 -> n (snd1 st) <> 0 -> n0 <> 0 -> n1 <> 0 ->
    exists v, mk hs hi hf st (n0, l0, j0, m0) (n1, l1, j1, m1) = Ok v /\ built2 hs hi hf v /\
      species (fst1 v) = species (fst1 st) /\ species (snd1 v) = species (snd1 st) /\
      quad (fst1 v) = (n0, l0, j0, m0) /\ quad (snd1 v) = (n1, l1, j1, m1) /\
      s2 (fst1 v) = s2 (fst1 st) /\ s2 (snd1 v) = s2 (snd1 st).
  Proof.
    intros st n0 l0 j0 m0 n1 l1 j1 m1 B Na Nb N0 N1. destruct (built2_both B) as [B0 B1].
    destruct (@mkOne_total _ n0 l0 j0 m0 B0 Na N0) as (u & U1 & U2 & U3 & U4 & U5).
    destruct (@mkOne_total _ n1 l1 j1 m1 B1 Nb N1) as (w & W1 & W2 & W3 & W4 & W5).
    exists (mkTwo_pair u w). unfold mk, mkTwo. rewrite U1, W1. cbn.
    repeat split; auto. apply b2_pair; auto.
  Qed.
  Lemma built2_eq : forall u v, built2 hs hi hf u -> built2 hs hi hf v ->
    species (fst1 u) = species (fst1 v) -> species (snd1 u) = species (snd1 v) ->
    quad (fst1 u) = quad (fst1 v) -> quad (snd1 u) = quad (snd1 v) -> u = v.
  Proof.
    intros u v Bu Bv S0 S1 Q0 Q1. apply (built2_eq_full Bu Bv). unfold quad in *. injection Q0 as A1 A2 A3 A4. injection Q1 as C1 C2 C3 C4.
    split; unfold same1; auto.
  Qed.

  (** The visit that corresponds to an intermediate state. *)
  Definition qs (st v : state2) : Z * Z := ((m2 (fst1 v) - m2 (fst1 st)) / 2, (m2 (snd1 v) - m2 (snd1 st)) / 2).
  Definition key (st v : state2) := (quad (fst1 v), quad (snd1 v), qs st v).

  Definition answers (st : state2) (D : Z) : Prop :=
    energy2 energy st = Ok (E2 E st) /\
    forall v, intermediate hs hi hf st D v ->
      energy2 energy v = Ok (E2 E v) /\
      dipole (fst1 v) (fst1 st) = Ok (d (fst1 v) (fst1 st)) /\ dipole (snd1 v) (snd1 st) = Ok (d (snd1 v) (snd1 st)).

  Lemma Vdd_T : forall angle v st, Z.abs (fst (qs st v)) <= 1 -> Z.abs (snd (qs st v)) <= 1 ->
    Vdd d kC angle v st = (kC * T angle (fst (qs st v)) (snd (qs st v)) * d (fst1 v) (fst1 st) * d (snd1 v) (snd1 st))%R.
  Proof.
    intros angle v st H0 H1. unfold Vdd, dvec. unfold qs in *. cbn [fst snd] in *.
    pose proof (dd_T kC angle (d (fst1 v) (fst1 st)) (d (snd1 v) (snd1 st)) _ _ H0 H1) as X. unfold dd in X. rewrite X. reflexivity.
  Qed.

  Lemma intermediate_exists1 : forall st D v, built2 hs hi hf st -> rydberg (fst1 st) -> rydberg (snd1 st) ->
    (intermediate hs hi hf st D v <->
     built2 hs hi hf v /\ species (fst1 v) = species (fst1 st) /\ species (snd1 v) = species (snd1 st) /\
     exists1 (fst1 st) D (n (fst1 v)) (l (fst1 v)) (j2 (fst1 v)) (m2 (fst1 v)) /\
     exists1 (snd1 st) D (n (snd1 v)) (l (snd1 v)) (j2 (snd1 v)) (m2 (snd1 v))).
  Proof.
    intros st D v B [P0 R0] [P1 R1]. destruct (built2_both B) as [B0 B1].
    assert (X : forall a b, built1 hs hi hf a -> built1 hs hi hf b -> physical a -> l a < n a ->
      (rydberg b /\ e1_coupled b a /\ Z.abs (n b - n a) <= D <->
       species b = species a /\ exists1 a D (n b) (l b) (j2 b) (m2 b))).
    { clear - hs. intros a b Ba Bb (A & A1 & A2 & A3 & A4 & A5 & A6) La. unfold isArtificial in A. apply Z.eqb_neq in A.
      unfold rydberg, e1_coupled, physical, exists1, isArtificial. rewrite Z.eqb_neq. split.
      - intros (((C1 & C2 & C3 & C4 & C5 & C6 & C7) & C8) & (F1 & F2 & F3 & F4) & G).
        rewrite (spin_of Ba Bb A C1 (eq_sym F1)). repeat (split; auto).
      - intros (F1 & G & H1 & H2 & H3 & H4 & H5 & H6 & H7 & H8).
        assert (n b <> 0) by lia. rewrite (spin_of Ba Bb A H (eq_sym F1)) in *.
        repeat (split; auto); lia. }
    unfold intermediate. split.
    - intros (Bv & V0 & V1 & C0 & C1 & N0 & N1). destruct (built2_both Bv) as [Bv0 Bv1].
      destruct (proj1 (X _ _ B0 Bv0 P0 R0) (conj V0 (conj C0 N0))) as [? ?].
      destruct (proj1 (X _ _ B1 Bv1 P1 R1) (conj V1 (conj C1 N1))) as [? ?]. auto.
    - intros (Bv & S0 & S1 & H0 & H1). destruct (built2_both Bv) as [Bv0 Bv1].
      destruct (proj2 (X _ _ B0 Bv0 P0 R0) (conj S0 H0)) as (? & ? & ?).
      destruct (proj2 (X _ _ B1 Bv1 P1 R1) (conj S1 H1)) as (? & ? & ?). auto 10.
  Qed.

  Definition allowed (g : geometry) (q : Z * Z) : bool :=
    existsb (fun p => (fst p =? fst q) && (snd p =? snd q)) (array_q g).
  Lemma allowed_iff : forall g q, allowed g q = true <-> In q (array_q g).
  Proof.
    intros g [q0 q1]. unfold allowed. rewrite existsb_exists. split.
    - intros ([p0 p1] & H & K). cbn in K. apply andb_true_iff in K as [K0 K1]. apply Z.eqb_eq in K0, K1. subst. auto.
    - intros H. exists (q0, q1). split; auto. cbn. rewrite !Z.eqb_refl. auto.
  Qed.

  Lemma visits_perm : forall angle st D L, built2 hs hi hf st -> rydberg (fst1 st) -> rydberg (snd1 st) ->
    s2 (fst1 st) <= 1 -> s2 (snd1 st) <= 1 -> l (fst1 st) <= n (fst1 st) - D -> l (snd1 st) <= n (snd1 st) - D ->
    NoDup L -> (forall v, In v L <-> intermediate hs hi hf st D v) ->
    Permutation (map (key st) (filter (fun v => allowed (initializeAngleTerms angle) (qs st v)) L))
      (visits (initializeAngleTerms angle) (fst1 st) (snd1 st) (inject_Z D)).
  Proof.
    intros angle st D L B R0 R1 S0 S1 D0 D1 N HL. set (g := initializeAngleTerms angle).
    assert (HL' : forall v, In v L <-> built2 hs hi hf v /\ species (fst1 v) = species (fst1 st) /\ species (snd1 v) = species (snd1 st) /\
       exists1 (fst1 st) D (n (fst1 v)) (l (fst1 v)) (j2 (fst1 v)) (m2 (fst1 v)) /\
       exists1 (snd1 st) D (n (snd1 v)) (l (snd1 v)) (j2 (snd1 v)) (m2 (snd1 v))).
    { intros v. rewrite HL. apply intermediate_exists1; auto. }
    apply NoDup_Permutation.
    - assert (I : forall u v, In u L -> In v L -> key st u = key st v -> u = v).
      { intros u v Hu Hv Hk. apply HL' in Hu as (Bu & U0 & U1 & _). apply HL' in Hv as (Bv & V0 & V1 & _).
        unfold key in Hk. apply built2_eq; congruence. }
      assert (NF := NoDup_filter (fun v => allowed g (qs st v)) N).
      assert (I' : forall u v, In u (filter (fun v => allowed g (qs st v)) L) -> In v (filter (fun v => allowed g (qs st v)) L) -> key st u = key st v -> u = v).
      { intros u v Hu Hv. apply filter_In in Hu as [Hu _]. apply filter_In in Hv as [Hv _]. auto. }
      revert NF I'. generalize (filter (fun v => allowed g (qs st v)) L). clear. intros M NF I. induction NF as [|x M Hx NF IH]; cbn; constructor.
      + rewrite in_map_iff. intros (y & Hy & Hy'). apply I in Hy; [subst; auto|right; auto|left; auto].
      + apply IH. intros. apply I; auto; right; auto.
    - apply nodup_visits. apply geo_nodup.
    - intros x. rewrite in_visits, in_map_iff. split.
      + intros (v & <- & Hv). apply filter_In in Hv as [Hv Hq]. apply allowed_iff in Hq. apply HL' in Hv as (Bv & V0 & V1 & X0 & X1).
        apply reached_iff in X0 as ((q0 & Q0 & M0) & RR0 & J0); auto. apply reached_iff in X1 as ((q1 & Q1 & M1) & RR1 & J1); auto.
        assert (Eq : qs st v = (q0, q1)).
        { unfold qs. rewrite M0, M1. f_equal; [replace (m2 (fst1 st) + 2 * q0 - m2 (fst1 st)) with (q0 * 2) by lia|replace (m2 (snd1 st) + 2 * q1 - m2 (snd1 st)) with (q1 * 2) by lia]; apply Z.div_mul; lia. }
        rewrite Eq in Hq. do 6 eexists. exists q0, q1. split; [exact RR0|]. split; [exact RR1|]. split; [auto|].
        rewrite <- M0, <- M1. split; [auto|]. split; [auto|]. unfold key, quad. rewrite Eq. reflexivity.
      + intros (n0 & l0 & j0 & n1 & l1 & j1 & q0 & q1 & RR0 & RR1 & Hq & J0 & J1 & ->).
        destruct (geo_in angle q0 q1 Hq) as (Q0 & Q1 & _).
        assert (X0 : exists1 (fst1 st) D n0 l0 j0 (m2 (fst1 st) + 2 * q0)) by (apply reached_iff; auto; split; [exists q0; auto|auto]).
        assert (X1 : exists1 (snd1 st) D n1 l1 j1 (m2 (snd1 st) + 2 * q1)) by (apply reached_iff; auto; split; [exists q1; auto|auto]).
        destruct (@mk_ok st n0 l0 j0 (m2 (fst1 st) + 2 * q0) n1 l1 j1 (m2 (snd1 st) + 2 * q1) B) as (v & _ & Bv & V0 & V1 & Y0 & Y1 & _ & _);
          [destruct R0 as [(A & _) _]; apply Z.eqb_neq in A; auto|destruct R1 as [(A & _) _]; apply Z.eqb_neq in A; auto|unfold exists1 in X0; lia|unfold exists1 in X1; lia|].
        destruct (quad_inv Y0) as (F1 & F2 & F3 & F4). destruct (quad_inv Y1) as (G1 & G2 & G3 & G4).
        assert (Eq : qs st v = (q0, q1)).
        { unfold qs. rewrite F4, G4. f_equal; [replace (m2 (fst1 st) + 2 * q0 - m2 (fst1 st)) with (q0 * 2) by lia|replace (m2 (snd1 st) + 2 * q1 - m2 (snd1 st)) with (q1 * 2) by lia]; apply Z.div_mul; lia. }
        exists v. split. { unfold key. rewrite Y0, Y1, Eq. reflexivity. }
        apply filter_In. rewrite allowed_iff, Eq. split; auto. apply HL'. rewrite F1, F2, F3, F4, G1, G2, G3, G4. auto 10.
  Qed.

  Lemma contribution_ok : forall angle st D v, built2 hs hi hf st -> rydberg (fst1 st) -> rydberg (snd1 st) ->
    answers st D -> intermediate hs hi hf st D v -> In (qs st v) (array_q (initializeAngleTerms angle)) ->
    contribution hs hi hf energy dipole kC (initializeAngleTerms angle) st (key st v)
      = Ok (Vdd d kC angle v st ^ 2 / (E2 E st - E2 E v))%R.
  Proof.
    intros angle st D v B R0 R1 [A0 A1] I Hq. destruct (A1 v I) as (Ev & Df & Ds).
    apply intermediate_exists1 in I; auto. destruct I as (Bv & S0 & S1 & X0 & X1).
    assert (M : mk hs hi hf st (quad (fst1 v)) (quad (snd1 v)) = Ok v).
    { unfold quad. destruct (@mk_ok st (n (fst1 v)) (l (fst1 v)) (j2 (fst1 v)) (m2 (fst1 v)) (n (snd1 v)) (l (snd1 v)) (j2 (snd1 v)) (m2 (snd1 v)) B) as (w & W & Bw & W0 & W1 & Y0 & Y1 & _ & _);
        [destruct R0 as [(A & _) _]; apply Z.eqb_neq in A; auto|destruct R1 as [(A & _) _]; apply Z.eqb_neq in A; auto|unfold exists1 in X0; lia|unfold exists1 in X1; lia|].
      rewrite W. f_equal. apply built2_eq; auto; congruence. }
    unfold contribution, key. destruct (qs st v) as [q0 q1] eqn:Eq.
    destruct (geo_in angle q0 q1 Hq) as (Q0 & Q1 & Ta).
    rewrite M. cbn [bind]. rewrite A0, Ev. cbn [bind]. rewrite Ta. cbn [bind]. rewrite Df, Ds. cbn [bind].
    rewrite Vdd_T; rewrite Eq; auto.
  Qed.

  Theorem getC6_sum : forall angle st D L, built2 hs hi hf st -> rydberg (fst1 st) -> rydberg (snd1 st) ->
    s2 (fst1 st) <= 1 -> s2 (snd1 st) <= 1 -> l (fst1 st) <= n (fst1 st) - D -> l (snd1 st) <= n (snd1 st) - D ->
    answers st D -> NoDup L -> (forall v, In v L <-> intermediate hs hi hf st D v) ->
    getC6 hs hi hf energy dipole kC (initializeAngleTerms angle) st (inject_Z D) = Ok (second_order E d kC angle st L).
  Proof.
    intros angle st D L B R0 R1 S0 S1 D0 D1 A N HL.
    pose proof (@visits_perm angle st D L B R0 R1 S0 S1 D0 D1 N HL) as P. set (g := initializeAngleTerms angle) in *.
    assert (NA0 : isArtificial (fst1 st) = false) by apply R0. assert (NA1 : isArtificial (snd1 st) = false) by apply R1.
    assert (Sum : sum_res (contribution hs hi hf energy dipole kC g st) 0%R (visits g (fst1 st) (snd1 st) (inject_Z D)) = Ok (second_order E d kC angle st L)).
    { set (L' := filter (fun v => allowed g (qs st v)) L) in *.
      assert (HC : forall x, In x (visits g (fst1 st) (snd1 st) (inject_Z D)) -> exists v, In v L' /\ x = key st v).
      { intros x Hx. apply (Permutation_in x (Permutation_sym P)) in Hx. apply in_map_iff in Hx as (v & <- & Hv). eauto. }
      assert (HR : forall v, In v L' -> contribution hs hi hf energy dipole kC g st (key st v) = Ok (Vdd d kC angle v st ^ 2 / (E2 E st - E2 E v))%R).
      { intros v Hv. apply filter_In in Hv as [Hv Hq]. apply allowed_iff in Hq. apply contribution_ok with (D := D); auto. apply HL; auto. }
      set (h := fun x => match contribution hs hi hf energy dipole kC g st x with Ok r => r | _ => 0%R end).
      rewrite (@sum_res_ok _ _ h).
      2:{ intros x Hx. destruct (HC x Hx) as (v & Hv & ->). unfold h. rewrite HR; auto. }
      f_equal. rewrite Rplus_0_l. rewrite <- (Rsum_perm h P), Rsum_map.
      rewrite (@Rsum_ext _ _ (fun v => Vdd d kC angle v st ^ 2 / (E2 E st - E2 E v))%R).
      2:{ intros v Hv. unfold h. rewrite HR; auto. }
      unfold second_order, L'. apply Rsum_filter. intros v Hv Hq.
      apply HL, intermediate_exists1 in Hv; auto. destruct Hv as (_ & _ & _ & X0 & X1).
      apply reached_iff in X0 as ((q0 & Q0 & M0) & _); auto. apply reached_iff in X1 as ((q1 & Q1 & M1) & _); auto.
      assert (Eq : qs st v = (q0, q1)).
      { unfold qs. rewrite M0, M1. f_equal; [replace (m2 (fst1 st) + 2 * q0 - m2 (fst1 st)) with (q0 * 2) by lia|replace (m2 (snd1 st) + 2 * q1 - m2 (snd1 st)) with (q1 * 2) by lia]; apply Z.div_mul; lia. }
      rewrite Vdd_T by (rewrite Eq; auto). rewrite Eq in *. cbn [fst snd] in *.
      rewrite (@geo_out angle q0 q1); auto. { unfold Rdiv. ring. }
      intros Hin. apply (allowed_iff g) in Hin. congruence. }
    unfold getC6, getN, shouldBeArtificial. rewrite NA0, NA1. cbn [Bool.eqb bind negb andb].
    destruct (n_range (n (fst1 st)) (n (fst1 st)) (inject_Z D)) as [|z zs] eqn:En.
    - unfold visits in Sum. rewrite En in Sum. cbn [flat_map sum_res] in Sum. exact Sum.
    - exact Sum.
  Qed.
End C42.
