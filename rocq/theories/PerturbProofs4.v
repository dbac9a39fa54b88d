(** Proofs for C43 and C44, continued: matrix elements as sums over intermediate states. *)
From Verif Require Import Base StateModel StateProofs BasisnamesProofs FieldModel TwoSpec MESpec PerturbModel PerturbSpec PerturbProofs PerturbAngle PerturbProofs2 PerturbProofs3.
From Coq Require Import ZArith QArith Reals Lra Lia Bool String List Permutation.
Local Open Scope list_scope.
Local Open Scope Z_scope.
Set Implicit Arguments.
Notation physical := MESpec.physical.
Notation quad := PerturbProofs2.quad.

Lemma nodup_map_inj : forall A B (f : A -> B) M, NoDup M -> (forall u v, In u M -> In v M -> f u = f v -> u = v) -> NoDup (map f M).
Proof.
  intros A B f M N. induction N as [|x M Hx N IH]; intros I; cbn; constructor.
  - rewrite in_map_iff. intros (y & Hy & Hy'). apply I in Hy; [subst; auto|right; auto|left; auto].
  - apply IH. intros. apply I; auto; right; auto.
Qed.

Section C43.
  Variables (hs : string -> N) (hi hf : Z -> N).
  Variables (energy : state1 -> res R) (dipole : state1 -> state1 -> res R) (kC : R).
  Variables (E : state1 -> R) (d : state1 -> state1 -> R).
  Notation built := (built2 hs hi hf).

  (** Same species in both atoms. *)
  Definition same_species (row col : state2) : Prop :=
    species (fst1 row) = species (fst1 col) /\ species (snd1 row) = species (snd1 col).
  Definition pairstate (st : state2) : Prop := built st /\ rydberg (fst1 st) /\ rydberg (snd1 st).

  Lemma ryd_n : forall a, rydberg a -> n a <> 0.
  Proof. intros a [(A & _) _]. apply Z.eqb_neq in A. auto. Qed.

  Definition coupledB (row col : state2) (D : Z) (v : state2) : Prop :=
    built v /\ same_species v col /\
    existsB (fst1 row) (fst1 col) D (n (fst1 v)) (l (fst1 v)) (j2 (fst1 v)) (m2 (fst1 v)) /\
    existsB (snd1 row) (snd1 col) D (n (snd1 v)) (l (snd1 v)) (j2 (snd1 v)) (m2 (snd1 v)).

  Lemma spins : forall row col, pairstate row -> pairstate col -> same_species row col ->
    s2 (fst1 row) = s2 (fst1 col) /\ s2 (snd1 row) = s2 (snd1 col).
  Proof.
    intros row col (B & R0 & R1) (B' & R0' & R1') [S0 S1]. destruct (built2_both B) as [X Y]. destruct (built2_both B') as [X' Y'].
    split; [apply (spin_of X X')|apply (spin_of Y Y')]; auto using ryd_n.
  Qed.

  Lemma intermediate2_B : forall states row col D v, pairstate row -> pairstate col -> same_species row col ->
    (intermediate2 hs hi hf states row col D v <-> coupledB row col D v /\ ~ In v states).
  Proof.
    intros states row col D v PR PC SS. destruct (spins PR PC SS) as [SP0 SP1].
    destruct PR as (B & R0 & R1). destruct PC as (B' & R0' & R1'). destruct SS as [S0 S1].
    destruct (built2_both B) as [X Y]. destruct (built2_both B') as [X' Y'].
    assert (K : forall r c a, built1 hs hi hf c -> built1 hs hi hf a -> rydberg c -> species r = species c ->
      (rydberg a /\ e1_coupled a r /\ e1_coupled a c /\ PerturbSpec.between (n a) (n r) (n c) D <->
       species a = species c /\ existsB r c D (n a) (l a) (j2 a) (m2 a))).
    { clear - hs. intros r c a Bc Ba [(A & A1 & A2 & A3 & A4 & A5 & A6) La] S. unfold isArtificial in A. apply Z.eqb_neq in A.
      unfold rydberg, e1_coupled, physical, existsB, isArtificial. rewrite Z.eqb_neq. split.
      - intros (((C1 & C2 & C3 & C4 & C5 & C6 & C7) & C8) & (F1 & F2 & F3 & F4) & (F1' & F2' & F3' & F4') & G).
        rewrite (spin_of Bc Ba A C1 (eq_sym F1')). repeat (split; auto).
      - intros (F1 & G & H1 & H2 & H2' & H3 & H4 & H5 & H5' & H6 & H7 & H8 & H8').
        assert (n a <> 0) by (clear - H1; lia). rewrite (spin_of Bc Ba A H (eq_sym F1)) in *.
        rewrite S. repeat (split; auto); clear - H1 A2 H4 H2 H2' H5 H5' H8 H8'; lia. }
    unfold intermediate2, coupledB, same_species. split.
    - intros (Bv & V0 & V1 & C0 & C1 & C0' & C1' & N0 & N1 & NI). destruct (built2_both Bv) as [Bv0 Bv1].
      destruct (proj1 (K _ _ _ X' Bv0 R0' S0) (conj V0 (conj C0 (conj C0' N0)))) as [? ?].
      destruct (proj1 (K _ _ _ Y' Bv1 R1' S1) (conj V1 (conj C1 (conj C1' N1)))) as [? ?]. auto 10.
    - intros ((Bv & (T0 & T1) & H0 & H1) & NI). destruct (built2_both Bv) as [Bv0 Bv1].
      destruct (proj2 (K _ _ _ X' Bv0 R0' S0) (conj T0 H0)) as (? & ? & ? & ?).
      destruct (proj2 (K _ _ _ Y' Bv1 R1' S1) (conj T1 H1)) as (? & ? & ? & ?). auto 15.
  Qed.

  Lemma qs_back : forall row v q0 q1, m2 (fst1 row) - m2 (fst1 v) = q0 * 2 -> m2 (snd1 row) - m2 (snd1 v) = q1 * 2 ->
    qs v row = (q0, q1) /\ Z.quot (m2 (fst1 row) - m2 (fst1 v)) 2 = q0 /\ Z.quot (m2 (snd1 row) - m2 (snd1 v)) 2 = q1.
  Proof. intros row v q0 q1 A B. unfold qs. rewrite A, B, !Z.div_mul, !Z.quot_mul by lia. auto. Qed.

  Variables (row col : state2) (D : Z) (states : list state2).
  Hypothesis PR : pairstate row.
  Hypothesis PC : pairstate col.
  Hypothesis SS : same_species row col.
  Hypothesis S0 : s2 (fst1 col) <= 1.
  Hypothesis S1 : s2 (snd1 col) <= 1.
  Hypothesis L0 : l (fst1 row) = l (fst1 col).
  Hypothesis L1 : l (snd1 row) = l (snd1 col).
  Hypothesis D0 : l (fst1 col) <= Z.min (n (fst1 row)) (n (fst1 col)) - D.
  Hypothesis D1 : l (snd1 col) <= Z.min (n (snd1 row)) (n (snd1 col)) - D.
  Hypothesis BS : Forall built states.

  Lemma row_built : built row. Proof. apply PR. Qed.
  Lemma col_built : built col. Proof. apply PC. Qed.

  (** Transitions of a coupled state are integers of size at most one. *)
  Lemma coupled_q : forall v, coupledB row col D v -> exists q0 q1 b0 b1,
    Z.abs q0 <= 1 /\ Z.abs q1 <= 1 /\ Z.abs b0 <= 1 /\ Z.abs b1 <= 1 /\
    m2 (fst1 v) = m2 (fst1 col) + 2 * q0 /\ m2 (snd1 v) = m2 (snd1 col) + 2 * q1 /\
    m2 (fst1 row) - m2 (fst1 v) = b0 * 2 /\ m2 (snd1 row) - m2 (snd1 v) = b1 * 2.
  Proof.
    intros v (_ & _ & X0 & X1). destruct (spins PR PC SS) as [SP0 SP1].
    assert (K : forall r c n0 l0 j0 m0, rydberg r -> rydberg c -> s2 r = s2 c -> l r = l c -> existsB r c D n0 l0 j0 m0 ->
      exists q b, Z.abs q <= 1 /\ Z.abs b <= 1 /\ m0 = m2 c + 2 * q /\ m2 r - m0 = b * 2).
    { clear. intros r c n0 l0 j0 m0 [(A & B & C & F & G & H & I) Hn] [(A' & B' & C' & F' & G' & H' & I') Hn'] ES EL
        (P1 & P2 & P3 & P3' & P4 & P5 & P6 & P6' & P7 & P8 & P9 & P9').
      rewrite even_iff in *. destruct F as [f F], G as [g G], F' as [f' F'], G' as [g' G'], P4 as [e P4], P8 as [h P8].
      exists (g' - h - e + (l0 - l c) + f'), (h + e - (l0 - l c) - f - g).
      assert (X : m0 = m2 c + 2 * (g' - h - e + (l0 - l c) + f')) by (clear - P4 P8 F' G'; lia).
      assert (Y : m2 r - m0 = (h + e - (l0 - l c) - f - g) * 2) by (clear - P4 P8 F G ES EL; lia).
      clear - X Y P9 P9'. lia. }
    destruct (K _ _ _ _ _ _ (proj1 (proj2 PR)) (proj1 (proj2 PC)) SP0 L0 X0) as (q0 & b0 & ? & ? & ? & ?).
    destruct (K _ _ _ _ _ _ (proj2 (proj2 PR)) (proj2 (proj2 PC)) SP1 L1 X1) as (q1 & b1 & ? & ? & ? & ?).
    exists q0, q1, b0, b1. auto 10.
  Qed.

  Lemma qs_forth : forall v q0 q1, m2 (fst1 v) = m2 (fst1 col) + 2 * q0 -> m2 (snd1 v) = m2 (snd1 col) + 2 * q1 -> qs col v = (q0, q1).
  Proof.
    intros v q0 q1 A B. unfold qs. rewrite A, B. f_equal.
    - replace (m2 (fst1 col) + 2 * q0 - m2 (fst1 col)) with (q0 * 2) by lia. apply Z.div_mul. lia.
    - replace (m2 (snd1 col) + 2 * q1 - m2 (snd1 col)) with (q1 * 2) by lia. apply Z.div_mul. lia.
  Qed.

  Lemma mk_col : forall v, coupledB row col D v -> mk hs hi hf col (quad (fst1 v)) (quad (snd1 v)) = Ok v.
  Proof.
    intros v (Bv & [T0 T1] & X0 & X1). destruct PC as (B & R0 & R1). unfold PerturbProofs2.quad.
    destruct (@mk_ok hs hi hf col (n (fst1 v)) (l (fst1 v)) (j2 (fst1 v)) (m2 (fst1 v)) (n (snd1 v)) (l (snd1 v)) (j2 (snd1 v)) (m2 (snd1 v)) B)
      as (w & W & Bw & W0 & W1 & Y0 & Y1 & _ & _); auto using ryd_n; [unfold existsB in X0; clear - X0; lia|unfold existsB in X1; clear - X1; lia|].
    rewrite W. f_equal. apply (built2_eq (hs := hs) (hi := hi) (hf := hf)); auto; congruence.
  Qed.

  Variable angle : R.
  Let g := initializeAngleTerms angle.

  Definition taken (v : state2) : bool := allowed g (qs col v) && allowed g (qs v row).
  Definition outside (x : (Z * Z * Z * Z) * (Z * Z * Z * Z) * (Z * Z)) : bool :=
    match mk hs hi hf col (fst (fst x)) (snd (fst x)) with Ok v => negb (existsb (eq2 v) states) | _ => true end.

  Lemma in_states : forall v, built v -> (existsb (eq2 v) states = true <-> In v states).
  Proof.
    intros v Bv. rewrite existsb_exists. split.
    - intros (u & Hu & Eu). apply eq2_iff in Eu. rewrite (built2_eq_full Bv (proj1 (Forall_forall _ _) BS u Hu) Eu). auto.
    - intros Hv. exists v. split; auto. apply eq2_iff. unfold same2, same1. auto 10.
  Qed.

  Lemma size3 : forall b0 b1, Z.abs b0 <= 1 -> Z.abs b1 <= 1 ->
    ((length (array_q g) = 3%nat -> b0 + b1 = 0) <-> In (b0, b1) (array_q g)).
  Proof.
    intros b0 b1 H0 H1. destruct (geo_size angle) as [[Hs H]|[Hs H]]; fold g in Hs, H.
    - rewrite (H b0 b1 H0 H1). tauto.
    - specialize (H b0 b1 H0 H1). split; auto. intros _ X. rewrite Hs in X. discriminate.
  Qed.

  Lemma visits2_perm : forall L, NoDup L -> (forall v, In v L <-> intermediate2 hs hi hf states row col D v) ->
    Permutation (map (key col) (filter taken L)) (filter outside (visits2 g row col (inject_Z D))).
  Proof.
    intros L N HL. destruct (spins PR PC SS) as [SP0 SP1].
    assert (HL' : forall v, In v L <-> coupledB row col D v /\ ~ In v states).
    { intros v. rewrite HL. apply intermediate2_B; auto. }
    apply NoDup_Permutation.
    - apply nodup_map_inj; [apply NoDup_filter; auto|].
      intros u v Hu Hv Hk. apply filter_In in Hu as [Hu _]. apply filter_In in Hv as [Hv _].
      apply HL' in Hu as ((Bu & [U0 U1] & _) & _). apply HL' in Hv as ((Bv & [V0 V1] & _) & _).
      unfold key in Hk. apply (built2_eq (hs := hs) (hi := hi) (hf := hf)); congruence.
    - apply NoDup_filter. apply nodup_visits2. apply geo_nodup.
    - intros x. rewrite filter_In, in_visits2, in_map_iff. split.
      + intros (v & <- & Hv). apply filter_In in Hv as [Hv Ht]. apply andb_true_iff in Ht as [Hq Hb].
        apply allowed_iff in Hq. apply allowed_iff in Hb. apply HL' in Hv as [Hc Hn].
        destruct (coupled_q Hc) as (q0 & q1 & b0 & b1 & Q0 & Q1 & B0 & B1 & M0 & M1 & W0 & W1).
        assert (Hc' := Hc). destruct Hc' as (Bv & _ & X0 & X1).
        apply reached2_iff in X0 as (_ & Z0 & RR0 & J0); auto; try apply PR; try apply PC.
        apply reached2_iff in X1 as (_ & Z1 & RR1 & J1); auto; try apply PR; try apply PC.
        rewrite (@qs_forth v q0 q1 M0 M1) in Hq. destruct (@qs_back row v b0 b1 W0 W1) as (Qb & Y0 & Y1). rewrite Qb in Hb.
        split.
        * do 6 eexists. split; [exact RR0|]. split; [exact RR1|]. apply in_visits2_m. exists q0, q1.
          rewrite <- M0, <- M1. split; auto. split; auto. split; auto. split; auto. split; auto. rewrite Y0, Y1. split; [apply size3; auto|].
          unfold key, PerturbProofs2.quad. rewrite (@qs_forth v q0 q1 M0 M1). reflexivity.
        * unfold outside, key. cbn [fst snd]. rewrite (mk_col Hc). destruct (existsb (eq2 v) states) eqn:Ex; auto.
          apply (in_states Bv) in Ex. tauto.
      + intros ((n0 & l0 & j0 & n1 & l1 & j1 & RR0 & RR1 & Hx) & Ho).
        apply in_visits2_m in Hx as (q0 & q1 & Hq & J0 & J1 & Z0 & Z1 & H3 & ->).
        destruct (geo_in angle q0 q1 Hq) as (Q0 & Q1 & _).
        assert (X0 : existsB (fst1 row) (fst1 col) D n0 l0 j0 (m2 (fst1 col) + 2 * q0)) by (apply reached2_iff; auto; try apply PR; try apply PC; split; [exists q0; auto|auto]).
        assert (X1 : existsB (snd1 row) (snd1 col) D n1 l1 j1 (m2 (snd1 col) + 2 * q1)) by (apply reached2_iff; auto; try apply PR; try apply PC; split; [exists q1; auto|auto]).
        destruct (@mk_ok hs hi hf col n0 l0 j0 (m2 (fst1 col) + 2 * q0) n1 l1 j1 (m2 (snd1 col) + 2 * q1) col_built) as (v & Mv & Bv & V0 & V1 & Y0 & Y1 & _ & _);
          [apply ryd_n, PC|apply ryd_n, PC|unfold existsB in X0; clear - X0; lia|unfold existsB in X1; clear - X1; lia|].
        destruct (quad_inv Y0) as (F1 & F2 & F3 & F4). destruct (quad_inv Y1) as (G1 & G2 & G3 & G4).
        assert (Hc : coupledB row col D v).
        { split; [auto|]. split; [split; auto|]. rewrite F1, F2, F3, F4, G1, G2, G3, G4. auto. }
        assert (Eq := @qs_forth v q0 q1 F4 G4).
        exists v. split. { unfold key. rewrite Y0, Y1, Eq. reflexivity. }
        apply filter_In. split.
        * apply HL'. split; auto. intros Hin. unfold outside in Ho. cbn [fst snd] in Ho. rewrite Mv in Ho. apply (in_states Bv) in Hin. rewrite Hin in Ho. discriminate.
        * apply andb_true_iff. rewrite !allowed_iff, Eq. split; auto.
          destruct (coupled_q Hc) as (p0 & p1 & b0 & b1 & P0 & P1 & B0 & B1 & M0 & M1 & W0 & W1).
          destruct (@qs_back row v b0 b1 W0 W1) as (Qb & K0 & K1). rewrite Qb. apply size3; auto. rewrite <- K0, <- K1, F4, G4. exact H3.
  Qed.

  Definition answers2 : Prop :=
    energy2 energy row = Ok (E2 E row) /\ energy2 energy col = Ok (E2 E col) /\
    forall v, intermediate2 hs hi hf states row col D v ->
      energy2 energy v = Ok (E2 E v) /\
      dipole (fst1 v) (fst1 col) = Ok (d (fst1 v) (fst1 col)) /\ dipole (snd1 v) (snd1 col) = Ok (d (snd1 v) (snd1 col)) /\
      dipole (fst1 row) (fst1 v) = Ok (d (fst1 row) (fst1 v)) /\ dipole (snd1 row) (snd1 v) = Ok (d (snd1 row) (snd1 v)).

  Lemma VddT : forall a v q0 q1, Z.abs q0 <= 1 -> Z.abs q1 <= 1 -> qs a v = (q0, q1) ->
    Vdd d kC angle v a = (kC * T angle q0 q1 * d (fst1 v) (fst1 a) * d (snd1 v) (snd1 a))%R.
  Proof. intros a v q0 q1 H0 H1 Eq. rewrite Vdd_T; rewrite Eq; auto. Qed.

  Lemma contribution2_ok : forall v, answers2 -> intermediate2 hs hi hf states row col D v -> taken v = true ->
    contribution2 hs hi hf energy dipole kC g states row col (key col v)
      = Ok (Vdd d kC angle row v * Vdd d kC angle v col * (1 / 2 * (1 / (E2 E row - E2 E v) + 1 / (E2 E col - E2 E v))))%R.
  Proof.
    intros v (A0 & A1 & A2) I Ht. destruct (A2 v I) as (Ev & F0 & F1 & B0 & B1).
    apply intermediate2_B in I as [Hc Hn]; auto. apply andb_true_iff in Ht as [Hq Hb]. apply allowed_iff in Hq. apply allowed_iff in Hb.
    destruct (coupled_q Hc) as (q0 & q1 & b0 & b1 & Q0 & Q1 & K0 & K1 & M0 & M1 & W0 & W1).
    destruct (@qs_back row v b0 b1 W0 W1) as (Qb & Y0 & Y1). assert (Qf := @qs_forth v q0 q1 M0 M1). rewrite Qf in Hq. rewrite Qb in Hb.
    unfold contribution2, key. rewrite Qf, (mk_col Hc). cbn [bind].
    assert (Bv : built v) by apply Hc.
    destruct (existsb (eq2 v) states) eqn:Ex; [apply (in_states Bv) in Ex; tauto|].
    rewrite A0, A1, Ev. cbn [bind]. rewrite Y0, Y1.
    unfold g. rewrite (proj2 (proj2 (geo_in angle b0 b1 Hb))), (proj2 (proj2 (geo_in angle q0 q1 Hq))), B0, B1, F0, F1. cbn [bind]. f_equal.
    rewrite (VddT K0 K1 Qb), (VddT Q0 Q1 Qf). unfold Rdiv. ring.
  Qed.

  Lemma outside_zero : forall x, In x (visits2 g row col (inject_Z D)) -> outside x = false ->
    contribution2 hs hi hf energy dipole kC g states row col x = Ok 0%R.
  Proof.
    intros [[x0 x1] [q0 q1]] _ Ho. unfold outside in Ho. unfold contribution2. cbn [fst snd] in Ho.
    destruct (mk hs hi hf col x0 x1) as [v| |]; try discriminate. cbn [bind]. destruct (existsb (eq2 v) states); [auto|discriminate].
  Qed.

  Lemma getC6_element_sum : forall L, answers2 -> NoDup L -> (forall v, In v L <-> intermediate2 hs hi hf states row col D v) ->
    getC6_element hs hi hf energy dipole kC g states (inject_Z D) row col = Ok (second_order2 E d kC angle row col L).
  Proof.
    intros L A N HL. pose proof (visits2_perm N HL) as P. destruct (spins PR PC SS) as [SP0 SP1]. destruct SS as [X0 X1].
    assert (NA : forall a, rydberg a -> getS2 a = Ok (s2 a)).
    { intros a [(B & _) _]. unfold getS2, shouldBeArtificial. rewrite B. reflexivity. }
    unfold getC6_element. rewrite !NA by (try apply PR; apply PC). cbn [bind]. rewrite SP0, SP1, X0, X1, !Z.eqb_refl, !String.eqb_refl. cbn [negb orb].
    set (h := fun x => match contribution2 hs hi hf energy dipole kC g states row col x with Ok r => r | _ => 0%R end).
    set (t := fun v => (Vdd d kC angle row v * Vdd d kC angle v col * (1 / 2 * (1 / (E2 E row - E2 E v) + 1 / (E2 E col - E2 E v))))%R).
    assert (HR : forall v, In v (filter taken L) -> contribution2 hs hi hf energy dipole kC g states row col (key col v) = Ok (t v)).
    { intros v Hv. apply filter_In in Hv as [Hv Ht]. apply contribution2_ok; auto. apply HL; auto. }
    rewrite (@sum_res_ok _ _ h).
    2:{ intros x Hx. destruct (outside x) eqn:Ho.
        - assert (Hf : In x (filter outside (visits2 g row col (inject_Z D)))) by (apply filter_In; auto).
          apply (Permutation_in x (Permutation_sym P)) in Hf. apply in_map_iff in Hf as (v & <- & Hv). unfold h. rewrite HR; auto.
        - unfold h. rewrite outside_zero; auto. }
    f_equal. rewrite Rplus_0_l.
    rewrite <- (@Rsum_filter _ h outside).
    2:{ intros x Hx Ho. unfold h. rewrite outside_zero; auto. }
    rewrite <- (Rsum_perm h P), Rsum_map. rewrite (@Rsum_ext _ _ t).
    2:{ intros v Hv. unfold h. rewrite HR; auto. }
    unfold second_order2. fold t. apply Rsum_filter. intros v Hv Ht.
    apply HL in Hv. apply intermediate2_B in Hv as [Hc _]; auto.
    destruct (coupled_q Hc) as (q0 & q1 & b0 & b1 & Q0 & Q1 & K0 & K1 & M0 & M1 & W0 & W1).
    destruct (@qs_back row v b0 b1 W0 W1) as (Qb & _ & _). assert (Qf := @qs_forth v q0 q1 M0 M1).
    unfold t. rewrite (VddT K0 K1 Qb), (VddT Q0 Q1 Qf). unfold taken in Ht. rewrite Qb, Qf in Ht. apply andb_false_iff in Ht as [Ht|Ht].
    - rewrite (@geo_out angle q0 q1); auto; [ring|]. intros Hin. apply (allowed_iff g) in Hin. congruence.
    - rewrite (@geo_out angle b0 b1); auto; [ring|]. intros Hin. apply (allowed_iff g) in Hin. congruence.
  Qed.
End C43.
