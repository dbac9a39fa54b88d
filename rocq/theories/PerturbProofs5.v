(** Proofs for C42 - C44, conclusions. *)
From Verif Require Import Base StateModel StateProofs BasisnamesProofs FieldModel TwoSpec MEModel Racah MESpec MEProofs MEReal PerturbModel PerturbSpec PerturbProofs PerturbAngle PerturbProofs2 PerturbProofs3 PerturbProofs4.
From Coq Require Import ZArith QArith Reals Lra Lia Bool String List Permutation.
Local Open Scope list_scope.
Local Open Scope Z_scope.
Set Implicit Arguments.
Notation physical := MESpec.physical.
Notation quad := PerturbProofs2.quad.

Lemma state1_dec : forall a b : state1, {a = b} + {a <> b}.
Proof. decide equality; auto using Z.eq_dec, N.eq_dec, string_dec. Qed.
Lemma state2_dec : forall a b : state2, {a = b} + {a <> b}.
Proof. decide equality; auto using N.eq_dec, state1_dec. Qed.

Section Data.
  Variables (hs : string -> N) (hi hf : Z -> N).
  Variables (energy : state1 -> res R) (dipole : state1 -> state1 -> res R) (kC : R).
  Variables (E : state1 -> R) (d : state1 -> state1 -> R).
  Notation built := (built2 hs hi hf).
  Notation pstate := (pairstate hs hi hf).

  Lemma data_energy2 : forall st v, data_for energy dipole E d st -> rydberg (fst1 v) -> rydberg (snd1 v) -> same_species v st ->
    energy2 energy v = Ok (E2 E v).
  Proof.
    intros st v A R0 R1 [S0 S1]. unfold energy2.
    destruct (A (fst1 v) (fst1 v) R0 R0 eq_refl (or_introl S0)) as [-> _].
    destruct (A (snd1 v) (snd1 v) R1 R1 eq_refl (or_intror S1)) as [-> _]. reflexivity.
  Qed.

  Lemma data_answers : forall st D, data_for energy dipole E d st -> rydberg (fst1 st) -> rydberg (snd1 st) ->
    answers hs hi hf energy dipole E d st D.
  Proof.
    intros st D A R0 R1. split; [apply (@data_energy2 st); auto; split; auto|].
    intros v (_ & V0 & V1 & (C0 & _) & (C1 & _) & _). split; [apply (@data_energy2 st); auto; split; auto|].
    split; [apply (A (fst1 v) (fst1 st) V0 R0 C0 (or_introl C0))|apply (A (snd1 v) (snd1 st) V1 R1 C1 (or_intror C1))].
  Qed.
  Lemma data_answers2 : forall row col D states, data_for energy dipole E d col -> pstate row -> pstate col -> same_species row col ->
    answers2 hs hi hf energy dipole E d row col D states.
  Proof.
    intros row col D states A (_ & R0 & R1) (_ & R0' & R1') [S0 S1].
    split; [apply (@data_energy2 col); auto; split; auto|]. split; [apply (@data_energy2 col); auto; split; auto|].
    intros v (_ & V0 & V1 & (C0 & _) & (C1 & _) & (C0' & _) & (C1' & _) & _).
    split; [apply (@data_energy2 col); auto; split; auto|].
    split; [apply (A (fst1 v) (fst1 col) V0 R0' C0' (or_introl C0'))|].
    split; [apply (A (snd1 v) (snd1 col) V1 R1' C1' (or_intror C1'))|].
    split; [apply (A (fst1 row) (fst1 v) R0 V0 (eq_sym C0) (or_introl S0))|apply (A (snd1 row) (snd1 v) R1 V1 (eq_sym C1) (or_intror S1))].
  Qed.

  (** The intermediate states form a finite set. *)
  Definition made (st : state2) (xs : list ((Z * Z * Z * Z) * (Z * Z * Z * Z) * (Z * Z))) : list state2 :=
    flat_map (fun x => match mk hs hi hf st (fst (fst x)) (snd (fst x)) with Ok v => [v] | _ => [] end) xs.

  Lemma list_exists : forall st D, pstate st -> s2 (fst1 st) <= 1 -> s2 (snd1 st) <= 1 ->
    l (fst1 st) <= n (fst1 st) - D -> l (snd1 st) <= n (snd1 st) - D ->
    exists L, NoDup L /\ (forall v, In v L <-> intermediate hs hi hf st D v).
  Proof.
    intros st D (B & R0 & R1) S0 S1 D0 D1.
    assert (X : exists L, forall v, In v L <-> intermediate hs hi hf st D v).
    { exists (made st (visits (initializeAngleTerms 1) (fst1 st) (snd1 st) (inject_Z D))).
      intros v. rewrite (@intermediate_exists1 hs hi hf st D v B R0 R1). unfold made. rewrite in_flat_map. split.
      - intros (x & Hx & Hv). apply in_visits in Hx as (n0 & l0 & j0 & n1 & l1 & j1 & q0 & q1 & RR0 & RR1 & Hq & J0 & J1 & ->). cbn [fst snd] in Hv.
        destruct (geo_in 1 q0 q1 Hq) as (Q0 & Q1 & _).
        assert (X0 : exists1 (fst1 st) D n0 l0 j0 (m2 (fst1 st) + 2 * q0)) by (apply reached_iff; auto; split; [exists q0; auto|auto]).
        assert (X1 : exists1 (snd1 st) D n1 l1 j1 (m2 (snd1 st) + 2 * q1)) by (apply reached_iff; auto; split; [exists q1; auto|auto]).
        destruct (@mk_ok hs hi hf st n0 l0 j0 (m2 (fst1 st) + 2 * q0) n1 l1 j1 (m2 (snd1 st) + 2 * q1) B) as (w & Mv & Bv & V0 & V1 & Y0 & Y1 & _ & _);
          [apply ryd_n; auto|apply ryd_n; auto|unfold exists1 in X0; clear - X0; lia|unfold exists1 in X1; clear - X1; lia|].
        rewrite Mv in Hv. destruct Hv as [<-|[]].
        destruct (quad_inv Y0) as (F1 & F2 & F3 & F4). destruct (quad_inv Y1) as (G1 & G2 & G3 & G4).
        rewrite F1, F2, F3, F4, G1, G2, G3, G4. auto.
      - intros (Bv & V0 & V1 & X0 & X1).
        assert (M : mk hs hi hf st (quad (fst1 v)) (quad (snd1 v)) = Ok v).
        { unfold PerturbProofs2.quad. destruct (@mk_ok hs hi hf st (n (fst1 v)) (l (fst1 v)) (j2 (fst1 v)) (m2 (fst1 v)) (n (snd1 v)) (l (snd1 v)) (j2 (snd1 v)) (m2 (snd1 v)) B) as (w & W & Bw & W0 & W1 & Y0 & Y1 & _ & _);
            [apply ryd_n; auto|apply ryd_n; auto|unfold exists1 in X0; clear - X0; lia|unfold exists1 in X1; clear - X1; lia|].
          rewrite W. f_equal. apply (built2_eq (hs := hs) (hi := hi) (hf := hf)); auto; congruence. }
        apply reached_iff in X0 as ((q0 & Q0 & M0) & RR0 & J0); auto. apply reached_iff in X1 as ((q1 & Q1 & M1) & RR1 & J1); auto.
        exists (quad (fst1 v), quad (snd1 v), (q0, q1)). cbn [fst snd]. rewrite M. split; [|left; auto].
        apply in_visits. do 6 eexists. exists q0, q1. split; [exact RR0|]. split; [exact RR1|].
        split; [destruct (geo_size 1) as [[_ H]|[_ H]]; [|apply H; auto]|].
        { exfalso. clear - H. assert (K : length (array_q (initializeAngleTerms 1)) = 9%nat).
          { unfold initializeAngleTerms. destruct (Req_EM_T 1 0); [lra|reflexivity]. }
          assert (In (1, 1) (array_q (initializeAngleTerms 1))).
          { unfold initializeAngleTerms. destruct (Req_EM_T 1 0); [lra|]. cbn. tauto. }
          apply H in H0; lia. }
        rewrite <- M0, <- M1. split; auto. }
    destruct X as [L HL]. exists (nodup state2_dec L).
    split; [apply NoDup_nodup|]. intros v. rewrite nodup_In. auto.
  Qed.

  Lemma angle1_all : forall q0 q1, Z.abs q0 <= 1 -> Z.abs q1 <= 1 -> In (q0, q1) (array_q (initializeAngleTerms 1)).
  Proof.
    intros q0 q1 H0 H1. destruct (geo_size 1) as [[_ H]|[_ H]]; [|apply H; auto].
    exfalso. assert (In (1, 1) (array_q (initializeAngleTerms 1))).
    { unfold initializeAngleTerms. destruct (Req_EM_T 1 0); [lra|]. cbn. tauto. }
    apply H in H2; lia.
  Qed.
  Lemma list_exists2 : forall row col D states, pstate row -> pstate col -> same_species row col ->
    s2 (fst1 col) <= 1 -> s2 (snd1 col) <= 1 -> l (fst1 row) = l (fst1 col) -> l (snd1 row) = l (snd1 col) ->
    l (fst1 col) <= Z.min (n (fst1 row)) (n (fst1 col)) - D -> l (snd1 col) <= Z.min (n (snd1 row)) (n (snd1 col)) - D ->
    exists L, NoDup L /\ (forall v, In v L <-> intermediate2 hs hi hf states row col D v).
  Proof.
    intros row col D states PR PC SS S0 S1 L0 L1 D0 D1. destruct (spins PR PC SS) as [SP0 SP1].
    assert (X : exists L, forall v, In v L <-> coupledB hs hi hf row col D v).
    { exists (made col (visits2 (initializeAngleTerms 1) row col (inject_Z D))). intros v. unfold made. rewrite in_flat_map. split.
      - intros (x & Hx & Hv). apply in_visits2 in Hx as (n0 & l0 & j0 & n1 & l1 & j1 & RR0 & RR1 & Hx).
        apply in_visits2_m in Hx as (q0 & q1 & Hq & J0 & J1 & Z0 & Z1 & _ & ->). cbn [fst snd] in Hv.
        destruct (geo_in 1 q0 q1 Hq) as (Q0 & Q1 & _).
        assert (X0 : existsB (fst1 row) (fst1 col) D n0 l0 j0 (m2 (fst1 col) + 2 * q0)) by (apply reached2_iff; auto; try apply PR; try apply PC; split; [exists q0; auto|auto]).
        assert (X1 : existsB (snd1 row) (snd1 col) D n1 l1 j1 (m2 (snd1 col) + 2 * q1)) by (apply reached2_iff; auto; try apply PR; try apply PC; split; [exists q1; auto|auto]).
        destruct (@mk_ok hs hi hf col n0 l0 j0 (m2 (fst1 col) + 2 * q0) n1 l1 j1 (m2 (snd1 col) + 2 * q1) (proj1 PC)) as (w & Mv & Bv & V0 & V1 & Y0 & Y1 & _ & _);
          [apply ryd_n, PC|apply ryd_n, PC|unfold existsB in X0; clear - X0; lia|unfold existsB in X1; clear - X1; lia|].
        rewrite Mv in Hv. destruct Hv as [<-|[]].
        destruct (quad_inv Y0) as (F1 & F2 & F3 & F4). destruct (quad_inv Y1) as (G1 & G2 & G3 & G4).
        split; [auto|]. split; [split; auto|]. rewrite F1, F2, F3, F4, G1, G2, G3, G4. auto.
      - intros Hc. destruct (coupled_q PR PC SS L0 L1 Hc) as (q0 & q1 & b0 & b1 & Q0 & Q1 & B0 & B1 & M0 & M1 & W0 & W1).
        assert (M := mk_col PC Hc). destruct Hc as (Bv & [V0 V1] & X0 & X1).
        apply reached2_iff in X0 as (_ & Z0 & RR0 & J0); auto; try apply PR; try apply PC.
        apply reached2_iff in X1 as (_ & Z1 & RR1 & J1); auto; try apply PR; try apply PC.
        exists (quad (fst1 v), quad (snd1 v), (q0, q1)). cbn [fst snd]. rewrite M. split; [|left; auto].
        apply in_visits2. do 6 eexists. split; [exact RR0|]. split; [exact RR1|]. apply in_visits2_m. exists q0, q1.
        rewrite <- M0, <- M1. split; [apply angle1_all; auto|]. split; auto. split; auto. split; auto. split; auto. split; auto.
        assert (K : length (array_q (initializeAngleTerms 1)) = 9%nat).
        { unfold initializeAngleTerms. destruct (Req_EM_T 1 0); [lra|reflexivity]. }
        rewrite K. intros; discriminate. }
    destruct X as [L HL]. exists (nodup state2_dec (filter (fun v => negb (if in_dec state2_dec v states then true else false)) L)).
    split; [apply NoDup_nodup|]. intros v. rewrite nodup_In, filter_In, HL, intermediate2_B by auto.
    destruct (in_dec state2_dec v states); cbn; intuition congruence.
  Qed.

  (** ** Both orders of a transition *)
  Lemma phase_q : forall q, phase (q * 2) = (if Z.even q then 1 else -1)%R.
  Proof. intros q. unfold phase, rsgn. rewrite Z.div_mul by lia. reflexivity. Qed.
  Lemma m_even : forall a b, rydberg a -> rydberg b -> s2 a = s2 b -> exists q, m2 a - m2 b = q * 2.
  Proof.
    intros a b [(A & B & C & F & G & H & I) Hn] [(A' & B' & C' & F' & G' & H' & I') Hn'] ES.
    rewrite even_iff in *. destruct F as [f F], G as [g G], F' as [f' F'], G' as [g' G'].
    exists (l a - l b - f - g + f' + g'). lia.
  Qed.
  Lemma dd_out : forall angle d0 d1 q0 q1, ~ (Z.abs q0 <= 1 /\ Z.abs q1 <= 1) -> dd kC angle d0 d1 q0 q1 = (0, 0)%R.
  Proof.
    intros angle d0 d1 q0 q1 H. unfold dd, dipole_dipole. cbv zeta.
    assert (K : forall q i, ~ Z.abs q <= 1 -> cart i q = (0, 0)%R).
    { intros q i Hq. unfold cart. destruct (Z.eqb_spec q 1), (Z.eqb_spec q (-1)), (Z.eqb_spec q 0); try lia. destruct i as [|[|]]; reflexivity. }
    unfold dot, csum3. destruct (Z_le_dec (Z.abs q0) 1).
    - rewrite !(K q1) by tauto. unfold rmul, csub, cadd, cmul. cbn [fst snd]. f_equal; ring.
    - rewrite !(K q0) by tauto. unfold rmul, csub, cadd, cmul. cbn [fst snd]. f_equal; ring.
  Qed.
  Lemma Vdd_value : forall angle a b q0 q1, m2 (fst1 a) - m2 (fst1 b) = q0 * 2 -> m2 (snd1 a) - m2 (snd1 b) = q1 * 2 ->
    Vdd d kC angle a b = (if (Z.abs q0 <=? 1) && (Z.abs q1 <=? 1) then kC * T angle q0 q1 * d (fst1 a) (fst1 b) * d (snd1 a) (snd1 b) else 0)%R.
  Proof.
    intros angle a b q0 q1 H0 H1. unfold Vdd, dvec. rewrite H0, H1, !Z.div_mul by lia.
    change (fst (dd kC angle (d (fst1 a) (fst1 b)) (d (snd1 a) (snd1 b)) q0 q1) =
      (if (Z.abs q0 <=? 1) && (Z.abs q1 <=? 1) then kC * T angle q0 q1 * d (fst1 a) (fst1 b) * d (snd1 a) (snd1 b) else 0)%R).
    destruct (Z.leb_spec (Z.abs q0) 1); destruct (Z.leb_spec (Z.abs q1) 1); cbn [andb].
    - rewrite dd_T by auto. reflexivity.
    - rewrite dd_out by lia. reflexivity.
    - rewrite dd_out by lia. reflexivity.
    - rewrite dd_out by lia. reflexivity.
  Qed.

  Lemma same_atoms : forall a b, pstate a -> pstate b -> same_species a b -> same_atom (fst1 a) (fst1 b) /\ same_atom (snd1 a) (snd1 b).
  Proof. intros a b PA PB SS. destruct (spins PA PB SS) as [X Y]. destruct SS as [U V]. split; split; auto. Qed.

  Lemma Vdd_sym : hermitian_dipole d -> forall angle a b, pstate a -> pstate b -> same_species a b -> Vdd d kC angle a b = Vdd d kC angle b a.
  Proof.
    intros HD angle a b PA PB SS. destruct (same_atoms PA PB SS) as [A0 A1].
    destruct PA as (_ & R0 & R1). destruct PB as (_ & R0' & R1').
    destruct (m_even R0 R0' (proj2 A0)) as [q0 E0]. destruct (m_even R1 R1' (proj2 A1)) as [q1 E1].
    rewrite (@Vdd_value angle a b q0 q1 E0 E1). rewrite (@Vdd_value angle b a (- q0) (- q1)) by lia.
    rewrite !Z.abs_opp. destruct (Z.leb_spec (Z.abs q0) 1); destruct (Z.leb_spec (Z.abs q1) 1); cbn [andb]; auto.
    rewrite (proj1 (HD _ _ R0 R0' A0)), (proj1 (HD _ _ R1 R1' A1)), E0, E1, !phase_q, T_opp, Z.even_add by auto.
    destruct (Z.even q0), (Z.even q1); cbn; ring.
  Qed.

  Lemma second_order2_sym : hermitian_dipole d -> forall angle row col L, pstate row -> pstate col -> same_species row col ->
    (forall v, In v L -> pstate v /\ same_species v col) ->
    second_order2 E d kC angle row col L = second_order2 E d kC angle col row L.
  Proof.
    intros HD angle row col L PR PC [S0 S1] HL. unfold second_order2. apply Rsum_ext. intros v Hv. destruct (HL v Hv) as [PV [V0 V1]].
    rewrite (Vdd_sym HD angle PR PV) by (split; congruence). rewrite (Vdd_sym HD angle PV PC) by (split; auto). ring.
  Qed.

  Lemma second_order_diag : hermitian_dipole d -> forall angle st L, pstate st -> (forall v, In v L -> pstate v /\ same_species v st) ->
    (forall v, In v L -> E2 E st <> E2 E v) ->
    second_order2 E d kC angle st st L = second_order E d kC angle st L.
  Proof.
    intros HD angle st L PS HL HE. unfold second_order2, second_order. apply Rsum_ext. intros v Hv. destruct (HL v Hv) as [PV [V0 V1]].
    rewrite (Vdd_sym HD angle PS PV) by (split; congruence). field. specialize (HE v Hv). lra.
  Qed.

  Lemma inter_pstate : forall states row col D v, intermediate2 hs hi hf states row col D v -> pstate v /\ same_species v col.
  Proof. intros states row col D v (B & R0 & R1 & _ & _ & (S0 & _) & (S1 & _) & _). repeat split; auto; apply R0 || apply R1. Qed.

  (** *** Different l: nothing is visited. *)
  Lemma element_zero : forall g states row col D, pstate row -> pstate col -> same_species row col ->
    s2 (fst1 col) <= 1 -> s2 (snd1 col) <= 1 -> l (fst1 row) <> l (fst1 col) \/ l (snd1 row) <> l (snd1 col) ->
    getC6_element hs hi hf energy dipole kC g states (inject_Z D) row col = Ok 0%R.
  Proof.
    intros g states row col D PR PC SS S0 S1 HL. destruct (spins PR PC SS) as [SP0 SP1].
    assert (V : visits2 g row col (inject_Z D) = []).
    { destruct (visits2 g row col (inject_Z D)) as [|x xs] eqn:EV; auto. exfalso.
      assert (Hx : In x (visits2 g row col (inject_Z D))) by (rewrite EV; left; auto).
      apply in_visits2 in Hx as (n0 & l0 & j0 & n1 & l1 & j1 & RR0 & RR1 & _).
      destruct PR as (_ & R0 & R1). destruct PC as (_ & R0' & R1').
      destruct HL as [HL|HL]; [exact (reached2_never R0 R0' SP0 S0 HL RR0)|exact (reached2_never R1 R1' SP1 S1 HL RR1)]. }
    assert (NA : forall a, rydberg a -> getS2 a = Ok (s2 a)).
    { intros a [(B & _) _]. unfold getS2, shouldBeArtificial. rewrite B. reflexivity. }
    unfold getC6_element. rewrite !NA by (try apply PR; apply PC). cbn [bind]. destruct SS as [X0 X1].
    rewrite SP0, SP1, X0, X1, !Z.eqb_refl, !String.eqb_refl. cbn [negb orb]. rewrite V. reflexivity.
  Qed.

  (** *** C3 *)
  Lemma getC3_element_value : forall angle row col, data_for energy dipole E d col -> pstate row -> pstate col -> same_species row col ->
    getC3_element dipole kC (initializeAngleTerms angle) row col = Ok (Vdd d kC angle row col).
  Proof.
    intros angle row col A PR PC SS. destruct (same_atoms PR PC SS) as [A0 A1]. destruct SS as [S0 S1].
    destruct PR as (_ & R0 & R1). destruct PC as (_ & R0' & R1').
    destruct (m_even R0 R0' (proj2 A0)) as [q0 E0]. destruct (m_even R1 R1' (proj2 A1)) as [q1 E1].
    rewrite (@Vdd_value angle row col q0 q1 E0 E1).
    assert (NA : forall a, rydberg a -> getM2 a = Ok (m2 a)).
    { intros a [(B & _) _]. unfold getM2, shouldBeArtificial. rewrite B. reflexivity. }
    unfold getC3_element. rewrite !NA by auto. cbn [bind]. rewrite E0, E1, !Z.quot_mul by lia.
    destruct (A (fst1 row) (fst1 col) R0 R0' S0 (or_introl S0)) as [_ D0]. destruct (A (snd1 row) (snd1 col) R1 R1' S1 (or_intror S1)) as [_ D1].
    destruct (Z.ltb_spec 1 (Z.abs q0)); destruct (Z.leb_spec (Z.abs q0) 1); try lia; destruct (Z.ltb_spec 1 (Z.abs q1)); destruct (Z.leb_spec (Z.abs q1) 1); try lia; cbn [orb andb];
      try (destruct ((_ =? _)%nat && _); reflexivity).
    destruct (geo_size angle) as [[Hs H']|[Hs H']]; rewrite Hs; cbn [Nat.eqb andb].
    - destruct (Z.eqb_spec (q0 + q1) 0); cbn [negb].
      + rewrite (proj2 (proj2 (geo_in angle q0 q1 (proj2 (H' q0 q1 H0 H2) e)))), D0, D1. reflexivity.
      + rewrite (@geo_out angle q0 q1); auto; [f_equal; ring|]. rewrite H' by auto. auto.
    - rewrite (proj2 (proj2 (geo_in angle q0 q1 (H' q0 q1 H0 H2)))), D0, D1. reflexivity.
  Qed.
  Lemma Vdd_diag : hermitian_dipole d -> forall angle a, pstate a -> Vdd d kC angle a a = 0%R.
  Proof.
    intros HD angle a PA. destruct (same_atoms PA PA) as [A0 A1]; [split; auto|]. destruct PA as (_ & R0 & R1).
    rewrite (@Vdd_value angle a a 0 0) by lia. cbn. rewrite (proj2 (HD _ _ R0 R0 A0) eq_refl). ring.
  Qed.
End Data.

(** ** Matrices *)
Lemma mapM_inv : forall A B (f : A -> res B) xs ys, mapM f xs = Ok ys ->
  length ys = length xs /\ forall i x dflt, nth_error xs i = Some x -> f x = Ok (nth i ys dflt).
Proof.
  intros A B f xs. induction xs as [|x xs IH]; intros ys H; cbn in H.
  - injection H as <-. split; auto. intros [|i] x dflt K; discriminate.
  - destruct (f x) as [y| |] eqn:Ef; try discriminate. cbn in H. destruct (mapM f xs) as [ys'| |] eqn:Em; try discriminate. cbn in H.
    injection H as <-. destruct (IH ys' eq_refl) as [L K]. split; [cbn; auto|]. intros [|i] x' dflt Hx; cbn in *; [congruence|]. apply K. auto.
Qed.
Lemma mapM_ok : forall A B (f : A -> res B) (h : A -> B) xs, (forall x, In x xs -> f x = Ok (h x)) -> mapM f xs = Ok (map h xs).
Proof.
  intros A B f h xs. induction xs as [|x xs IH]; intros H; cbn; auto. rewrite (H x) by (left; auto). cbn. rewrite IH by (intros; apply H; right; auto). reflexivity.
Qed.
Lemma nth_combine : forall A (xs : list A) i k, nth_error (combine (seq k (length xs)) xs) i = option_map (fun x => ((k + i)%nat, x)) (nth_error xs i).
Proof.
  intros A xs. induction xs as [|x xs IH]; intros i k; cbn; [destruct i; reflexivity|]. destruct i as [|i]; cbn; [f_equal; f_equal; lia|].
  rewrite IH. destruct (nth_error xs i); cbn; auto. f_equal. f_equal. lia.
Qed.
Lemma nth_map_seq : forall A (f : nat -> A) k i dflt, (i < k)%nat -> nth i (map f (seq 0 k)) dflt = f i.
Proof. intros A f k i dflt H. rewrite nth_indep with (d' := f 0%nat) by (rewrite map_length, seq_length; auto). rewrite map_nth, seq_nth; auto. Qed.

Lemma selfadjoint_entry : forall up i j, (i < length up)%nat -> (j < length up)%nat ->
  entry (selfadjoint up) i j = nth (Nat.max i j) (nth (Nat.min i j) up []) 0%R.
Proof. intros up i j Hi Hj. unfold entry, selfadjoint. rewrite nth_map_seq by auto. rewrite nth_map_seq by auto. reflexivity. Qed.

Lemma matrix_inv : forall states f M, matrix states f = Ok M ->
  length M = length states /\ (forall r, In r M -> length r = length states) /\
  (forall i j, entry M i j = entry M j i) /\
  (forall i j a b, (i <= j)%nat -> nth_error states i = Some a -> nth_error states j = Some b -> f i j a b = Ok (entry M i j)).
Proof.
  intros states f M H. unfold matrix in H.
  destruct (mapM _ _) as [up| |] eqn:EM; try discriminate. cbn in H. injection H as <-.
  destruct (mapM_inv _ _ EM) as [LU HU]. rewrite combine_length, seq_length, Nat.min_id in LU.
  assert (LS : length (selfadjoint up) = length states) by (unfold selfadjoint; rewrite map_length, seq_length; auto).
  assert (LR : forall r, In r (selfadjoint up) -> length r = length states).
  { intros r Hr. unfold selfadjoint in Hr. apply in_map_iff in Hr as (i & <- & _). rewrite map_length, seq_length. auto. }
  split; auto. split; auto. split.
  - intros i j.
    assert (O1 : forall i j, (length states <= i)%nat \/ (length states <= j)%nat -> entry (selfadjoint up) i j = 0%R).
    { clear i j. intros i j H. unfold entry. destruct (le_lt_dec (length states) i).
      - rewrite nth_overflow; auto. rewrite nth_overflow with (n := i) by (rewrite LS; auto). cbn. lia.
      - destruct H as [H|H]; [lia|]. apply nth_overflow. rewrite LR; auto. apply nth_In. rewrite LS. auto. }
    destruct (le_lt_dec (length states) i); [rewrite !O1 by auto; auto|]. destruct (le_lt_dec (length states) j); [rewrite !O1 by auto; auto|].
    rewrite !selfadjoint_entry by lia. rewrite Nat.max_comm, Nat.min_comm. reflexivity.
  - intros i j a b Hij Ha Hb.
    assert (Hi : (i < length states)%nat) by (apply nth_error_Some; congruence). assert (Hj : (j < length states)%nat) by (apply nth_error_Some; congruence).
    rewrite selfadjoint_entry by lia. rewrite Nat.max_r, Nat.min_l by lia.
    specialize (HU i (i, a) []). rewrite nth_combine, Ha in HU. specialize (HU eq_refl). cbn [fst snd] in HU.
    destruct (mapM_inv _ _ HU) as [_ HR]. specialize (HR j (j, b) 0%R). rewrite nth_combine, Hb in HR. exact (HR eq_refl).
Qed.
Lemma matrix_ok : forall states f (h : nat -> nat -> state2 -> state2 -> R), (forall i j a b, nth_error states i = Some a -> nth_error states j = Some b -> f i j a b = Ok (h i j a b)) ->
  exists M, matrix states f = Ok M.
Proof.
  intros states f h H. unfold matrix.
  assert (K : forall x, In x (combine (seq 0 (length states)) states) -> nth_error states (fst x) = Some (snd x)).
  { intros x Hx. apply In_nth_error in Hx as [i Hi]. rewrite nth_combine in Hi. destruct (nth_error states i) eqn:Es; [|discriminate]. cbn in Hi. injection Hi as <-. auto. }
  rewrite (@mapM_ok _ _ _ (fun rw => map (fun cl => h (fst rw) (fst cl) (snd rw) (snd cl)) (combine (seq 0 (length states)) states))).
  - cbn. eexists. reflexivity.
  - intros rw Hr. apply mapM_ok. intros cl Hc. apply H; auto.
Qed.

(** ** What is not visited does not matter *)
Lemma sum_res_ext : forall A (f g : A -> res R) xs acc, (forall x, In x xs -> f x = g x) -> sum_res f acc xs = sum_res g acc xs.
Proof.
  intros A f g xs. induction xs as [|x xs IH]; intros acc H; cbn; auto. rewrite (H x) by (left; auto). destruct (g x); cbn; auto. apply IH. intros. apply H. right. auto.
Qed.
Lemma getC6_ignores : forall hs hi hf kC energy energy' dipole dipole' g st D (x : state1),
  (forall u, quad u <> quad x -> energy u = energy' u /\ forall w, dipole u w = dipole' u w) ->
  quad (fst1 st) <> quad x -> quad (snd1 st) <> quad x ->
  (forall n0 l0 j0, reached (fst1 st) D n0 l0 j0 -> (n0, l0, j0) <> (n x, l x, j2 x)) ->
  (forall n0 l0 j0, reached (snd1 st) D n0 l0 j0 -> (n0, l0, j0) <> (n x, l x, j2 x)) ->
  getC6 hs hi hf energy dipole kC g st (inject_Z D) = getC6 hs hi hf energy' dipole' kC g st (inject_Z D).
Proof.
  intros hs hi hf kC energy energy' dipole dipole' g st D x H Q0 Q1 N0 N1. unfold getC6.
  destruct (getN (fst1 st)); cbn; auto. destruct (n_range a a (inject_Z D)); auto. destruct (getN (snd1 st)); cbn; auto.
  apply sum_res_ext. intros y Hy. apply in_visits in Hy as (n0 & l0 & j0 & n1 & l1 & j1 & q0 & q1 & R0 & R1 & _ & _ & _ & ->).
  apply N0 in R0. apply N1 in R1. unfold contribution, mk, mkTwo.
  destruct (mkOne hs hi hf (species (fst1 st)) n0 l0 j0 (m2 (fst1 st) + 2 * q0)) as [u| |] eqn:Eu; cbn [bind]; auto.
  destruct (mkOne hs hi hf (species (snd1 st)) n1 l1 j1 (m2 (snd1 st) + 2 * q1)) as [w| |] eqn:Ew; cbn [bind]; auto.
  assert (QU : quad u <> quad x).
  { apply mkOne_inv in Eu as (_ & _ & A & B & C & F & _). unfold PerturbProofs2.quad. intros X. injection X as X1 X2 X3 X4. apply R0. congruence. }
  assert (QW : quad w <> quad x).
  { apply mkOne_inv in Ew as (_ & _ & A & B & C & F & _). unfold PerturbProofs2.quad. intros X. injection X as X1 X2 X3 X4. apply R1. congruence. }
  unfold energy2. cbn [fst1 snd1 mkTwo_pair].
  rewrite (proj1 (H _ Q0)), (proj1 (H _ Q1)), (proj1 (H _ QU)), (proj1 (H _ QW)), (proj2 (H _ QU)), (proj2 (H _ QW)). reflexivity.
Qed.
