(** Proofs for PropOneField.v: coefficients and selection rules. *)
From Coq Require Import ZArith Lia Bool List Reals Lra.
Import ListNotations.
From Verif Require Import Base Matrix FieldModel FieldSpec BasisnamesModel BasisProofs CombineModel InteractModel InteractSpec InteractProofs InteractProofs2 InteractProofs3 OneFieldModel OneFieldSpec.
Set Implicit Arguments.
Local Open Scope R_scope.

Lemma sel_q : forall s t k q, (0 <= k)%Z -> mm s = (mm t + 2 * q)%Z -> forall q', sel_multipole_q s t k q' = ((q =? q')%Z && sel_multipole s t (Z.to_nat k)).
Proof.
  intros s t k q K M q'. unfold sel_multipole_q, sel_multipole. rewrite Z2Nat.id by exact K.
  destruct (Z.eqb_spec q q') as [<-|N]; cbn [andb].
  - replace (mm s =? mm t + 2 * q)%Z with true by (symmetry; apply Z.eqb_eq; exact M).
    assert (X : (Z.abs q <=? k)%Z = (Z.abs (mm s - mm t) <=? 2 * k)%Z) by (destruct (Z.leb_spec (Z.abs q) k), (Z.leb_spec (Z.abs (mm s - mm t)) (2 * k)); lia || reflexivity).
    rewrite X, andb_true_r. reflexivity.
  - replace (mm s =? mm t + 2 * q')%Z with false by (symmetry; apply Z.eqb_neq; lia). rewrite ?andb_false_r. reflexivity.
Qed.
Definition momentb (s t : one) : bool := (l_ s =? l_ t)%Z && (Z.abs (jj s - jj t) <=? 2)%Z && (Z.abs (mm s - mm t) <=? 2)%Z.
Lemma mom_q : forall s t q, mm s = (mm t + 2 * q)%Z -> forall q', sel_momentum_q s t q' = ((q =? q')%Z && momentb s t).
Proof.
  intros s t q M q'. unfold sel_momentum_q, momentb. destruct (Z.eqb_spec q q') as [<-|N]; cbn [andb].
  - replace (mm s =? mm t + 2 * q)%Z with true by (symmetry; apply Z.eqb_eq; exact M).
    assert (X : (Z.abs q <=? 1)%Z = (Z.abs (mm s - mm t) <=? 2)%Z) by (destruct (Z.leb_spec (Z.abs q) 1), (Z.leb_spec (Z.abs (mm s - mm t)) 2); lia || reflexivity).
    rewrite X, andb_true_r. reflexivity.
  - replace (mm s =? mm t + 2 * q')%Z with false by (symmetry; apply Z.eqb_neq; lia). rewrite ?andb_false_r. reflexivity.
Qed.
Lemma momentb_spec : forall s t, momentb s t = true <-> moment_allowed s t.
Proof. intros s t. unfold momentb, moment_allowed. rewrite !andb_true_iff, Z.eqb_eq, !Z.leb_le. tauto. Qed.

(** components of interpolated fields *)
Lemma spherical_real : forall isreal v, (isreal = true -> vy v = 0) -> change_to_spherical isreal v = Ok (spherical v).
Proof.
  intros isreal v H. unfold change_to_spherical, spherical. destruct isreal; [|reflexivity]. destruct (Req_EM_T (vy v) 0) as [E|E]; [|destruct E; auto].
  rewrite E. replace (- 0 / sqrt 2) with 0 by (unfold Rdiv; ring). reflexivity.
Qed.
Lemma lerp_spherical : forall v w t, lerp3 (spherical v) (spherical w) t = spherical (along v w t).
Proof.
  intros v w t. unfold lerp3, spherical, along, lerp, vx, vy, vz. cbn [s_m s_0 s_p fst snd]. f_equal; apply injective_projections; cbn; unfold Rdiv; ring.
Qed.
Lemma nonzero_false : forall x, nonzero x = false -> x = (0, 0).
Proof. intros x. unfold nonzero. destruct (Req_EM_T (fst x) 0) as [A|]; [|discriminate]. destruct (Req_EM_T (snd x) 0) as [B|]; [|discriminate]. intros _. apply injective_projections; auto. Qed.
Lemma flag_lerp : forall a b t, nonzero a || nonzero b = false -> lerp a b t = (0, 0).
Proof. intros a b t H. apply orb_false_iff in H. destruct H as [A B]. apply nonzero_false in A, B. rewrite A, B. apply injective_projections; cbn; ring. Qed.
Lemma sqrt2_nz : sqrt 2 <> 0. Proof. apply Rgt_not_eq. apply sqrt_lt_R0. lra. Qed.
Lemma pm_zero : forall v, s_p (spherical v) = (0, 0) -> s_m (spherical v) = (0, 0).
Proof.
  intros v H. unfold spherical in *. cbn [s_p s_m] in *. injection H as H1 H2. assert (Z : forall x, - x / sqrt 2 = 0 -> x = 0).
  { intros x E. replace x with (- (- x / sqrt 2) * sqrt 2) by (field; exact sqrt2_nz). rewrite E. ring. }
  apply Z in H1. apply Z in H2. rewrite H1, H2. apply injective_projections; cbn; unfold Rdiv; ring.
Qed.

Definition pick (b : bool) (v : R) : CR := if b then ofR v else ofR 0.
Section Parts.
Variable fl : flags.
Variables e b : sph.
Hypothesis F1 : e0_ fl = false -> s_0 e = (0, 0).
Hypothesis F2 : e1_ fl = false -> s_p e = (0, 0) /\ s_m e = (0, 0).
Hypothesis F3 : b0_ fl = false -> s_0 b = (0, 0).
Hypothesis F4 : b1_ fl = false -> s_p b = (0, 0) /\ s_m b = (0, 0).
Variables s t : one.
Variable q : Z.
Hypothesis M : mm s = (mm t + 2 * q)%Z.

Ltac cz := apply injective_projections; cbn; try ring.
Lemma partE : forall v, (sel_multipole s t 1 = false -> v = 0) ->
  cadd (copp (cmul (s_0 e) (pick (has E0 (chainE fl s t)) v))) (cadd (cmul (s_m e) (pick (has Ep (chainE fl s t)) v)) (cmul (s_p e) (pick (has Em (chainE fl s t)) v))) = cmul (minus_dot e q) (v, 0).
Proof.
  intros v Z. unfold chainE. rewrite !(@sel_q s t 1 q) by (auto; lia). change (Z.to_nat 1) with 1%nat. destruct (sel_multipole s t 1) eqn:A.
  - rewrite !andb_true_r. unfold minus_dot. destruct (Z.eqb_spec q 0), (Z.eqb_spec q 1), (Z.eqb_spec q (-1)); try lia; rewrite ?andb_true_r, ?andb_false_r.
    + destruct (e0_ fl) eqn:G; [cz|]. rewrite F1 by auto. cz.
    + destruct (e1_ fl) eqn:G; [cz|]. destruct F2 as [X Y]; auto. rewrite X, Y. cz.
    + destruct (e1_ fl) eqn:G; [cz|]. destruct F2 as [X Y]; auto. rewrite X, Y. cz.
    + cz.
  - rewrite Z by auto. rewrite !andb_false_r. cbn [has pick]. cz.
Qed.
Lemma partB : forall v, (momentb s t = false -> v = 0) ->
  cadd (cmul (s_0 b) (pick (has B0 (chainB fl s t)) v)) (cadd (copp (cmul (s_m b) (pick (has Bp (chainB fl s t)) v))) (copp (cmul (s_p b) (pick (has Bm (chainB fl s t)) v)))) = copp (cmul (minus_dot b q) (v, 0)).
Proof.
  intros v Z. unfold chainB. rewrite !(@mom_q s t q) by auto. destruct (momentb s t) eqn:A.
  - rewrite !andb_true_r. unfold minus_dot. destruct (Z.eqb_spec q 0), (Z.eqb_spec q 1), (Z.eqb_spec q (-1)); try lia; rewrite ?andb_true_r, ?andb_false_r.
    + destruct (b0_ fl) eqn:G; [cz|]. rewrite F3 by auto. cz.
    + destruct (b1_ fl) eqn:G; [cz|]. destruct F4 as [X Y]; auto. rewrite X, Y. cz.
    + destruct (b1_ fl) eqn:G; [cz|]. destruct F4 as [X Y]; auto. rewrite X, Y. cz.
    + cz.
  - rewrite Z by auto. rewrite !andb_false_r. cbn [has pick]. cz.
Qed.
Definition ljm : bool := (l_ s =? l_ t)%Z && (jj s =? jj t)%Z && (mm s =? mm t)%Z.
Lemma sel0 : (0 <= jj s)%Z -> (0 <= jj t)%Z -> (q =? 0)%Z && sel_multipole s t 0 = ljm.
Proof.
  intros Js Jt. unfold ljm. apply eq_true_iff_eq. rewrite !andb_true_iff, !Z.eqb_eq. rewrite sel_allowed. unfold allowed. split.
  - intros [Q (A & _ & B & _)]. lia.
  - intros [[A B] C]. split; [lia|]. split; [lia|]. split; [exists (l_ s); lia|]. split; [lia|]. split; [lia|]. intros [X _]. discriminate X.
Qed.
Lemma partD : forall v w, (0 <= jj s)%Z -> (0 <= jj t)%Z -> (sel_multipole s t 0 = false -> v = 0) -> (sel_multipole s t 2 = false -> w = 0) ->
  cadd (cmul (csub (cmul (s_0 b) (s_0 b)) (cmul (cmul (2, 0) (s_p b)) (s_m b))) (pick (has D00 (chainD fl s t)) v))
 (cadd (copp (cmul (cadd (cmul (s_0 b) (s_0 b)) (cmul (s_p b) (s_m b))) (pick (has D20 (chainD fl s t)) w)))
 (cadd (cmul (s_m b) (cmul (s_0 b) (cmul (ofR (sqrt 3)) (pick (has D2p (chainD fl s t)) w))))
 (cadd (cmul (s_p b) (cmul (s_0 b) (cmul (ofR (sqrt 3)) (pick (has D2m (chainD fl s t)) w))))
 (cadd (copp (cmul (s_m b) (cmul (s_m b) (cmul (ofR (sqrt (3 / 2))) (pick (has D2pp (chainD fl s t)) w)))))
       (copp (cmul (s_p b) (cmul (s_p b) (cmul (ofR (sqrt (3 / 2))) (pick (has D2mm (chainD fl s t)) w))))))))) =
  if dm_ fl then cadd (cmul (dia_rank0 b q) (v, 0)) (cmul (dia_rank2 b q) (if ljm then 0 else w, 0)) else (0, 0).
Proof.
  intros v w Js Jt Z0 Z2. unfold chainD. rewrite !(@sel_q s t 0 q), !(@sel_q s t 2 q) by (auto; lia). change (Z.to_nat 0) with 0%nat. change (Z.to_nat 2) with 2%nat.
  rewrite (sel0 Js Jt). destruct (dm_ fl); [|cbn [andb has pick]; cz]. cbn [andb].
  assert (V0 : v = 0 \/ ljm = true \/ q <> 0%Z).
  { destruct (Z.eq_dec q 0) as [Q|]; [|auto]. destruct (sel_multipole s t 0) eqn:A0; [|left; auto]. right. left. rewrite <- (sel0 Js Jt), A0, Q. reflexivity. }
  assert (Q0 : ljm = true -> q = 0%Z) by (intros L; unfold ljm in L; rewrite !andb_true_iff, !Z.eqb_eq in L; lia).
  unfold dia_rank0, dia_rank2, diaTerms. cbn [t00 t20 t21 t2m1 t22 t2m2].
  destruct ljm eqn:L; rewrite ?andb_true_r, ?andb_false_r.
  - rewrite Q0 by auto. cbn [Z.eqb]. destruct (b0_ fl) eqn:G; [cbn [orb has slot_eqb pick]; cz|]. destruct (b1_ fl) eqn:G1; [cbn [orb has slot_eqb pick]; cz|].
    cbn [orb andb has pick]. rewrite F3 by auto. destruct F4 as [X Y]; auto. rewrite X, Y. cz.
  - assert (VZ : (q =? 0)%Z = true -> v = 0) by (intros Q; apply Z.eqb_eq in Q; destruct V0 as [?|[?|?]]; auto; [discriminate|contradiction]).
    destruct (sel_multipole s t 2) eqn:A2; [|rewrite (Z2 eq_refl)]; rewrite ?andb_true_r, ?andb_false_r.
    + destruct (Z.eqb_spec q 0) as [Q|Q].
      * rewrite VZ by auto. subst q. cbn [Z.eqb]. rewrite ?andb_true_r, ?andb_false_r. destruct (b0_ fl) eqn:G; [cbn [orb has slot_eqb pick]; cz|]. destruct (b1_ fl) eqn:G1; [cbn [orb has slot_eqb pick]; cz|].
        cbn [orb andb has pick]. rewrite F3 by auto. destruct F4 as [X Y]; auto. rewrite X, Y. cz.
      * rewrite ?andb_false_r. destruct (Z.eqb_spec q 1), (Z.eqb_spec q (-1)), (Z.eqb_spec q 2), (Z.eqb_spec q (-2)); try lia; rewrite ?andb_true_r, ?andb_false_r.
        -- destruct (b0_ fl) eqn:G, (b1_ fl) eqn:G1; cbn [andb has slot_eqb pick]; try (rewrite F3 by auto); try (destruct F4 as [X Y]; auto; rewrite X, Y); cz.
        -- destruct (b0_ fl) eqn:G, (b1_ fl) eqn:G1; cbn [andb has slot_eqb pick]; try (rewrite F3 by auto); try (destruct F4 as [X Y]; auto; rewrite X, Y); cz.
        -- destruct (b1_ fl) eqn:G1; cbn [andb has slot_eqb pick]; try (destruct F4 as [X Y]; auto; rewrite X, Y); cz.
        -- destruct (b1_ fl) eqn:G1; cbn [andb has slot_eqb pick]; try (destruct F4 as [X Y]; auto; rewrite X, Y); cz.
        -- cbn [has pick]. cz.
    + cbn [has pick]. destruct (Z.eqb_spec q 0) as [Q|Q]; [rewrite VZ by auto|]; cz.
Qed.
End Parts.
