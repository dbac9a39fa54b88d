(** Proofs about MatCacheModel: decimal numbers, which queries the program asks, an example. *)
From Coq Require Import ZArith Lia Bool List Reals Lra String Permutation.
From Flocq Require Import Core.
Import ListNotations.
From Verif Require Import Base Racah BasisnamesModel InteractModel InteractSpec InteractProofs OneFieldModel OneFieldSpec OneFieldProofs MatCacheModel MatCacheSpec MatCacheProofs MatCacheProofs2 MatCacheProofs3.
Set Implicit Arguments.
Local Open Scope R_scope.

Definition decimal (x : R) : Prop := exists m e, x = IZR m * bpow radix10 e.
Lemma fmt_decimal : forall x, decimal (fmt x).
Proof.
  intros x. pose proof (@generic_format_round radix10 (FLX_exp 6) (@FLX_exp_valid 6 eq_refl) ZnearestE (valid_rnd_N _) x) as G. unfold generic_format in G.
  exists (Ztrunc (scaled_mantissa radix10 (FLX_exp 6) (fmt x))), (cexp radix10 (FLX_exp 6) (fmt x)). unfold fmt at 1. rewrite G at 1. reflexivity.
Qed.
Lemma decimal_mult : forall x y, decimal x -> decimal y -> decimal (x * y).
Proof. intros x y (m & e & ->) (m' & e' & ->). exists (m * m')%Z, (e + e')%Z. rewrite mult_IZR, bpow_plus. ring. Qed.
Lemma ninth_not_decimal : ~ decimal (/ 9).
Proof.
  intros (m & e & E). destruct (Z_le_gt_dec 0 e) as [P|N].
  - rewrite <- (IZR_Zpower radix10 e P) in E. assert (X : IZR (9 * (m * radix10 ^ e)) = IZR 1) by (rewrite !mult_IZR; lra). apply eq_IZR in X.
    assert (Y : ((9 * (m * radix10 ^ e)) mod 9 = 0)%Z) by (rewrite Z.mul_comm; apply Z.mod_mul; lia). rewrite X in Y. discriminate Y.
  - assert (X : IZR (9 * m) = IZR (radix10 ^ (- e))).
    { rewrite IZR_Zpower by lia. rewrite mult_IZR. replace (bpow radix10 (- e)) with (9 * / 9 * bpow radix10 (- e)) by field. rewrite E, !Rmult_assoc, <- bpow_plus. replace (e + - e)%Z with 0%Z by ring. cbn. ring. }
    apply eq_IZR in X. assert (P : forall n, (0 <= n)%Z -> (radix10 ^ n mod 9 = 1)%Z).
    { intros n Hn. rewrite Zpow_facts.Zpower_mod by lia. change (radix10 mod 9)%Z with 1%Z. rewrite Z.pow_1_l by assumption. reflexivity. }
    specialize (P (- e)%Z ltac:(lia)). rewrite <- X, Z.mul_comm, Z.mod_mul in P by lia. discriminate P.
Qed.

(** ** the element between ns(1/2) and np(1/2) *)
Lemma w3j_sq1 : W3j 1 2 1 (-1) 0 1 * W3j 1 2 1 (-1) 0 1 = / 6.
Proof.
  unfold W3j. cbn -[norm3 span racah_term rsgn].
  assert (S : span 4 (racah_term 1 2 1 (-1) 0) = (-1)%R).
  { unfold span. change (Z.to_nat (2 * 4 + 1)) with 9%nat. cbn [zsum Z.opp Z.add Z.succ Z.pos_sub Pos.succ Pos.pred_double].
    unfold racah_term, invfact, rsgn. cbn. change (INR (fact (Pos.to_nat 1))) with 1%R. rewrite Rinv_1. ring. }
  rewrite S.
  assert (N : norm3 1 2 1 (-1) 0 1 * norm3 1 2 1 (-1) 0 1 = / 6).
  { unfold norm3. rewrite sqrt_sqrt; unfold zfact, invfact; cbn; change (Pos.to_nat 1) with 1%nat; change (Pos.to_nat 3) with 3%nat; cbn; lra. }
  replace (_ * (norm3 1 2 1 (-1) 0 1 * -1) * _) with (rsgn ((1 - 2 - 1) / 2) * rsgn ((1 - 2 - 1) / 2) * (norm3 1 2 1 (-1) 0 1 * norm3 1 2 1 (-1) 0 1)) by (cbn; ring).
  rewrite N. unfold rsgn. cbn. lra.
Qed.
Lemma w3j_sq2 : W3j 0 2 2 0 0 0 * W3j 0 2 2 0 0 0 = / 3.
Proof.
  unfold W3j. cbn -[norm3 span racah_term rsgn].
  assert (S : span 4 (racah_term 0 2 2 0 0) = 1%R).
  { unfold span. change (Z.to_nat (2 * 4 + 1)) with 9%nat. cbn [zsum Z.opp Z.add Z.succ Z.pos_sub Pos.succ Pos.pred_double].
    unfold racah_term, invfact, rsgn. cbn. change (INR (fact (Pos.to_nat 1))) with 1%R. rewrite ?Rinv_1. ring. }
  rewrite S.
  assert (N : norm3 0 2 2 0 0 0 * norm3 0 2 2 0 0 0 = / 3).
  { unfold norm3. rewrite sqrt_sqrt; unfold zfact, invfact; cbn; change (Pos.to_nat 1) with 1%nat; change (Pos.to_nat 2) with 2%nat; change (Pos.to_nat 3) with 3%nat; cbn; lra. }
  replace (_ * (norm3 0 2 2 0 0 0 * 1) * _) with (rsgn ((0 - 2 - 0) / 2) * rsgn ((0 - 2 - 0) / 2) * (norm3 0 2 2 0 0 0 * norm3 0 2 2 0 0 0)) by (cbn; ring).
  rewrite N. unfold rsgn. cbn. lra.
Qed.
Lemma w6j_sq : W6j 0 1 1 1 2 2 * W6j 0 1 1 1 2 2 = / 6.
Proof.
  unfold W6j. cbn -[delta zsum racah6_term].
  assert (S : zsum 0 (Pos.to_nat 7) (racah6_term 0 1 1 1 2 2) = 6%R).
  { change (Pos.to_nat 7) with 7%nat. cbn [zsum Z.add Z.succ Pos.succ Pos.add].
    unfold racah6_term, invfact, zfact, rsgn. cbn. change (Pos.to_nat 1) with 1%nat. change (Pos.to_nat 2) with 2%nat. change (Pos.to_nat 3) with 3%nat. cbn. rewrite ?Rinv_1. ring. }
  rewrite S.
  assert (P : delta 0 1 1 * delta 0 2 2 * delta 1 1 2 * delta 1 2 1 = / 216).
  { unfold delta, zfact, invfact. cbn. change (Pos.to_nat 1) with 1%nat. change (Pos.to_nat 2) with 2%nat. change (Pos.to_nat 3) with 3%nat. cbn. lra. }
  rewrite P. replace (sqrt (/ 216) * 6 * (sqrt (/ 216) * 6)) with (36 * (sqrt (/ 216) * sqrt (/ 216))) by ring. rewrite sqrt_sqrt by lra. lra.
Qed.

(** ** the queries of the program are prepared *)
Lemma mult_q_iff : forall s t k q, sel_multipole_q s t (Z.of_nat k) q = true -> allowed s t k /\ (mm s - mm t = 2 * q)%Z.
Proof.
  intros s t k q H. assert (M : mm s = (mm t + 2 * q)%Z) by (unfold sel_multipole_q in H; rewrite !andb_true_iff, !Z.eqb_eq in H; lia).
  rewrite (@sel_q s t (Z.of_nat k) q) in H by lia. rewrite Z.eqb_refl, Nat2Z.id in H. split; [apply sel_allowed; exact H|lia].
Qed.
Lemma mom_q_iff : forall s t q, sel_momentum_q s t q = true -> moment_allowed s t /\ (mm s - mm t = 2 * q)%Z.
Proof. intros s t q H. unfold sel_momentum_q in H. rewrite !andb_true_iff, !Z.eqb_eq, !Z.leb_le in H. unfold moment_allowed. lia. Qed.
Definition chain (x : slot) (fl : flags) (row col : one) : option slot :=
  match x with E0 | Ep | Em => chainE fl row col | B0 | Bp | Bm => chainB fl row col | _ => chainD fl row col end.
Lemma chain_case : forall (c : bool) (x y : slot) (o : option slot), has x (if c then Some y else o) = true -> (x = y /\ c = true) \/ has x o = true.
Proof. intros [|] x y o H; [left|right; assumption]. destruct x, y; try discriminate H; auto. Qed.
Lemma field_covered : forall fl x row col, has x (chain x fl row col) = true -> exists a, In a (field_requests fl) /\ covers row col a (slot_query x).
Proof.
  intros [e0 e1 b0 b1 dm] x row col H. unfold field_requests. cbn [e0_ e1_ b0_ b1_ dm_].
  assert (X : (x = E0 /\ e0 = true /\ sel_multipole_q row col 1 0 = true) \/ (x = Ep /\ e1 = true /\ sel_multipole_q row col 1 1 = true) \/ (x = Em /\ e1 = true /\ sel_multipole_q row col 1 (-1) = true) \/
    (x = B0 /\ b0 = true /\ sel_momentum_q row col 0 = true) \/ (x = Bp /\ b1 = true /\ sel_momentum_q row col 1 = true) \/ (x = Bm /\ b1 = true /\ sel_momentum_q row col (-1) = true) \/
    (x = D00 /\ dm && (b0 || b1) = true /\ sel_multipole_q row col 0 0 = true) \/ (x = D20 /\ dm && (b0 || b1) = true /\ sel_multipole_q row col 2 0 = true) \/
    (x = D2p /\ dm && b0 && b1 = true /\ sel_multipole_q row col 2 1 = true) \/ (x = D2m /\ dm && b0 && b1 = true /\ sel_multipole_q row col 2 (-1) = true) \/
    (x = D2pp /\ dm && b1 = true /\ sel_multipole_q row col 2 2 = true) \/ (x = D2mm /\ dm && b1 = true /\ sel_multipole_q row col 2 (-2) = true)).
  { unfold chain, chainE, chainB, chainD in H; cbn [e0_ e1_ b0_ b1_ dm_] in H. rewrite <- !(andb_assoc dm).
    destruct x; repeat (apply chain_case in H; destruct H as [[EQ H]|H]; [try discriminate EQ; clear EQ; apply andb_true_iff in H; rewrite ?andb_assoc in H |- *; tauto|]); discriminate H. }
  clear H. destruct X as [(-> & C & S)|[(-> & C & S)|[(-> & C & S)|[(-> & C & S)|[(-> & C & S)|[(-> & C & S)|[(-> & C & S)|[(-> & C & S)|[(-> & C & S)|[(-> & C & S)|[(-> & C & S)|(-> & C & S)]]]]]]]]]]].
  - exists (precalculateElectricMomentum 0). split; [rewrite C, !in_app_iff; cbn [In]; tauto|]. apply (@mult_q_iff row col 1 0) in S. destruct S as [S M]. apply cov_electric; assumption.
  - exists (precalculateElectricMomentum 1). split; [rewrite C, !in_app_iff; cbn [In]; tauto|]. apply (@mult_q_iff row col 1 1) in S. destruct S as [S M]. apply cov_electric; assumption.
  - exists (precalculateElectricMomentum (-1)). split; [rewrite C, !in_app_iff; cbn [In]; tauto|]. apply (@mult_q_iff row col 1 (-1)) in S. destruct S as [S M]. apply cov_electric; assumption.
  - exists (precalculateMagneticMomentum 0). split; [rewrite C, !in_app_iff; cbn [In]; tauto|]. apply (@mom_q_iff row col 0) in S. destruct S as [S M]. apply cov_magnetic; assumption.
  - exists (precalculateMagneticMomentum 1). split; [rewrite C, !in_app_iff; cbn [In]; tauto|]. apply (@mom_q_iff row col 1) in S. destruct S as [S M]. apply cov_magnetic; assumption.
  - exists (precalculateMagneticMomentum (-1)). split; [rewrite C, !in_app_iff; cbn [In]; tauto|]. apply (@mom_q_iff row col (-1)) in S. destruct S as [S M]. apply cov_magnetic; assumption.
  - exists (precalculateDiamagnetism 0 0). split; [rewrite C, !in_app_iff; cbn [In]; tauto|]. apply (@mult_q_iff row col 0 0) in S. destruct S as [S M]. apply cov_diamagnetism; assumption.
  - exists (precalculateDiamagnetism 2 0). split; [rewrite C, !in_app_iff; cbn [In]; tauto|]. apply (@mult_q_iff row col 2 0) in S. destruct S as [S M]. apply cov_diamagnetism; assumption.
  - exists (precalculateDiamagnetism 2 1). split; [rewrite C, !in_app_iff; cbn [In]; tauto|]. apply (@mult_q_iff row col 2 1) in S. destruct S as [S M]. apply cov_diamagnetism; assumption.
  - exists (precalculateDiamagnetism 2 (-1)). split; [rewrite C, !in_app_iff; cbn [In]; tauto|]. apply (@mult_q_iff row col 2 (-1)) in S. destruct S as [S M]. apply cov_diamagnetism; assumption.
  - exists (precalculateDiamagnetism 2 2). split; [rewrite C, !in_app_iff; cbn [In]; tauto|]. apply (@mult_q_iff row col 2 2) in S. destruct S as [S M]. apply cov_diamagnetism; assumption.
  - exists (precalculateDiamagnetism 2 (-2)). split; [rewrite C, !in_app_iff; cbn [In]; tauto|]. apply (@mult_q_iff row col 2 (-2)) in S. destruct S as [S M]. apply cov_diamagnetism; assumption.
Qed.
Lemma pair_covered : forall order n k1 s t s' t', (2 <= n)%nat -> (Z.of_nat n + 1 <= order)%Z -> (1 <= k1)%nat -> (k1 <= n - 1)%nat ->
  (sel_multipole s s' k1 = true -> exists a, In a (pair_requests order) /\ covers s s' a (QMultipole k1)) /\
  (sel_multipole t t' (n - k1) = true -> exists a, In a (pair_requests order) /\ covers t t' a (QMultipole (n - k1))).
Proof.
  intros order n k1 s t s' t' Hn Ho H1 H2. unfold pair_requests. replace (2 <? order)%Z with true by (symmetry; apply Z.ltb_lt; lia).
  split; intros S; (eexists; split; [apply in_map, in_seq|apply cov_multipole, sel_allowed; assumption]); lia.
Qed.
