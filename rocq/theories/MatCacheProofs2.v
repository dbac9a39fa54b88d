(** Proofs about MatCacheModel: histories. *)
From Coq Require Import ZArith Lia Bool List Reals Lra String Permutation.
From Flocq Require Import Core Relative.
Import ListNotations.
From Verif Require Import Base BasisnamesModel InteractModel InteractSpec InteractProofs OneFieldModel OneFieldSpec MatCacheModel MatCacheSpec MatCacheProofs.
Set Implicit Arguments.
Local Open Scope R_scope.

Lemma momentum_allowed : forall s t, sel_momentum s t = true <-> moment_allowed s t.
Proof. intros s t. unfold sel_momentum, moment_allowed. rewrite !andb_true_iff, Z.eqb_eq, !Z.leb_le. tauto. Qed.

Section H.
Variables w3j w6j : Z -> Z -> Z -> Z -> Z -> Z -> R.
Variable radial : method -> string -> Z -> Z -> Z -> Z -> Z -> Z -> Z -> res num.
Variable Rad : method -> string -> Z -> Z * Z * Z -> Z * Z * Z -> R.
Variable ord : list okey -> list okey.
Hypothesis ord_perm : forall l, Permutation (ord l) l.
Hypothesis RE : radial_exact radial Rad.
Variable me : method.
Variable sp : string.
Hypothesis me_ok : me <> Error.
Variables cMag gL gS cDia : R.
Notation inv := (inv w3j w6j radial Rad me sp).
Notation good := (good w3j w6j radial Rad me sp).
Notation file_ok := (file_ok w3j w6j Rad).
Notation ans := (answer w3j w6j (Rad me sp) cMag gL gS cDia).

Lemma known : forall m k x, inv m -> dom m k -> good k x -> exists y, read k m = (Num y, m) /\ six_digits x y.
Proof.
  intros m k x [_ I] D G. destruct (@read_known k m D) as (v & L & E). destruct (I _ _ L) as (x' & y & G' & -> & S). exists y. split; [assumption|].
  assert (x = x') by (destruct G as [_ G], G' as [_ G']; specialize (G []); specialize (G' []); congruence). congruence.
Qed.
Lemma like_keys : forall a s t s' t', n_ s' = n_ s -> l_ s' = l_ s -> jj s' = jj s -> mm s' = mm s -> n_ t' = n_ t -> l_ t' = l_ t -> jj t' = jj t -> mm t' = mm t ->
  pair_keys a s' t' = pair_keys a s t /\ wanted_pair a s' t' = wanted_pair a s t.
Proof.
  intros a s t s' t' A1 A2 A3 A4 B1 B2 B3 B4. unfold pair_keys, wanted_pair, key_radial, key_angular, key_s, key_l, key_m, sel_multipole, sel_momentum. rewrite A1, A2, A3, A4, B1, B2, B3, B4. auto.
Qed.
Lemma like_doublet : forall s names, Forall doublet names -> listed s names -> doublet s.
Proof. intros s names F (s' & I & _ & L & J & M). rewrite Forall_forall in F. specialize (F _ I). unfold doublet in *. rewrite L, J, M in F. exact F. Qed.
Lemma covers_wanted : forall s t a x, covers s t a x -> wanted_pair a s t = true.
Proof.
  intros s t a x C. destruct C as [k A|q E A|q E A|k q E A|k]; unfold wanted_pair, precalculateMultipole, precalculateElectricMomentum, precalculateMagneticMomentum, precalculateDiamagnetism, precalculateRadial; cbn [q_ mode kappa]; rewrite ?andb_true_l, ?andb_true_iff, ?Z.eqb_eq; auto.
  - apply sel_allowed. assumption.
  - split; [lia|]. apply sel_allowed. assumption.
  - split; [lia|]. apply momentum_allowed. assumption.
  - split; [lia|]. apply sel_allowed. assumption.
Qed.
Lemma get_covered : forall m a names x s t, inv m -> Forall doublet names -> (forall k, In k (all_keys a names) -> dom m k) ->
  listed s names -> listed t names -> covers s t a x ->
  exists y, get cMag gL gS cDia x s t m = (Num y, m) /\ ans x s t y.
Proof.
  intros m a names x s t I F D Ls Lt C. pose proof (like_doublet F Ls) as Ds. pose proof (like_doublet F Lt) as Dt.
  assert (K : forall k, In k (pair_keys a s t) -> dom m k).
  { intros k Hk. apply D. apply in_keys. destruct Ls as (s' & Is & As & Bs & Cs & Es), Lt as (t' & It & At & Bt & Ct & Et).
    destruct (@like_keys a s t s' t' As Bs Cs Es At Bt Ct Et) as [P W]. exists s', t'. rewrite P, W. repeat split; auto. apply covers_wanted in C. assumption. }
  assert (GR := fun k => @good_radial w3j w6j radial Rad RE me sp me_ok k s t). assert (GA := fun k => @good_angular w3j w6j radial Rad me sp k s t Ds Dt).
  assert (GS := fun k => @good_s w3j w6j radial Rad me sp k s t Ds Dt). assert (GL := fun k => @good_l w3j w6j radial Rad me sp k s t Ds Dt). assert (GM := fun k => @good_m w3j w6j radial Rad me sp k s t).
  assert (R1 : forall k z, In k (pair_keys a s t) -> good k z -> exists y, read k m = (Num y, m) /\ six_digits z y) by (intros k z Hk Gk; apply known; auto).
  destruct C as [k A|q E A|q E A|k q E A|k].
  - destruct (R1 (key_radial (Z.of_nat k) s t) _ (or_introl eq_refl) (GR k)) as (a1 & E1 & S1). destruct (R1 (key_angular (Z.of_nat k) s t) _ (or_intror (or_introl eq_refl)) (GA k)) as (a2 & E2 & S2).
    destruct (R1 (key_s (Z.of_nat k) s t) _ (or_intror (or_intror (or_introl eq_refl))) (GS k)) as (a3 & E3 & S3). destruct (R1 (key_m (Z.of_nat k) s t) _ (or_intror (or_intror (or_intror (or_introl eq_refl)))) (GM k)) as (a4 & E4 & S4).
    exists (a1 * a2 * a3 * a4). unfold get, getMultipole. cbv zeta. rewrite E1, E2, E3, E4. split; [reflexivity|]. exists a1, a2, a3, a4. auto.
  - destruct (R1 (key_radial (Z.of_nat 1%nat) s t) _ (or_introl eq_refl) (GR 1%nat)) as (a1 & E1 & S1). destruct (R1 (key_angular (Z.of_nat 1%nat) s t) _ (or_intror (or_introl eq_refl)) (GA 1%nat)) as (a2 & E2 & S2).
    destruct (R1 (key_s (Z.of_nat 1%nat) s t) _ (or_intror (or_intror (or_introl eq_refl))) (GS 1%nat)) as (a3 & E3 & S3). destruct (R1 (key_m (Z.of_nat 1%nat) s t) _ (or_intror (or_intror (or_intror (or_introl eq_refl)))) (GM 1%nat)) as (a4 & E4 & S4).
    exists (a1 * a2 * a3 * a4). unfold get, getMultipole. cbv zeta. rewrite E1, E2, E3, E4. split; [reflexivity|]. exists a1, a2, a3, a4. auto.
  - destruct (R1 (key_radial (Z.of_nat 0%nat) s t) _ (or_introl eq_refl) (GR 0%nat)) as (a1 & E1 & S1). destruct (R1 (key_angular (Z.of_nat 1%nat) s t) _ (or_intror (or_introl eq_refl)) (GA 1%nat)) as (a2 & E2 & S2).
    destruct (R1 (key_s (Z.of_nat 1%nat) s t) _ (or_intror (or_intror (or_introl eq_refl))) (GS 1%nat)) as (a3 & E3 & S3). destruct (R1 (key_l (Z.of_nat 1%nat) s t) _ (or_intror (or_intror (or_intror (or_introl eq_refl)))) (GL 1%nat)) as (a4 & E4 & S4).
    eexists. unfold get, getMagneticMomentum. change (Z.of_nat 1) with 1%Z in *. change (Z.of_nat 0) with 0%Z in *. rewrite E1, E2, E3, E4. cbn [op2]. split; [reflexivity|]. exists a1, a2, a3, a4. do 4 (split; [assumption|]).
    replace (1 / 2 * (1 / 2 + 1) * (2 * (1 / 2) + 1)) with (3 / 2) by field. reflexivity.
  - destruct (R1 (key_radial (Z.of_nat 2%nat) s t) _ (or_introl eq_refl) (GR 2%nat)) as (a1 & E1 & S1). destruct (R1 (key_angular (Z.of_nat k) s t) _ (or_intror (or_introl eq_refl)) (GA k)) as (a2 & E2 & S2).
    destruct (R1 (key_s (Z.of_nat k) s t) _ (or_intror (or_intror (or_introl eq_refl))) (GS k)) as (a3 & E3 & S3). destruct (R1 (key_m (Z.of_nat k) s t) _ (or_intror (or_intror (or_intror (or_introl eq_refl)))) (GM k)) as (a4 & E4 & S4).
    exists (cDia * a1 * a2 * a3 * a4). unfold get, getDiamagnetism. cbv zeta. change (Z.of_nat 2) with 2%Z in *. rewrite E1, E2, E3, E4. split; [reflexivity|]. exists a1, a2, a3, a4. auto.
  - destruct (R1 (key_radial (Z.of_nat k) s t) _ (or_introl eq_refl) (GR k)) as (a1 & E1 & S1). exists a1. auto.
Qed.
Lemma run_spec : forall h m done, inv m -> (forall a names, In (a, names) done -> Forall doublet names /\ forall k, In k (all_keys a names) -> dom m k) ->
  prepared done h -> doublets h -> files_ok file_ok h ->
  let r := run w3j w6j radial ord cMag gL gS cDia (Object me sp m) h in
  snd r <> UB /\
  (forall vs, snd r = Ok vs -> Forall2 (fun v '(x, s, t) => exists y, v = Num y /\ ans x s t y) vs (queries h)) /\
  (alone h -> exists vs, snd r = Ok vs).
Proof.
  induction h as [|[a names db db'|x s t] h IH]; intros m done I D P DB FO r.
  - unfold r. cbn. split; [discriminate|]. split; [|eauto]. intros vs E. injection E as <-. constructor.
  - assert (Fn : Forall doublet names) by (apply (DB a names db db'); left; reflexivity). assert (Fo : file_ok db) by (apply (FO a names db db'); left; reflexivity).
    destruct (@precalculate_spec w3j w6j radial Rad ord ord_perm RE me sp me_ok a names db db' m I Fn Fo) as (E1 & E2 & U & OK & AL).
    unfold r. cbn [run queries]. destruct (precalculate w3j w6j radial ord a names db db' (Object me sp m)) as [o' [t| |]] eqn:EP; cbn [fst snd] in *.
    + destruct (OK t eq_refl) as (I' & D'). destruct o' as [me' sp' m']. cbn in E1, E2, I', D'. subst me' sp'.
      destruct (IH m' ((a, names) :: done) I') as (A & B & C).
      * intros a0 names0 [E|IN]; [injection E as <- <-; split; [assumption|]; intros k Hk; apply D'; right; assumption|]. destruct (D _ _ IN) as [Q1 Q2]. split; [assumption|]. intros k Hk. apply D'. left. apply Q2. assumption.
      * exact P.
      * intros a0 n0 d0 d0' IN. apply (DB a0 n0 d0 d0'). right. assumption.
      * intros a0 n0 d0 d0' IN. apply (FO a0 n0 d0 d0'). right. assumption.
      * split; [exact A|]. split; [exact B|]. intros AH. apply C. intros a0 n0 d0 d0' IN. apply (AH a0 n0 d0 d0'). right. assumption.
    + split; [discriminate|]. split; [discriminate|]. intros AH. destruct AL as [t Et]; [apply (AH a names db db'); left; reflexivity|discriminate Et].
    + exfalso. apply U. reflexivity.
  - destruct P as [(a & names & IN & Ls & Lt & C) P]. destruct (D _ _ IN) as [Fn Kn]. destruct (@get_covered m a names x s t I Fn Kn Ls Lt C) as (y & E & A).
    unfold r. cbn [run queries]. cbn [mem meth species]. rewrite E.
    destruct (IH m done I D P) as (U & B & AL); [intros a0 n0 d0 d0' IN'; apply (DB a0 n0 d0 d0'); right; assumption|intros a0 n0 d0 d0' IN'; apply (FO a0 n0 d0 d0'); right; assumption|].
    destruct (run w3j w6j radial ord cMag gL gS cDia (Object me sp m) h) as [o' [vs| |]]; cbn [snd] in *.
    + split; [discriminate|]. split; [|intros; eauto]. intros vs' E'. injection E' as <-. constructor; [exists y; auto|]. apply B. reflexivity.
    + split; [discriminate|]. split; [discriminate|]. intros AH. destruct AL as [vs' E']; [intros a0 n0 d0 d0' IN'; apply (AH a0 n0 d0 d0'); right; assumption|discriminate E'].
    + exfalso. apply U. reflexivity.
Qed.
End H.

(** ** six digits *)
Lemma fmt_error : forall x, Rabs (fmt x - x) <= 5 / 1000000 * Rabs x.
Proof.
  intros x. unfold fmt. replace (5 / 1000000) with (/ 2 * bpow radix10 (- (6) + 1)).
  - apply relative_error_N_FLX. reflexivity.
  - change (bpow radix10 (- (6) + 1)) with (/ IZR 100000). lra.
Qed.
Lemma six_error : forall x y, six_digits x y -> exists e, y = x * (1 + e) /\ Rabs e <= 5 / 1000000.
Proof.
  intros x y [->| ->]; [exists 0; split; [ring|rewrite Rabs_R0; lra]|]. destruct (Req_dec x 0) as [->|N].
  - exists 0. split; [|rewrite Rabs_R0; lra]. unfold fmt. rewrite round_0; [ring|]. apply valid_rnd_N.
  - exists ((fmt x - x) / x). split; [field; assumption|]. pose proof (fmt_error x) as H. unfold Rdiv at 1. rewrite Rabs_mult, Rabs_inv. apply (Rmult_le_reg_r (Rabs x)); [apply Rabs_pos_lt; assumption|].
    rewrite Rmult_assoc, Rinv_l, Rmult_1_r by (apply Rabs_no_R0; assumption). exact H.
Qed.
Lemma four_errors : forall c a b d e a' b' d' e', six_digits a a' -> six_digits b b' -> six_digits d d' -> six_digits e e' ->
  Rabs (c * a' * b' * d' * e' - c * a * b * d * e) <= 21 / 1000000 * Rabs (c * a * b * d * e).
Proof.
  intros c a b d e a' b' d' e' A B D E. apply six_error in A, B, D, E. destruct A as (x & -> & X), B as (y & -> & Y), D as (z & -> & Z), E as (w & -> & W).
  replace (c * (a * (1 + x)) * (b * (1 + y)) * (d * (1 + z)) * (e * (1 + w)) - c * a * b * d * e) with (((1 + x) * (1 + y) * (1 + z) * (1 + w) - 1) * (c * a * b * d * e)) by ring.
  rewrite Rabs_mult. apply Rmult_le_compat_r; [apply Rabs_pos|]. apply Rabs_le. apply Rabs_le_inv in X, Y, Z, W.
  assert (P : forall l u l' u' s t, 0 <= l -> 0 <= l' -> l <= s <= u -> l' <= t <= u' -> l * l' <= s * t <= u * u') by (intros; split; apply Rmult_le_compat; lra).
  set (v := 5 / 1000000) in *. assert (V : 0 < v < 1 / 10000) by (unfold v; lra).
  assert (Q : 0 <= 1 - v) by lra.
  assert (H2 := P (1 - v) (1 + v) (1 - v) (1 + v) (1 + x) (1 + y) ltac:(lra) ltac:(lra) ltac:(lra) ltac:(lra)).
  assert (H3 := P _ _ (1 - v) (1 + v) _ (1 + z) (Rmult_le_pos _ _ Q Q) Q H2 ltac:(lra)).
  assert (H4 := P _ _ (1 - v) (1 + v) _ (1 + w) (Rmult_le_pos _ _ (Rmult_le_pos _ _ Q Q) Q) Q H3 ltac:(lra)).
  unfold v in H4. lra.
Qed.
