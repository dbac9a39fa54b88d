(** The direct rotation between two subspaces (Schrieffer-Wolff transformation). *)
From Verif Require Import Base Matrix LookupModel SystemModel SchriefferModel.
From Coq Require Import ZArith Lia Bool Arith List Setoid Morphisms Ring.
Import ListNotations.
Set Implicit Arguments.

Section Alg.
Context {K : StarRing}.
Add Ring Kr5 : (s_ring K).

Lemma assoc_l : forall A B C X : mat K, meq (mmul A B) C -> meq (mmul A (mmul B X)) (mmul C X).
Proof. intros. rewrite <- mmul_assoc, H. reflexivity. Qed.

Global Instance mneg_proper : Proper (meq ==> meq) (@mneg K).
Proof. intros A B H. unfold mneg. rewrite H. reflexivity. Qed.

Section Refl.
Variables (n : nat) (P : mat K).
Hypothesis (rP : nr P = n) (cP : nc P = n).
Notation R := (reflection n P).

Lemma nr_refl : nr R = n. Proof. cbn. rewrite rP. apply Nat.min_id. Qed.
Lemma nc_refl : nc R = n. Proof. cbn. rewrite cP. apply Nat.min_id. Qed.

Lemma refl_mul_l : forall X, nr X = n -> meq (mmul R X) (madd X (mneg (mscale (sadd s1 s1) (mmul P X)))).
Proof.
  intros X H. unfold reflection. rewrite mmul_add_l by (cbn; congruence). rewrite mmul_id_l by auto.
  unfold mneg. rewrite !mmul_scale_l. reflexivity.
Qed.
Lemma refl_mul_r : forall X, nc X = n -> meq (mmul X R) (madd X (mneg (mscale (sadd s1 s1) (mmul X P)))).
Proof.
  intros X H. unfold reflection. rewrite mmul_add_r by (cbn; congruence). rewrite mmul_id_r by auto.
  unfold mneg. rewrite !mmul_scale_r. reflexivity.
Qed.
Lemma refl_adj : meq (madj P) P -> meq (madj R) R.
Proof.
  intros [_ [_ H]]. split; [cbn; congruence|]. split; [cbn; congruence|]. intros i j Hi Hj. cbn in Hi, Hj. rewrite cP, Nat.min_id in Hi. rewrite rP, Nat.min_id in Hj.
  cbn [madj reflection madd mneg mscale mid at_]. specialize (H i j). cbn [madj at_ nr nc] in H. rewrite rP, cP in H. specialize (H Hi Hj).
  rewrite s_conj_add, !s_conj_mul, H, delta_conj, sconj_opp, sconj_1, s_conj_add, sconj_1, (delta_sym j i). reflexivity.
Qed.
Lemma refl_sq : meq (mmul P P) P -> meq (mmul R R) (mid n).
Proof.
  intro H. rewrite refl_mul_l by apply nr_refl. rewrite refl_mul_r by auto. rewrite H.
  split; [cbn; rewrite rP, !Nat.min_id; auto|]. split; [cbn; rewrite cP, !Nat.min_id; auto|].
  intros i j _ _. cbn. ring.
Qed.
(** R X = - X for vectors X of the subspace *)
Lemma refl_range : forall X, nr X = n -> meq (mmul P X) X -> meq (mmul R X) (mneg X).
Proof.
  intros X E H. rewrite refl_mul_l by auto. rewrite H. split; [cbn; apply Nat.min_id|]. split; [cbn; apply Nat.min_id|].
  intros i j _ _. cbn. ring.
Qed.
End Refl.

(** The direct rotation. *)
Variables (n : nat) (R0 R U : mat K).
Hypothesis (dR0 : nr R0 = n /\ nc R0 = n) (dR : nr R = n /\ nc R = n) (dU : unitary n U).
Hypothesis (R2 : meq (mmul R R) (mid n)).
Hypothesis root : meq (mmul U U) (mmul R0 R).
Hypothesis flip : meq (mmul R (mmul U R)) (madj U).

Lemma rotates : meq (mmul U (mmul R (madj U))) R0.
Proof.
  assert (E : meq (mmul R (madj U)) (mmul U R)).
  { rewrite <- flip. rewrite (assoc_l _ R2). rewrite mmul_id_l; [reflexivity|]. cbn. apply dU. }
  rewrite E. rewrite (assoc_l R root). rewrite mmul_assoc, R2. apply mmul_id_r. apply dR0.
Qed.
End Alg.

Section Proj.
Context {K : StarRing}.
Add Ring Kr6 : (s_ring K).
Hypothesis cancel2 : forall x : K, sadd x x = s0 -> x = s0.
Variable n : nat.
Variables P0 P U : mat K.
Hypothesis (d0 : nr P0 = n /\ nc P0 = n) (d : nr P = n /\ nc P = n) (dU : unitary n U).
Hypothesis idem : meq (mmul P P) P.
Hypothesis root : meq (mmul U U) (mmul (reflection n P0) (reflection n P)).
Hypothesis flip : meq (mmul (reflection n P) (mmul U (reflection n P))) (madj U).

Lemma rotates_P : meq (mmul U (mmul P (madj U))) P0.
Proof.
  destruct d as [rP cP], d0 as [rP0 cP0]. pose proof dU as (rU & cU & _ & UU).
  assert (H : meq (mmul U (mmul (reflection n P) (madj U))) (reflection n P0)).
  { apply (@rotates K n (reflection n P0) (reflection n P) U); auto.
    - split; [apply nr_refl; auto|apply nc_refl; auto].
    - apply refl_sq; auto. }
  rewrite refl_mul_l in H by (cbn; auto).
  rewrite mmul_add_r in H by (cbn; congruence). rewrite UU in H. unfold mneg in H. rewrite !mmul_scale_r in H.
  split; [cbn; congruence|]. split; [cbn; congruence|]. intros i j Hi Hj.
  destruct H as (_ & _ & H). specialize (H i j). cbn [madd mscale mid nr nc reflection mneg] in H.
  rewrite rP0, cP0 in *. cbn [mmul madj nr nc] in Hi, Hj, H. rewrite rU in *. rewrite !Nat.min_id in H. specialize (H Hi Hj).
  set (x := at_ (mmul U (mmul P (madj U))) i j) in *. cbn [at_ madd mscale mid mneg reflection] in H. fold x in H.
  assert (E : sadd (ssub x (at_ P0 i j)) (ssub x (at_ P0 i j)) = s0).
  { transitivity (ssub (sadd (delta i j) (smul (sopp s1) (smul (sadd s1 s1) (at_ P0 i j)))) (sadd (delta i j) (smul (sopp s1) (smul (sadd s1 s1) x)))); [ring|].
    rewrite <- H. ring. }
  apply cancel2 in E. transitivity (sadd (ssub x (at_ P0 i j)) (at_ P0 i j)); [ring|]. rewrite E. ring.
Qed.
Lemma back_P : meq (mmul (madj U) P0) (mmul P (madj U)).
Proof.
  rewrite <- rotates_P. pose proof dU as (rU & cU & U1 & _). rewrite (assoc_l (mmul P (madj U)) U1). apply mmul_id_l. cbn. apply d.
Qed.

(** The subspaces are the ranges of B0 and of L = B S, S a selection of columns of the isometry B. *)
Variables B0 B S : mat K.
Hypothesis (nB0 : nr B0 = n) (nB : nr B = n) (cB : nc B = nr S).
Hypothesis (iB0 : isometry B0) (iB : isometry B) (iS : isometry S).
Hypothesis (eP0 : P0 = mmul B0 (madj B0)) (eP : P = mmul (mmul B S) (madj (mmul B S))).
Hypothesis kk : nc S = nc B0.
Notation L := (mmul B S).
Notation T := (mmul (mmul (mmul (madj B) (madj U)) P0) B0).
Notation N := (mmul (madj U) B0).

Lemma iL : isometry L.
Proof.
  unfold isometry. rewrite madj_mul, !mmul_assoc. rewrite (assoc_l S iB). rewrite mmul_id_l by (rewrite cB; auto). exact iS.
Qed.
Lemma PL : meq (mmul P L) L.
Proof. rewrite eP, mmul_assoc. rewrite (iL : meq (mmul (madj L) L) (mid (nc L))). apply mmul_id_r. reflexivity. Qed.
Lemma P0B0 : meq (mmul P0 B0) B0.
Proof. rewrite eP0, mmul_assoc, (iB0 : meq (mmul (madj B0) B0) (mid (nc B0))). apply mmul_id_r. reflexivity. Qed.
Lemma BBP : meq (mmul B (mmul (madj B) P)) P.
Proof.
  rewrite eP at 1. rewrite !mmul_assoc. rewrite (assoc_l (mmul S (madj (mmul B S))) iB). rewrite mmul_id_l by (cbn; auto). rewrite eP, mmul_assoc. reflexivity.
Qed.
Lemma T_eq : meq T (mmul (madj B) N).
Proof. rewrite !mmul_assoc, P0B0. reflexivity. Qed.

(** The new basis is U^+ B0. *)
Lemma new_basis : meq (mmul B T) N.
Proof.
  rewrite !mmul_assoc. rewrite (assoc_l B0 back_P). rewrite !mmul_assoc. 
  rewrite <- (mmul_assoc (madj B) P), <- (mmul_assoc B). rewrite BBP. rewrite <- mmul_assoc, <- back_P, mmul_assoc, P0B0. reflexivity.
Qed.
Lemma N_iso : isometry N.
Proof.
  destruct dU as (rU & cU & U1 & U2). unfold isometry. rewrite madj_mul, madj_adj, mmul_assoc. rewrite (assoc_l B0 U2), mmul_id_l by auto. exact iB0.
Qed.
Lemma N_proj : meq (mmul N (madj N)) P.
Proof.
  destruct dU as (rU & cU & U1 & U2). rewrite madj_mul, madj_adj, mmul_assoc, <- (mmul_assoc B0). rewrite <- eP0.
  rewrite <- mmul_assoc. rewrite back_P, mmul_assoc, U1. apply mmul_id_r. apply d.
Qed.
Definition Q : mat K := mmul (madj L) N.
Lemma N_LQ : meq N (mmul L Q).
Proof.
  unfold Q. rewrite <- mmul_assoc, <- eP, <- N_proj, mmul_assoc. pose proof N_iso as I. unfold isometry in I. rewrite I. symmetry. apply mmul_id_r. reflexivity.
Qed.
Lemma Q_unitary : unitary (nc B0) Q.
Proof.
  split; [cbn; auto|]. split; [reflexivity|]. split.
  - unfold Q. rewrite (madj_mul (madj L) N), (madj_adj L), mmul_assoc. rewrite <- (mmul_assoc L), <- eP, <- N_proj, mmul_assoc. pose proof N_iso as I. unfold isometry in I. rewrite I.
    rewrite mmul_id_r by reflexivity. rewrite I. reflexivity.
  - unfold Q. rewrite (madj_mul (madj L) N), (madj_adj L), mmul_assoc. rewrite <- (mmul_assoc N), N_proj. rewrite PL. pose proof iL as I. unfold isometry in I. rewrite I.
    cbn [nc mmul]. rewrite kk. reflexivity.
Qed.
Lemma T_SQ : meq T (mmul S Q).
Proof.
  rewrite T_eq, N_LQ, !mmul_assoc. rewrite (assoc_l (mmul S Q) iB). apply mmul_id_l. cbn. auto.
Qed.
End Proj.
