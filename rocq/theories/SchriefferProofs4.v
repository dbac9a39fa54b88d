(** The result of the Schrieffer-Wolff transformation, over the complex numbers. *)
From Verif Require Import Base Matrix LookupModel LookupProofs SystemModel SystemProofs FieldModel SchriefferModel SchriefferSpec SchriefferProofs SchriefferProofs2 SchriefferProofs3.
From Coq Require Import ZArith Lia Bool Arith Reals Lra List Setoid Morphisms.
Import ListNotations.
Set Implicit Arguments.
Local Open Scope R_scope.
Add Ring CRr4 : (s_ring CR).
Notation M := (mat CR).

Lemma mmul_zero_r : forall (A : M) p q, nc A = p -> meq (mmul A (mzero p q)) (mzero (nr A) q).
Proof. intros A p q H. split; [reflexivity|]. split; [reflexivity|]. intros i j _ _. cbn [mmul mzero at_]. apply (@bsum_zero CR). intros. ring. Qed.
Lemma mneg_mneg : forall A : M, meq (mneg (mneg A)) A.
Proof. intros. split; [reflexivity|]. split; [reflexivity|]. intros. cbn [mneg mscale at_]. ring. Qed.
Lemma proj_adj : forall B : M, meq (madj (mmul B (madj B))) (mmul B (madj B)).
Proof. intros. rewrite madj_mul, madj_adj. reflexivity. Qed.
Lemma proj_idem : forall B : M, isometry B -> meq (mmul (mmul B (madj B)) (mmul B (madj B))) (mmul B (madj B)).
Proof. intros B I. rewrite mmul_assoc. rewrite (assoc_l (madj B) I), mmul_id_l by reflexivity. reflexivity. Qed.

Section Two.
Variables (n : nat) (B0 L : M).
Hypothesis (r0 : nr B0 = n) (rL : nr L = n) (i0 : isometry B0) (iL : isometry L).
Notation P0 := (mmul B0 (madj B0)).
Notation P := (mmul L (madj L)).
Notation R0 := (reflection n P0).
Notation R := (reflection n P).
Notation W := (mmul R0 R).

Lemma R0_dim : nr R0 = n /\ nc R0 = n. Proof. split; [apply nr_refl|apply nc_refl]; exact r0. Qed.
Lemma R_dim : nr R = n /\ nc R = n. Proof. split; [apply nr_refl|apply nc_refl]; exact rL. Qed.
Lemma R0_adj : meq (madj R0) R0. Proof. apply refl_adj; try exact r0. apply proj_adj. Qed.
Lemma R_adj : meq (madj R) R. Proof. apply refl_adj; try exact rL. apply proj_adj. Qed.
Lemma R0_sq : meq (mmul R0 R0) (mid n). Proof. apply refl_sq; try exact r0. apply proj_idem, i0. Qed.
Lemma R_sq : meq (mmul R R) (mid n). Proof. apply refl_sq; try exact rL. apply proj_idem, iL. Qed.
Lemma W_adj : meq (madj W) (mmul R R0). Proof. rewrite madj_mul, R0_adj, R_adj. reflexivity. Qed.
Lemma W_unitary : unitary n W.
Proof.
  split; [apply R0_dim|]. split; [apply R_dim|]. rewrite W_adj. split.
  - rewrite mmul_assoc, (assoc_l R R0_sq), mmul_id_l by apply R_dim. apply R_sq.
  - rewrite mmul_assoc, (assoc_l R0 R_sq), mmul_id_l by apply R0_dim. apply R0_sq.
Qed.
Lemma W_flip : meq (mmul R (mmul W R)) (madj W).
Proof. rewrite W_adj, mmul_assoc, R_sq, mmul_id_r by apply R0_dim. reflexivity. Qed.
Lemma W_flip0 : meq (mmul R0 (mmul W R0)) (madj W).
Proof. rewrite W_adj, mmul_assoc, (assoc_l (mmul R R0) R0_sq). apply mmul_id_l. apply R_dim. Qed.

(** If the two subspaces are transversal, -1 is no eigenvalue of the product of the reflections. *)
Lemma split_x : forall x, nr x = n -> nc x = 1%nat -> meq (mmul W x) (mneg x) -> meq x (madd (mmul P x) (mmul P0 x)).
Proof.
  intros x rx cx E. assert (E1 : meq (mmul R x) (mneg (mmul R0 x))).
  { rewrite <- (mmul_id_l (mmul R x) (n := n)) by apply R_dim. rewrite <- R0_sq, !mmul_assoc. rewrite <- (mmul_assoc R0 R x), E. unfold mneg. rewrite mmul_scale_r. reflexivity. }
  rewrite !refl_mul_l in E1 by (auto; try exact rL; try exact r0).
  split; [cbn; rewrite r0, rL; rewrite Nat.min_id; auto|]. split; [cbn; rewrite Nat.min_id; auto|]. intros i j Hi Hj.
  destruct E1 as (_ & _ & E1). specialize (E1 i j). cbn [madd mneg mscale nr nc mmul madj] in E1. rewrite rL in E1. rewrite rx, cx, !Nat.min_id in *. specialize (E1 Hi Hj).
  cbn [madd at_ mneg mscale] in *. set (a := at_ (mmul P x) i j) in *. set (b := at_ (mmul P0 x) i j) in *. set (c := at_ x i j) in *.
  assert (Q : ssub (s := CR) c (sadd (s := CR) a b) = s0).
  { apply cancel2. transitivity (ssub (s := CR) (sadd (s := CR) c (smul (s := CR) (sopp (s := CR) s1) (smul (s := CR) (sadd (s := CR) s1 s1) a))) (smul (s := CR) (sopp (s := CR) s1) (sadd (s := CR) c (smul (s := CR) (sopp (s := CR) s1) (smul (s := CR) (sadd (s := CR) s1 s1) b))))); [ring|].
    rewrite E1. ring. }
  transitivity (sadd (s := CR) (ssub (s := CR) c (sadd (s := CR) a b)) (sadd (s := CR) a b)); [ring|]. rewrite Q. ring.
Qed.
Lemma add_cancel : forall (x A C : M) p q, nr x = p -> nc x = q -> nr A = p -> nc A = q -> meq x (madd A x) -> meq A (mzero p q).
Proof.
  intros x A C p q rx cx rA cA E. split; [auto|]. split; [auto|]. intros i j Hi Hj. destruct E as (_ & _ & E).
  specialize (E i j). rewrite rx, cx in E. rewrite rA in Hi. rewrite cA in Hj. specialize (E Hi Hj). cbn [madd at_] in E. cbn [mzero at_].
  transitivity (ssub (s := CR) (sadd (s := CR) (at_ A i j) (at_ x i j)) (at_ x i j)); [ring|]. rewrite <- E. ring.
Qed.
End Two.

Lemma free : forall n (B0 L : M), nr B0 = n -> nr L = n -> isometry B0 -> isometry L -> transversal L B0 ->
  minus_one_free n (mmul (reflection n (mmul B0 (madj B0))) (reflection n (mmul L (madj L)))).
Proof.
  intros n B0 L r0 rL i0 iL [T1 T2] x rx cx E. pose proof (@split_x n B0 L r0 rL i0 x rx cx E) as S.
  assert (X1 : meq (mmul (madj L) x) (mzero (nc L) 1)).
  { apply (T1 (mmul (madj L) x)); [reflexivity|exact cx|].
    rewrite mmul_assoc, <- (mmul_assoc L). apply add_cancel with (mmul (madj B0) x); auto; try (cbn; auto; fail).
    rewrite S at 1. rewrite mmul_add_r by (cbn; congruence). rewrite <- (mmul_assoc (madj B0) (mmul B0 (madj B0)) x), <- (mmul_assoc (madj B0) B0).
    rewrite (i0 : meq (mmul (madj B0) B0) (mid (nc B0))), mmul_id_l by reflexivity. reflexivity. }
  assert (X0 : meq (mmul (madj B0) x) (mzero (nc B0) 1)).
  { apply (T2 (mmul (madj B0) x)); [reflexivity|exact cx|].
    rewrite mmul_assoc, <- (mmul_assoc B0). apply add_cancel with (mmul (madj L) x); auto; try (cbn; auto; fail).
    rewrite S at 1. rewrite mmul_add_r by (cbn; congruence). rewrite <- (mmul_assoc (madj L) (mmul L (madj L)) x), <- (mmul_assoc (madj L) L).
    rewrite (iL : meq (mmul (madj L) L) (mid (nc L))), mmul_id_l by reflexivity. apply madd_comm. }
  rewrite S, !mmul_assoc, X1, X0. rewrite (mmul_zero_r L 1 eq_refl), (mmul_zero_r B0 1 eq_refl). rewrite rL, r0.
  split; [cbn; lia|]. split; [cbn; lia|]. intros i j _ _. cbn [madd mzero at_]. ring.
Qed.

(** The overlap of the new vectors with those of system0. *)
Lemma direct_posdef : forall n (B0 L U : M), nr B0 = n -> nr L = n -> isometry B0 -> isometry L ->
  principal_root n (mmul (reflection n (mmul B0 (madj B0))) (reflection n (mmul L (madj L)))) U ->
  posdef (nc B0) (mmul (madj B0) (mmul (madj U) B0)).
Proof.
  intros n B0 L U r0 rL i0 iL (dU & E & A). pose proof dU as (rU & cU & _).
  assert (F : meq (mmul (reflection n (mmul B0 (madj B0))) (mmul U (reflection n (mmul B0 (madj B0))))) (madj U)).
  { apply root_flip with (n := n) (W := mmul (reflection n (mmul B0 (madj B0))) (reflection n (mmul L (madj L)))); auto; try (apply R0_dim; auto; fail).
    - apply R0_adj; auto. - apply R0_sq; auto. - apply W_flip0; auto. }
  assert (H : meq (mmul (reflection n (mmul B0 (madj B0))) B0) (mneg B0)).
  { apply refl_range; auto. rewrite mmul_assoc, (i0 : meq (mmul (madj B0) B0) (mid (nc B0))). apply mmul_id_r. reflexivity. }
  assert (H2 : meq (mmul (madj B0) (reflection n (mmul B0 (madj B0)))) (mneg (madj B0))).
  { rewrite <- (R0_adj B0 r0), <- madj_mul, H. unfold mneg. rewrite madj_scale. rewrite (@sconj_opp CR), (@sconj_1 CR). reflexivity. }
  assert (Herm : meq (mmul (madj B0) (mmul (madj U) B0)) (mmul (madj B0) (mmul U B0))).
  { rewrite <- F. rewrite !mmul_assoc, H. rewrite <- mmul_assoc, H2. unfold mneg. rewrite mmul_scale_l, !mmul_scale_r. apply mneg_mneg. }
  split; [reflexivity|]. split; [reflexivity|]. split.
  - unfold hermitian. rewrite !madj_mul, !madj_adj, mmul_assoc. rewrite Herm. reflexivity.
  - intros x N. rewrite (@qform_ext (nc B0) _ (mmul (madj B0) (mmul U B0)) x).
    + rewrite (@qform_conj n (nc B0) U B0 x) by auto. apply A. apply (@iso_inj n (nc B0) B0 x); auto.
    + intros i j Hi Hj. destruct Herm as (_ & _ & Q). apply Q; auto.
Qed.

(** There is only one orthonormal basis of a subspace whose overlap with B0 is positive definite. *)
Lemma posdef_root_unique : forall k A B, posdef k A -> posdef k B -> meq (mmul A A) (mmul B B) -> meq A B.
Proof.
  intros k A B (rA & cA & hA & pA) (rB & cB & hB & pB) E.
  set (X := madd A (mneg B)).
  assert (rX : nr X = k) by (unfold X; cbn; rewrite rA, rB; apply Nat.min_id).
  assert (cX : nc X = k) by (unfold X; cbn; rewrite cA, cB; apply Nat.min_id).
  assert (Z : forall i j, (i < k)%nat -> (j < k)%nat -> at_ X i j = @s0 CR).
  { apply (@sylvester k A B X); auto.
    unfold X. rewrite mmul_add_r by (cbn; congruence). rewrite mmul_add_l by (cbn; congruence). unfold mneg. rewrite mmul_scale_l, mmul_scale_r, <- E.
    split; [cbn; lia|]. split; [cbn; lia|]. intros i j _ _. cbn [madd mscale at_]. ring. }
  split; [congruence|]. split; [congruence|]. intros i j Hi Hj. rewrite rA in Hi. rewrite cA in Hj. specialize (Z i j Hi Hj). unfold X in Z. cbn [madd mneg mscale at_] in Z.
  transitivity (sadd (s := CR) (sadd (s := CR) (at_ A i j) (smul (s := CR) (sopp (s := CR) s1) (at_ B i j))) (at_ B i j)); [ring|]. rewrite Z. ring.
Qed.
Lemma posdef_injective : forall k A, posdef k A -> forall X Y, nr X = k -> nr Y = k -> nc X = nc Y -> meq (mmul A X) (mmul A Y) -> meq X Y.
Proof.
  intros k A (rA & cA & _ & pA) X Y rX rY cXY E. split; [congruence|]. split; [congruence|]. intros i j Hi Hj. rewrite rX in Hi.
  destruct (cdec (ssub (s := CR) (at_ X i j) (at_ Y i j))) as [Z|Z].
  - transitivity (sadd (s := CR) (ssub (s := CR) (at_ X i j) (at_ Y i j)) (at_ Y i j)); [ring|]. rewrite Z. ring.
  - exfalso. assert (N : exists i, (i < k)%nat /\ ssub (s := CR) (at_ X i j) (at_ Y i j) <> s0) by eauto.
    pose proof (pA (fun i => ssub (s := CR) (at_ X i j) (at_ Y i j)) N) as Q.
    replace (qform k A (fun i => ssub (s := CR) (at_ X i j) (at_ Y i j))) with (@s0 CR) in Q; [cbn in Q; lra|].
    symmetry. apply (@bsum_zero CR). intros a Ha.
    transitivity (smul (s := CR) (sconj (ssub (s := CR) (at_ X a j) (at_ Y a j))) (ssub (s := CR) (at_ (mmul A X) a j) (at_ (mmul A Y) a j))).
    + f_equal. cbn [mmul at_]. rewrite cA, rX, rY, Nat.min_id. rewrite <- (@bsum_sub CR). apply (@bsum_ext CR). intros. ring.
    + destruct E as (_ & _ & E). rewrite (E a j) by (cbn [mmul nr nc]; congruence || auto). ring.
Qed.
Lemma polar_unique : forall n k (B0 N N' : M), nr B0 = n -> nr N = n -> nr N' = n -> nc B0 = k -> nc N = k -> nc N' = k ->
  isometry N -> isometry N' -> meq (mmul N (madj N)) (mmul N' (madj N')) ->
  posdef k (mmul (madj B0) N) -> posdef k (mmul (madj B0) N') -> meq N N'.
Proof.
  intros n k B0 N N' r0 rN rN' c0 cN cN' iN iN' EP D D'.
  assert (EN : meq N' (mmul N (mmul (madj N) N'))).
  { rewrite <- mmul_assoc, EP, mmul_assoc, (iN' : meq (mmul (madj N') N') (mid (nc N'))). symmetry. apply mmul_id_r. reflexivity. }
  assert (EA : meq (mmul (madj B0) N) (mmul (madj B0) N')).
  { apply posdef_root_unique with k; auto.
    assert (H : forall X, posdef k (mmul (madj B0) X) -> meq (mmul (mmul (madj B0) X) (mmul (madj B0) X)) (mmul (madj B0) (mmul (mmul X (madj X)) B0))).
    { intros X (_ & _ & h & _). unfold hermitian in h. rewrite <- h at 2. rewrite madj_mul, madj_adj, !mmul_assoc. reflexivity. }
    rewrite (H N D), (H N' D'), EP. reflexivity. }
  assert (EV : meq (mid k) (mmul (madj N) N')).
  { apply posdef_injective with (k := k) (A := mmul (madj B0) N); auto.
    rewrite (mmul_assoc (madj B0) N (mmul (madj N) N')), <- EN, <- EA. apply mmul_id_r. exact cN. }
  rewrite EN, <- EV. symmetry. apply mmul_id_r. exact cN.
Qed.
