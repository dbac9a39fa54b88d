(** Principal square roots over the complex numbers; the embedding; the selection. *)
From Verif Require Import Base Matrix LookupModel LookupProofs SystemModel SystemProofs FieldModel SchriefferModel SchriefferSpec SchriefferProofs.
From Coq Require Import ZArith Lia Bool Arith Reals Lra List Setoid Morphisms.
Import ListNotations.
Set Implicit Arguments.
Local Open Scope R_scope.
Add Ring CRr : (s_ring CR).

Lemma cdec : forall z : CR, z = @s0 CR \/ z <> @s0 CR.
Proof.
  intros [a b]. destruct (Req_EM_T a 0) as [->|N]. destruct (Req_EM_T b 0) as [->|N]. left; reflexivity.
  right. intro E. injection E. auto. right. intro E. injection E. auto.
Qed.
Lemma vdec : forall n (x : nat -> CR), (forall i, (i < n)%nat -> x i = @s0 CR) \/ (exists i, (i < n)%nat /\ x i <> @s0 CR).
Proof.
  intros n x. induction n as [|n [IH|(i & Hi & N)]].
  - left. intros. lia.
  - destruct (cdec (x n)) as [E|N].
    + left. intros i Hi. destruct (Nat.eq_dec i n) as [->|]; auto. apply IH. lia.
    + right. exists n. split; auto.
  - right. exists i. split; [lia|auto].
Qed.
Lemma qform_ext : forall n M M' x, (forall i j, (i < n)%nat -> (j < n)%nat -> at_ M i j = at_ M' i j) -> qform n M x = qform n M' x.
Proof. intros n M M' x H. apply (@bsum_ext CR). intros i Hi. f_equal. apply (@bsum_ext CR). intros j Hj. rewrite H by auto. reflexivity. Qed.
Lemma qform_zero : forall n M x, (forall i, (i < n)%nat -> x i = @s0 CR) -> qform n M x = @s0 CR.
Proof. intros n M x H. apply (@bsum_zero CR). intros i Hi. rewrite H by auto. rewrite (@sconj_0 CR). ring. Qed.
Lemma accretive_nonneg : forall n M x, accretive n M -> 0 <= fst (qform n M x).
Proof.
  intros n M x A. destruct (vdec n x) as [Z|N]. rewrite qform_zero by auto. cbn. lra. apply Rlt_le, A, N.
Qed.
Lemma sum_nonneg : forall n (f : nat -> CR), (forall i, (i < n)%nat -> 0 <= fst (f i)) -> 0 <= fst (bsum (K := CR) n f).
Proof.
  induction n; intros f H; cbn [bsum]. cbn. lra. cbn [sadd CR cadd fst]. unfold cadd. cbn [fst].
  pose proof (H n (Nat.lt_succ_diag_r n)). pose proof (IHn f (fun i Hi => H i (Nat.lt_lt_succ_r _ _ Hi))). lra.
Qed.
Lemma sum_pos : forall n (f : nat -> CR) k, (forall i, (i < n)%nat -> 0 <= fst (f i)) -> (k < n)%nat -> 0 < fst (f k) -> 0 < fst (bsum (K := CR) n f).
Proof.
  induction n; intros f k H Hk P; [lia|]. cbn [bsum]. cbn [sadd CR cadd fst]. unfold cadd. cbn [fst].
  destruct (Nat.eq_dec k n) as [->|].
  - pose proof (@sum_nonneg n f (fun i Hi => H i (Nat.lt_lt_succ_r _ _ Hi))). lra.
  - pose proof (H n (Nat.lt_succ_diag_r n)). pose proof (IHn f k (fun i Hi => H i (Nat.lt_lt_succ_r _ _ Hi))). assert (k < n)%nat by lia. intuition lra.
Qed.

(** A X + X B = 0 has only the solution 0. *)
Lemma sylvester : forall n (A B X : mat CR), nr A = n -> nc A = n -> nr B = n -> nc B = n -> nr X = n -> nc X = n ->
  accretive n A -> accretive n B -> meq (mmul A X) (mneg (mmul X B)) ->
  forall i j, (i < n)%nat -> (j < n)%nat -> at_ X i j = @s0 CR.
Proof.
  intros n A B X rA cA rB cB rX cX HA HB E i0 j0 Hi0 Hj0. destruct (cdec (at_ X i0 j0)) as [|N]; auto. exfalso.
  set (l := bsum (K := CR) n (fun j => qform n A (fun i => at_ X i j))).
  set (r := bsum (K := CR) n (fun i => qform n B (fun j => sconj (at_ X i j)))).
  assert (Lp : 0 < fst l).
  { apply sum_pos with j0; auto. intros; apply accretive_nonneg; auto. apply HA. eauto. }
  assert (Rp : 0 <= fst r) by (apply sum_nonneg; intros; apply accretive_nonneg; auto).
  assert (Q : l = sopp (s := CR) r).
  { transitivity (bsum (K := CR) n (fun j => bsum (K := CR) n (fun i => smul (sconj (at_ X i j)) (at_ (mmul A X) i j)))).
    - apply (@bsum_ext CR). intros j Hj. apply (@bsum_ext CR). intros i Hi. cbn [mmul at_]. rewrite cA, rX, Nat.min_id. reflexivity.
    - rewrite (@bsum_swap CR). unfold r. transitivity (smul (s := CR) (sopp (s := CR) s1) (bsum (K := CR) n (fun i => qform n B (fun j => sconj (at_ X i j))))); [|ring].
      rewrite (@bsum_mul_l CR). apply (@bsum_ext CR). intros i Hi.
      transitivity (smul (s := CR) (sopp (s := CR) s1) (bsum (K := CR) n (fun j => smul (s := CR) (at_ (mmul X B) i j) (sconj (at_ X i j))))).
      + rewrite (@bsum_mul_l CR). apply (@bsum_ext CR). intros j Hj. destruct E as (_ & _ & E). specialize (E i j). cbn [mmul nr nc] in E. rewrite rA, cX in E.
        rewrite (E Hi Hj). cbn [mneg mscale at_]. ring.
      + f_equal. unfold qform. cbn [mmul at_]. rewrite cX, rB, Nat.min_id.
        transitivity (bsum (K := CR) n (fun j => bsum (K := CR) n (fun k => smul (s := CR) (smul (at_ X i k) (at_ B k j)) (sconj (at_ X i j))))).
        * apply (@bsum_ext CR). intros j Hj. apply (@bsum_mul_r CR).
        * rewrite (@bsum_swap CR). apply (@bsum_ext CR). intros k Hk. rewrite (s_conj_conj CR), (@bsum_mul_l CR). apply (@bsum_ext CR). intros j Hj. ring. }
  rewrite Q in Lp. destruct r as [a b]. cbn in Lp, Rp. lra.
Qed.

(** <x, M^+ x> is the conjugate of <x, M x>. *)
Lemma qform_adj : forall n M x, nr M = n -> nc M = n -> qform n (madj M) x = sconj (qform n M x).
Proof.
  intros n M x rM cM. unfold qform. rewrite (@bsum_conj CR).
  transitivity (bsum (K := CR) n (fun i => bsum (K := CR) n (fun j => smul (s := CR) (smul (sconj (x i)) (sconj (at_ M j i))) (x j)))).
  - apply (@bsum_ext CR). intros i Hi. rewrite (@bsum_mul_l CR). apply (@bsum_ext CR). intros j Hj. cbn [madj at_]. ring.
  - rewrite (@bsum_swap CR). apply (@bsum_ext CR). intros j Hj. rewrite (@s_conj_mul CR), (s_conj_conj CR), (@bsum_conj CR), (@bsum_mul_l CR).
    apply (@bsum_ext CR). intros i Hi. rewrite (@s_conj_mul CR). ring.
Qed.
Lemma accretive_adj : forall n M, nr M = n -> nc M = n -> accretive n M -> accretive n (madj M).
Proof. intros n M r c A x N. rewrite qform_adj by auto. specialize (A x N). destruct (qform n M x). exact A. Qed.

(** <x, T^+ M T x> = <T x, M T x> *)
Lemma qform_conj : forall n m M T x, nr M = n -> nc M = n -> nr T = n -> nc T = m ->
  qform m (mmul (madj T) (mmul M T)) x = qform n M (fun i => bsum (K := CR) m (fun j => smul (at_ T i j) (x j))).
Proof.
  intros n m M T x rM cM rT cT. unfold qform. cbn [mmul madj at_ nr nc]. rewrite rT, rM, cM, !Nat.min_id.
  transitivity (bsum (K := CR) n (fun i => bsum (K := CR) m (fun k => smul (s := CR) (sconj (smul (s := CR) (at_ T i k) (x k)))
     (bsum (K := CR) m (fun j => smul (s := CR) (bsum (K := CR) n (fun l => smul (at_ M i l) (at_ T l j))) (x j)))))).
  - rewrite (@bsum_swap CR). apply (@bsum_ext CR). intros k Hk.
    transitivity (smul (s := CR) (sconj (x k)) (bsum (K := CR) m (fun j => bsum (K := CR) n (fun i => smul (s := CR) (smul (s := CR) (sconj (at_ T i k)) (bsum (K := CR) n (fun l => smul (at_ M i l) (at_ T l j)))) (x j))))).
    + f_equal. apply (@bsum_ext CR). intros j Hj. apply (@bsum_mul_r CR).
    + rewrite (@bsum_swap CR), (@bsum_mul_l CR). apply (@bsum_ext CR). intros i Hi. rewrite (@s_conj_mul CR), !(@bsum_mul_l CR). apply (@bsum_ext CR). intros j Hj. ring.
  - apply (@bsum_ext CR). intros i Hi. rewrite <- (@bsum_mul_r CR), <- (@bsum_conj CR). f_equal.
    transitivity (bsum (K := CR) m (fun j => bsum (K := CR) n (fun l => smul (s := CR) (at_ M i l) (smul (s := CR) (at_ T l j) (x j))))).
    + apply (@bsum_ext CR). intros j Hj. rewrite (@bsum_mul_r CR). apply (@bsum_ext CR). intros l Hl. ring.
    + rewrite (@bsum_swap CR). apply (@bsum_ext CR). intros l Hl. symmetry. apply (@bsum_mul_l CR).
Qed.

(** An isometry maps no vector but zero to zero. *)
Lemma iso_inj : forall n m T x, nr T = n -> nc T = m -> isometry T -> (exists i, (i < m)%nat /\ x i <> @s0 CR) ->
  exists i, (i < n)%nat /\ bsum (K := CR) m (fun j => smul (at_ T i j) (x j)) <> @s0 CR.
Proof.
  intros n m T x rT cT I (k & Hk & N). destruct (vdec n (fun i => bsum (K := CR) m (fun j => smul (at_ T i j) (x j)))) as [Z|]; auto. exfalso. apply N.
  transitivity (bsum (K := CR) m (fun j => smul (delta k j) (x j))). { symmetry. apply (@bsum_delta_l CR m k x Hk). }
  transitivity (bsum (K := CR) m (fun j => smul (s := CR) (at_ (mmul (madj T) T) k j) (x j))).
  { apply (@bsum_ext CR). intros j Hj. destruct I as (_ & _ & I). specialize (I k j). cbn [mmul madj nr nc] in I. rewrite cT in I. rewrite (I Hk Hj). reflexivity. }
  cbn [mmul madj at_ nr nc]. rewrite rT, Nat.min_id.
  transitivity (bsum (K := CR) m (fun j => bsum (K := CR) n (fun i => smul (s := CR) (sconj (at_ T i k)) (smul (s := CR) (at_ T i j) (x j))))).
  { apply (@bsum_ext CR). intros j Hj. rewrite (@bsum_mul_r CR). apply (@bsum_ext CR). intros. ring. }
  rewrite (@bsum_swap CR). apply (@bsum_zero CR). intros i Hi. rewrite <- (@bsum_mul_l CR), Z by auto. ring.
Qed.

(** The root of a product of two reflections is inverted by both of them. *)
Lemma root_flip : forall n R W U, nr R = n -> nc R = n -> meq (madj R) R -> meq (mmul R R) (mid n) ->
  unitary n U -> accretive n U -> meq (mmul U U) W -> meq (mmul R (mmul W R)) (madj W) -> meq (mmul R (mmul U R)) (madj U).
Proof.
  intros n R W U rR cR aR R2 (rU & cU & U1 & U2) A E F.
  assert (Ri : isometry R) by (unfold isometry; rewrite aR, cR; exact R2).
  set (B := mmul R (mmul U R)). set (X := madd (madj U) (mneg B)).
  assert (rB : nr B = n) by exact rR. assert (cB : nc B = n) by exact cR.
  assert (rX : nr X = n) by (unfold X; cbn; rewrite cU, rR; apply Nat.min_id).
  assert (cX : nc X = n) by (unfold X; cbn; rewrite rU, cR; apply Nat.min_id).
  assert (AB : accretive n B).
  { intros x N. replace (qform n B x) with (qform n (mmul (madj R) (mmul U R)) x).
    - rewrite (@qform_conj n n U R x) by auto. apply A. apply (@iso_inj n n R x); auto.
    - apply qform_ext. intros i j Hi Hj. unfold B. assert (Q : meq (mmul (madj R) (mmul U R)) (mmul R (mmul U R))) by (rewrite aR; reflexivity).
      destruct Q as (_ & _ & Q). apply Q; cbn; congruence. }
  assert (B2 : meq (mmul B B) (madj W)).
  { unfold B. rewrite !mmul_assoc. rewrite (assoc_l (mmul U R) R2), mmul_id_l by auto. rewrite (assoc_l R E). exact F. }
  assert (A2 : meq (mmul (madj U) (madj U)) (madj W)) by (rewrite <- madj_mul, E; reflexivity).
  assert (Z : forall i j, (i < n)%nat -> (j < n)%nat -> at_ X i j = @s0 CR).
  { apply (@sylvester n (madj U) B X); auto using accretive_adj.
    unfold X. rewrite mmul_add_r by (cbn; congruence). rewrite mmul_add_l by (cbn; congruence). unfold mneg. rewrite mmul_scale_l, mmul_scale_r, A2, B2.
    split; [cbn; rewrite ?cU, ?rU, ?rR, ?cR; lia|]. split; [cbn; rewrite ?cU, ?rU, ?rR, ?cR; lia|]. intros i j _ _. cbn [madd mscale at_]. ring. }
  split; [cbn; congruence|]. split; [cbn; congruence|]. intros i j Hi Hj. cbn [B mmul nr nc] in Hi, Hj. rewrite rR in Hi. rewrite cR in Hj.
  specialize (Z i j Hi Hj). unfold X in Z. cbn [madd mneg mscale at_] in Z. fold B.
  transitivity (ssub (s := CR) (at_ (madj U) i j) (sadd (s := CR) (at_ (madj U) i j) (smul (s := CR) (sopp (s := CR) s1) (at_ B i j)))).
  - ring.
  - rewrite Z. ring.
Qed.

Lemma cancel2 : forall x : CR, sadd x x = @s0 CR -> x = @s0 CR.
Proof. intros [a b] H. injection H as H1 H2. apply injective_projections; cbn in *; lra. Qed.
