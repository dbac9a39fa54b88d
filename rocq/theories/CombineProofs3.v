(** Inner products of product vectors, symmetrised vectors. *)
From Coq Require Import ZArith Lia Bool List.
Import ListNotations.
From Verif Require Import Base Matrix BasisnamesModel CombineModel CombineSpec OverlapProofs BasisProofs PropNames CombineProofs CombineProofs2.
Set Implicit Arguments.

Lemma nodup_pairs : forall n1 n2 p, NoDup (pairs_with n1 n2 p).
Proof.
  intros. apply NoDup_filter. rewrite <- all_pairs_prod. unfold all_pairs.
  assert (G : forall l : list nat, NoDup l -> NoDup (flat_map (fun a => map (fun b => (a, b)) (seq 0 n2)) l)).
  { induction l as [|x l IH]; intros H; [constructor|]. apply NoDup_cons_iff in H. destruct H as [N H]. cbn [flat_map]. apply NoDup_app_; auto.
    - apply FinFun.Injective_map_NoDup; [intros ? ? E; injection E; auto|apply seq_NoDup].
    - intros [a b] H1 H2. apply in_map_iff in H1. destruct H1 as (y & E & _). injection E as <- <-. apply in_flat_map in H2. destruct H2 as (z & H2 & H3).
      apply in_map_iff in H3. destruct H3 as (y' & E & _). injection E as -> ->. contradiction. }
  apply G, seq_NoDup.
Qed.
Lemma in_pairs_with : forall n1 n2 p c1 c2, In (c1, c2) (pairs_with n1 n2 p) <-> (c1 < n1 /\ c2 < n2)%nat /\ p c1 c2 = true.
Proof. intros. unfold pairs_with. rewrite filter_In, <- all_pairs_prod, in_all_pairs. reflexivity. Qed.

Section Proofs.
Variable K : StarRing.
Add Ring KRing : (s_ring K).
Local Open Scope star_scope.

Lemma bsum_prod : forall n m (f : nat -> K), bsum (n * m) f = bsum n (fun i => bsum m (fun k => f (m * i + k)%nat)).
Proof.
  intros n m f. induction n as [|n IH]; [reflexivity|]. cbn [bsum]. rewrite <- IH. rewrite (Nat.mul_comm (S n)). replace (m * S n)%nat with (n * m + m)%nat by lia.
  rewrite bsum_app. f_equal. apply bsum_ext. intros k _. f_equal. lia.
Qed.
Lemma inner_ext : forall N (u u' v v' : nat -> K), (forall r, r < N -> u r = u' r)%nat -> (forall r, r < N -> v r = v' r)%nat -> inner N u v = inner N u' v'.
Proof. intros N u u' v v' A B. apply bsum_ext. intros. rewrite A, B by auto. reflexivity. Qed.
Lemma inner_kron : forall n1 n2 (a b c d : nat -> K), inner (n1 * n2) (kron n2 a b) (kron n2 c d) = inner n1 a c * inner n2 b d.
Proof.
  intros. unfold inner. rewrite bsum_prod, bsum_mul_r. apply bsum_ext. intros i Hi. rewrite bsum_mul_l. apply bsum_ext. intros k Hk. unfold kron.
  replace (n2 * i + k)%nat with (k + i * n2)%nat by lia. rewrite Nat.div_add, Nat.mod_add, Nat.div_small, Nat.mod_small by lia. cbn [Nat.add].
  rewrite s_conj_mul. ring.
Qed.
Lemma inner_add_l : forall N (u v w : nat -> K), inner N (fun r => u r + v r) w = inner N u w + inner N v w.
Proof. intros. unfold inner. rewrite <- bsum_add. apply bsum_ext. intros. rewrite s_conj_add. ring. Qed.
Lemma inner_add_r : forall N (u v w : nat -> K), inner N w (fun r => u r + v r) = inner N w u + inner N w v.
Proof. intros. unfold inner. rewrite <- bsum_add. apply bsum_ext. intros. ring. Qed.
Lemma inner_scale_l : forall N x (u w : nat -> K), inner N (fun r => x * u r) w = sconj x * inner N u w.
Proof. intros. unfold inner. rewrite bsum_mul_l. apply bsum_ext. intros. rewrite s_conj_mul. ring. Qed.
Lemma inner_scale_r : forall N x (u w : nat -> K), inner N w (fun r => x * u r) = x * inner N w u.
Proof. intros. unfold inner. rewrite bsum_mul_l. apply bsum_ext. intros. ring. Qed.

Definition zK (z : Z) : K := if (z =? 1)%Z then 1 else - (1).
Lemma sc_zK : forall z (x : K), sc z x = zK z * x. Proof. intros. unfold sc, zK. destruct (z =? 1)%Z; ring. Qed.
Lemma zK_conj : forall z, sconj (zK z) = zK z. Proof. intros. unfold zK. destruct (z =? 1)%Z; [apply sconj_1|]. rewrite sconj_opp, sconj_1. reflexivity. Qed.
Lemma zK_sq : forall z, zK z * zK z = 1. Proof. intros. unfold zK. destruct (z =? 1)%Z; ring. Qed.

(** symmetrised pair of orthonormal vectors *)
Variable rt : K.
Hypothesis RT : rt * rt + rt * rt = 1.
Hypothesis RC : sconj rt = rt.
Definition wsym (n : nat) (V : nat -> nat -> K) (s : Z) (c1 c2 : nat) : nat -> K :=
  if Nat.eqb c1 c2 then kron n (V c1) (V c2) else fun r => rt * (kron n (V c1) (V c2) r + zK s * kron n (V c2) (V c1) r).

Lemma wsym_orth : forall n d (V : nat -> nat -> K) s s' c1 c2 d1 d2,
  (forall a b, a < d -> b < d -> inner n (V a) (V b) = delta a b)%nat ->
  (c2 <= c1 < d)%nat -> (d2 <= d1 < d)%nat -> (c1 = d1 -> c2 = d2 -> s = s') ->
  inner (n * n) (wsym n V s c1 c2) (wsym n V s' d1 d2) = delta c1 d1 * delta c2 d2.
Proof.
  intros n d V s s' c1 c2 d1 d2 O B1 B2 SS. unfold wsym.
  assert (I : forall a b c d', (a < d)%nat -> (b < d)%nat -> (c < d)%nat -> (d' < d)%nat -> inner (n * n) (kron n (V a) (V b)) (kron n (V c) (V d')) = delta a c * delta b d').
  { intros. rewrite inner_kron, !O by auto. reflexivity. }
  destruct (Nat.eqb_spec c1 c2) as [E1|E1], (Nat.eqb_spec d1 d2) as [E2|E2].
  - apply I; lia.
  - rewrite inner_scale_r, inner_add_r, inner_scale_r, !I by lia. subst c2.
    destruct (Nat.eqb_spec c1 d1) as [->|]; [rewrite (@delta_diff K d1 d2) by auto; ring|]. rewrite (@delta_diff K c1 d1) by auto. ring.
  - rewrite inner_scale_l, inner_add_l, inner_scale_l, !I by lia. subst d2.
    destruct (Nat.eqb_spec c1 d1) as [->|]; [rewrite (@delta_diff K c2 d1) by auto; ring|]. rewrite (@delta_diff K c1 d1) by auto. ring.
  - rewrite inner_scale_l, inner_scale_r, !inner_add_l, !inner_add_r, !inner_scale_l, !inner_scale_r, !I by lia. rewrite RC, zK_conj.
    assert (X : delta c1 d2 * delta c2 d1 = (0 : K)).
    { destruct (Nat.eqb_spec c1 d2) as [->|]; [rewrite (@delta_diff K c2 d1) by lia; ring|rewrite (@delta_diff K c1 d2) by auto; ring]. }
    assert (X' : delta c2 d1 * delta c1 d2 = (0 : K)) by (rewrite <- X; ring). rewrite X, X'.
    replace (delta c2 d2 * delta c1 d1) with (delta (K := K) c1 d1 * delta c2 d2) by ring.
    destruct (Nat.eqb_spec c1 d1) as [E|]; [|rewrite (@delta_diff K c1 d1) by auto; ring].
    destruct (Nat.eqb_spec c2 d2) as [E'|]; [|rewrite (@delta_diff K c2 d2) by auto; ring].
    rewrite (SS E E'). subst. rewrite !delta_same.
    transitivity (rt * rt * (1 + zK s' * zK s')); [ring|]. rewrite zK_sq. transitivity (rt * rt + rt * rt); [ring|rewrite RT; ring].
Qed.

Lemma nodup_nth : forall A (l : list A) a b x y, NoDup l -> nth_error l a = Some x -> nth_error l b = Some y -> (x = y <-> a = b).
Proof.
  intros A l a b x y N X Y. split; [|congruence]. intros ->. eapply NoDup_nth_error; eauto; [apply nth_error_Some; congruence|congruence].
Qed.
Lemma delta_pair : forall c1 c2 d1 d2 a b, ((c1, c2) = (d1, d2) <-> a = b) -> delta (K := K) c1 d1 * delta c2 d2 = delta a b.
Proof.
  intros c1 c2 d1 d2 a b H. destruct (Nat.eqb_spec a b) as [E|E].
  - apply H in E. injection E as -> ->. assert (a = b) by (apply H; reflexivity). subst. rewrite !delta_same. ring.
  - rewrite (@delta_diff K a b) by auto. destruct (Nat.eqb_spec c1 d1) as [->|]; [|rewrite (@delta_diff K c1 d1) by auto; ring].
    destruct (Nat.eqb_spec c2 d2) as [->|]; [destruct E; apply H; reflexivity|rewrite (@delta_diff K c2 d2) by auto; ring].
Qed.

(** a Hamiltonian whose basis vectors are symmetrised pairs *)
Lemma orth_sym : forall (h M : hmat K) (s : nat -> nat -> Z) ps,
  orthonormal h -> coords M = (coords h * coords h)%nat -> dim M = length ps -> NoDup ps ->
  (forall c1 c2, In (c1, c2) ps -> c2 <= c1 < dim h)%nat ->
  (forall k c1 c2, nth_error ps k = Some (c1, c2) -> forall r, bvec M k r = wsym (coords h) (bvec h) (s c1 c2) c1 c2 r) ->
  orthonormal M.
Proof.
  intros h M s ps O C D N B F a b Ha Hb. rewrite D in Ha, Hb.
  destruct (nth_error ps a) as [[c1 c2]|] eqn:Ea; [|apply nth_error_None in Ea; lia].
  destruct (nth_error ps b) as [[d1 d2]|] eqn:Eb; [|apply nth_error_None in Eb; lia].
  rewrite C. rewrite (@inner_ext (coords h * coords h) _ (wsym (coords h) (bvec h) (s c1 c2) c1 c2) _ (wsym (coords h) (bvec h) (s d1 d2) d1 d2)) by (intros; apply F; auto).
  rewrite (@wsym_orth (coords h) (dim h)); [|exact O|eapply B, nth_error_In; eauto|eapply B, nth_error_In; eauto|congruence].
  apply delta_pair. eapply nodup_nth; eauto.
Qed.
Lemma orth_prod : forall (h1 h2 M : hmat K) ps,
  orthonormal h1 -> orthonormal h2 -> coords M = (coords h1 * coords h2)%nat -> dim M = length ps -> NoDup ps ->
  (forall c1 c2, In (c1, c2) ps -> c1 < dim h1 /\ c2 < dim h2)%nat ->
  (forall k c1 c2, nth_error ps k = Some (c1, c2) -> forall r, bvec M k r = kron (coords h2) (bvec h1 c1) (bvec h2 c2) r) ->
  orthonormal M.
Proof.
  intros h1 h2 M ps O1 O2 C D N B F a b Ha Hb. rewrite D in Ha, Hb.
  destruct (nth_error ps a) as [[c1 c2]|] eqn:Ea; [|apply nth_error_None in Ea; lia].
  destruct (nth_error ps b) as [[d1 d2]|] eqn:Eb; [|apply nth_error_None in Eb; lia].
  rewrite C. rewrite (@inner_ext (coords h1 * coords h2) _ (kron (coords h2) (bvec h1 c1) (bvec h2 c2)) _ (kron (coords h2) (bvec h1 d1) (bvec h2 d2))) by (intros; apply F; auto).
  rewrite inner_kron. destruct (B _ _ (nth_error_In _ _ Ea)), (B _ _ (nth_error_In _ _ Eb)). rewrite O1, O2 by auto.
  apply delta_pair. eapply nodup_nth; eauto.
Qed.
End Proofs.
