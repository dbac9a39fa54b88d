(** Proofs about BoundsModel.v. *)
From Coq Require Import ZArith Bool Arith Lia Reals Lra List Setoid.
Import ListNotations.
From Verif Require Import Base Matrix LookupModel SystemModel SystemProofs FieldModel SparseModel OverlapModel OverlapProofs BoundsSpec BoundsModel.
Set Implicit Arguments.
Local Open Scope R_scope.

Lemma total_ext : forall n f g, (forall i, (i < n)%nat -> f i = g i) -> total n f = total n g.
Proof. induction n; cbn; intros; auto. rewrite (IHn f g), (H n); auto with arith. Qed.
Lemma total_le : forall n f g, (forall i, (i < n)%nat -> f i <= g i) -> total n f <= total n g.
Proof. induction n; cbn; intros; [lra|]. assert (A := H n ltac:(lia)). assert (B := IHn f g ltac:(intros; apply H; lia)). lra. Qed.
Lemma total_plus : forall n f c, total n (fun i => f i + c) = total n f + INR n * c.
Proof. induction n; intros; [cbn; ring|]. rewrite S_INR. cbn. rewrite IHn. ring. Qed.
Lemma square_nonneg : forall z, 0 <= square_of z.
Proof. intros [a b]. unfold square_of; cbn. nra. Qed.

Lemma norm2_bsum : forall B j, norm2 B j = fst (bsum (K:=CR) (nr B) (fun i => smul (sconj (at_ B i j)) (at_ B i j))).
Proof.
  intros. unfold norm2. induction (nr B); auto. cbn [total bsum]. rewrite IHn. cbn. unfold square_of. ring.
Qed.
Lemma norm2_iso : forall B j, isometry B -> (j < nc B)%nat -> norm2 B j = 1.
Proof.
  intros B j (_ & _ & I) Hj. rewrite norm2_bsum. specialize (I j j Hj Hj). cbn in I. rewrite Nat.min_id in I.
  rewrite delta_same in I. cbn. rewrite I. reflexivity.
Qed.

Lemma iso_mul : forall (K : StarRing) (B X : mat K), isometry B -> isometry X -> nr X = nc B -> isometry (mmul B X).
Proof.
  intros K B X IB IX E. unfold isometry in *. rewrite madj_mul, mmul_assoc, <- (mmul_assoc (madj B)), IB.
  rewrite mmul_id_l by auto. exact IX.
Qed.

Lemma prune_at : forall t A i j, at_ (prune t A) i j = at_ A i j \/ (at_ (prune t A) i j = (0, 0) /\ abs2 (at_ A i j) <= t * t).
Proof. intros. cbn. destruct (Rle_dec (abs2 (at_ A i j)) (t * t)); auto. Qed.

Lemma absC_le : forall z t, abs2 z <= t * t -> absC z <= Rabs t.
Proof.
  intros. unfold absC. rewrite <- (sqrt_Rsqr_abs t). apply sqrt_le_1_alt. exact H.
Qed.

Lemma prune_norm : forall t A j, norm2 A j - INR (nr A) * (t * t) <= norm2 (prune t A) j <= norm2 A j.
Proof.
  intros. split.
  - replace (norm2 A j - INR (nr A) * (t * t)) with (total (nr A) (fun i => square_of (at_ A i j) + - (t * t))).
    2: { rewrite total_plus. unfold norm2. ring. }
    apply total_le. intros i _. destruct (prune_at t A i j) as [->|[-> P]].
    + assert (0 <= t * t) by nra. lra.
    + unfold abs2 in P. unfold square_of. cbn. lra.
  - apply total_le. intros i Hi. destruct (prune_at t A i j) as [->|[-> P]]; [lra|].
    unfold square_of at 1. cbn. assert (Q := square_nonneg (at_ A i j)). lra.
Qed.

(** ** The window *)
Lemma window_found : forall (B H X : mat CR) lo hi,
  isometry B -> nr H = nc B -> nc H = nc B -> nr X = nr H -> all_found H X lo hi ->
  forall v e, nr v = nr B -> nc v = 1%nat -> inside lo hi e ->
  meq (mmul B (mmul (madj B) v)) v ->
  meq (mmul (mmul (mmul B H) (madj B)) v) (mscale (ofR e) v) ->
  meq (mmul (madj (mmul B X)) v) (mzero (nc X) 1) -> meq v (mzero (nr B) 1).
Proof.
  intros B H X lo hi IB RH CH RX AF v e RV CV In Sp Eg Or. unfold isometry in IB.
  assert (W : meq (mmul (madj B) v) (mzero (nr H) 1)).
  { apply (AF _ e); auto.
    - transitivity (mmul (madj B) (mmul (mmul (mmul B H) (madj B)) v)).
      + rewrite !mmul_assoc. rewrite <- (mmul_assoc (madj B) B), IB. rewrite mmul_id_l by exact RH. reflexivity.
      + rewrite Eg. apply mmul_scale_r.
    - rewrite <- mmul_assoc. rewrite <- madj_mul. exact Or. }
  rewrite <- Sp, W, RH. split; [reflexivity|]. split; [reflexivity|]. intros i k Hi Hk. cbn.
  apply (@bsum_zero CR). intros. apply injective_projections; cbn; ring.
Qed.

Lemma diag_diagm : forall es, diag es = diagm es. Proof. reflexivity. Qed.

Lemma window_pairs : forall (B H X : mat CR) es,
  isometry B -> nr H = nc B -> nc H = nc B -> eigenpairs H X es ->
  isometry (mmul B X) /\ meq (mmul (mmul (mmul B H) (madj B)) (mmul B X)) (mmul (mmul B X) (diagm es)).
Proof.
  intros B H X es IB RH CH (RX & CX & IX & EX). split; [apply iso_mul; auto; congruence|]. unfold isometry in IB.
  rewrite !mmul_assoc. rewrite <- (mmul_assoc (madj B) B), IB. rewrite (mmul_id_l (n := nc B)) by congruence.
  rewrite EX. reflexivity.
Qed.

(** ** What a failure leaves behind *)
Lemma read_from_UB : forall c n p, (length (m_vals c) < p + n)%nat -> (p <= length (m_vals c))%nat -> read_from c p n = UB.
Proof.
  induction n; intros p H1 H2; [lia|]. cbn [read_from].
  destruct (nth_error (m_inner c) p) eqn:E1; [|reflexivity]. destruct (nth_error (m_vals c) p) eqn:E2; [|reflexivity].
  assert (p < length (m_vals c))%nat by (apply nth_error_Some; congruence).
  destruct (_ <? _)%nat; [|reflexivity]. rewrite IHn by lia. reflexivity.
Qed.
Lemma read_from_nothrow : forall c n p, read_from c p n <> Throw.
Proof.
  induction n; intros p H; cbn [read_from] in H; [discriminate|].
  destruct (nth_error (m_inner c) p); [|discriminate]. destruct (nth_error (m_vals c) p); [|discriminate].
  destruct (_ <? _)%nat; [|discriminate]. destruct (read_from c (S p) n) eqn:E; try discriminate. apply (IHn _ E).
Qed.
Lemma read_cols_UB : forall c js j a b, In j js -> nth_error (m_outer c) j = Some a -> nth_error (m_outer c) (S j) = Some b ->
  read_from c a (b - a) = UB -> read_cols c js = UB.
Proof.
  induction js as [|k js IH]; cbn [read_cols In]; intros j a b I Ea Eb U; [contradiction|].
  destruct I as [->|I].
  - rewrite Ea, Eb, U. reflexivity.
  - destruct (nth_error (m_outer c) k) as [a'|]; [|reflexivity]. destruct (nth_error (m_outer c) (S k)) as [b'|]; [|reflexivity].
    destruct (read_from c a' (b' - a')) eqn:E.
    + rewrite (IH _ _ _ I Ea Eb U). reflexivity.
    + exfalso. apply (read_from_nothrow _ _ _ E).
    + reflexivity.
Qed.

Lemma nth_error_map_seq : forall A (f : nat -> A) n k, (k < n)%nat -> nth_error (map f (seq 0 n)) k = Some (f k).
Proof. intros. rewrite nth_error_map. rewrite (nth_error_nth' _ 0%nat) by (rewrite seq_length; lia). rewrite seq_nth by lia. reflexivity. Qed.

Lemma vals_length : forall (A : mat CR) l,
  length (flat_map (fun j => map (fun i => at_ A i j) (stored A j)) l) = length (flat_map (stored A) l).
Proof. induction l; [reflexivity|]. cbn [flat_map]. rewrite !app_length, map_length, IHl. reflexivity. Qed.

Lemma stored_In : forall (A : mat CR) i j, (i < nr A)%nat -> at_ A i j <> ((0, 0) : CR) -> In i (stored A j).
Proof.
  intros A i j Hi N. apply filter_In. split; [apply in_seq; lia|]. unfold nonzero.
  destruct (Req_EM_T (abs2 (at_ A i j)) 0) as [E|]; auto. exfalso. apply N. unfold abs2 in E.
  destruct (at_ A i j) as [x y]; cbn in E. assert (x = 0) by nra. assert (y = 0) by nra. subst; reflexivity.
Qed.

Lemma last_column : forall A : mat CR, (0 < length (flat_map (stored A) (seq 0 (nc A))))%nat ->
  exists j, (j < nc A)%nat /\ (length (flat_map (stored A) (seq 0 j)) < length (flat_map (stored A) (seq 0 (nc A))))%nat /\
    length (flat_map (stored A) (seq 0 (S j))) = length (flat_map (stored A) (seq 0 (nc A))).
Proof.
  intros A. generalize (nc A) as n. induction n; [cbn; lia|]. intro H.
  assert (E : length (flat_map (stored A) (seq 0 (S n))) = (length (flat_map (stored A) (seq 0 n)) + length (stored A n))%nat).
  { rewrite seq_S, flat_map_app, app_length. cbn. rewrite app_nil_r. reflexivity. }
  destruct (stored A n) eqn:S0.
  - cbn [length] in E. rewrite Nat.add_0_r in E. rewrite E in *. destruct (IHn H) as (j & J1 & J2 & J3). exists j. split; [lia|]. split; lia.
  - exists n. split; [lia|]. split; [|reflexivity]. rewrite E. cbn [length]. lia.
Qed.

Lemma damaged : forall (A : mat CR) i j, (i < nr A)%nat -> (j < nc A)%nat -> at_ A i j <> ((0, 0) : CR) ->
  let c := onebased (arrays A) in ~ compressed c /\ read_cols c (seq 0 (m_cols c)) = UB.
Proof.
  intros A i j Hi Hj N c. split.
  - intros (_ & Z & _). cbn in Z. discriminate.
  - assert (P : (0 < length (flat_map (stored A) (seq 0 (nc A))))%nat).
    { assert (I : In i (flat_map (stored A) (seq 0 (nc A)))).
      { apply in_flat_map. exists j. split; [apply in_seq; lia|]. apply stored_In; auto. }
      destruct (flat_map (stored A) (seq 0 (nc A))); [contradiction|cbn; lia]. }
    destruct (last_column A P) as (k & K1 & K2 & K3).
    apply (@read_cols_UB c _ k (S (length (flat_map (stored A) (seq 0 k)))) (S (length (flat_map (stored A) (seq 0 (S k)))))).
    + apply in_seq. cbn. lia.
    + unfold c, onebased, arrays; cbn [m_outer]. rewrite nth_error_map, nth_error_map_seq by lia. reflexivity.
    + unfold c, onebased, arrays; cbn [m_outer]. rewrite nth_error_map, nth_error_map_seq by lia. reflexivity.
    + assert (L : length (m_vals c) = length (flat_map (stored A) (seq 0 (nc A)))).
      { unfold c, onebased, arrays; cbn [m_vals]. apply vals_length. }
      apply read_from_UB; rewrite L; lia.
Qed.
