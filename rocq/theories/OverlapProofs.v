(** Proofs about OverlapModel: weights of basis vectors (getOverlap), Bessel's inequality. *)
From Verif Require Import Base Matrix LookupModel SystemModel OverlapModel FieldModel.
From Coq Require Import ZArith Lia Bool Arith Reals Lra List.
Import ListNotations.
Set Implicit Arguments.
Local Open Scope nat_scope.

Section Sums.
Context {K : StarRing}.
Add Ring Kr : (s_ring K).
Local Open Scope star_scope.

(** Sum over a list. *)
Definition lsum {A} (f : A -> K) (l : list A) : K := fold_right (fun x a => f x + a) 0 l.

Lemma lsum_app : forall A (f : A -> K) l1 l2, lsum f (l1 ++ l2) = lsum f l1 + lsum f l2.
Proof.
  intros A f l1 l2. induction l1 as [|x l1 IH]; cbn [lsum fold_right app].
  - fold (lsum f l2). ring.
  - fold (lsum f (l1 ++ l2)). fold (lsum f l1). rewrite IH. ring.
Qed.

Lemma lsum_ext : forall A (f g : A -> K) l, (forall x, In x l -> f x = g x) -> lsum f l = lsum g l.
Proof.
  intros A f g l. induction l as [|x l IH]; intros H; [reflexivity|]. cbn [lsum fold_right]. fold (lsum f l). fold (lsum g l).
  rewrite (H x) by (left; auto). rewrite IH; auto. intros; apply H; right; auto.
Qed.

Lemma bsum_lsum : forall n (f : nat -> K), bsum n f = lsum f (seq 0 n).
Proof.
  induction n; intros; [reflexivity|]. rewrite seq_S, lsum_app. cbn [bsum lsum fold_right plus]. rewrite IHn. ring.
Qed.

Lemma lsum_map : forall A B (g : A -> B) (f : B -> K) l, lsum f (map g l) = lsum (fun x => f (g x)) l.
Proof. intros A B g f l. induction l as [|x l IH]; [reflexivity|]. cbn [lsum fold_right map]. fold (lsum f (map g l)). rewrite IH. reflexivity. Qed.

Lemma bsum_nth : forall (l : list nat) (f : nat -> K) d, bsum (length l) (fun c => f (nth c l d)) = lsum f l.
Proof.
  intros. rewrite bsum_lsum. revert f. induction l as [|x l IH]; intros; [reflexivity|].
  cbn [length seq]. rewrite <- seq_shift. cbn [lsum fold_right nth]. f_equal. specialize (IH f). unfold lsum in IH.
  rewrite <- IH. fold (lsum (fun c => f (match c with O => x | S m => nth m l d end)) (map S (seq 0 (length l)))).
  rewrite lsum_map. reflexivity.
Qed.

Lemma lsum_1 : forall A (l : list A) (f : A -> K), (forall x, In x l -> f x = 1) -> lsum f l = bsum (length l) (fun _ => 1).
Proof.
  intros A l f H. induction l as [|x l IH]; [reflexivity|]. cbn [lsum fold_right length]. fold (lsum f l).
  rewrite IH by (intros; apply H; right; auto). rewrite (H x) by (left; auto). cbn [bsum]. ring.
Qed.

Lemma lsum_swap : forall A n (l : list A) (f : nat -> A -> K),
  bsum n (fun k => lsum (f k) l) = lsum (fun x => bsum n (fun k => f k x)) l.
Proof.
  intros A n l f. induction l as [|x l IH]; cbn [lsum fold_right]; [apply bsum_0|].
  fold (lsum (fun x0 => bsum n (fun k => f k x0)) l). rewrite <- IH, <- bsum_add. reflexivity.
Qed.

Lemma sqabs_conj : forall z : K, sqabs (sconj z) = sqabs z.
Proof. intro z. unfold sqabs. rewrite s_conj_conj. ring. Qed.

(** The entries of [B† W] for unit vectors [W]. *)
Lemma prod_sel : forall (B : mat K) (n : nat) idxs k c, nr B = n -> (forall i, In i idxs -> (i < n)%nat) ->
  (c < length idxs)%nat -> at_ (mmul (madj B) (msel n idxs)) k c = sconj (at_ B (nth c idxs n) k).
Proof.
  intros B n idxs k c R H Hc. cbn. rewrite R, Nat.min_id.
  rewrite (@bsum_delta_r K n (nth c idxs n) (fun i => sconj (at_ B i k))); auto. apply H, nth_In; auto.
Qed.

Lemma weights_sel : forall (B : mat K) n idxs, nr B = n -> (forall i, In i idxs -> (i < n)%nat) ->
  row_weights B (msel n idxs) = map (fun k => lsum (fun i => sqabs (at_ B i k)) idxs) (seq 0 (nc B)).
Proof.
  intros B n idxs R H. unfold row_weights. apply map_ext. intro k.
  rewrite <- (bsum_nth idxs (fun i => sqabs (at_ B i k)) n). apply bsum_ext. intros c Hc. cbn [msel nc] in Hc.
  rewrite prod_sel by auto. apply sqabs_conj.
Qed.

(** [W† W] is diagonal with ones *)
Definition unit_columns (W : mat K) : Prop := forall c, (c < nc W)%nat -> bsum (nr W) (fun i => sqabs (at_ W i c)) = 1.

(** The total weight for a complete orthonormal system [B B† = 1]. *)
Lemma weights_total : forall (B W : mat K), nr W = nr B -> meq (mmul B (madj B)) (mid (nr B)) ->
  lsum (fun x => x) (row_weights B W) = bsum (nc W) (fun c => bsum (nr W) (fun i => sqabs (at_ W i c))).
Proof.
  intros B W R (_ & _ & C). unfold row_weights. rewrite lsum_map, <- bsum_lsum, bsum_swap.
  apply bsum_ext. intros c Hc. unfold sqabs. cbn. rewrite R, Nat.min_id.
  transitivity (bsum (nr B) (fun i => bsum (nr B) (fun i' => sconj (at_ W i c) * at_ W i' c * bsum (nc B) (fun k => at_ B i k * sconj (at_ B i' k))))).
  - transitivity (bsum (nc B) (fun k => bsum (nr B) (fun i => bsum (nr B) (fun i' => sconj (at_ W i c) * at_ W i' c * (at_ B i k * sconj (at_ B i' k)))))).
    + apply bsum_ext. intros k Hk. rewrite bsum_conj, bsum_mul_r. apply bsum_ext. intros i Hi. rewrite bsum_mul_l.
      apply bsum_ext. intros i' Hi'. rewrite s_conj_mul, s_conj_conj. ring.
    + rewrite bsum_swap. apply bsum_ext. intros i Hi. rewrite bsum_swap. apply bsum_ext. intros i' Hi'. symmetry. apply bsum_mul_l.
  - apply bsum_ext. intros i Hi.
    rewrite <- (bsum_delta_l (fun i' => sconj (at_ W i c) * at_ W i' c) Hi). apply bsum_ext. intros i' Hi'.
    specialize (C i i' Hi Hi'). cbn in C. rewrite Nat.min_id in C. rewrite C. ring.
Qed.

(** Bessel: the residual of the projection of [w] on the columns of an isometry. *)
Definition residual (B : mat K) (w : nat -> K) (i : nat) : K :=
  w i - bsum (nc B) (fun k => at_ B i k * bsum (nr B) (fun l => sconj (at_ B l k) * w l)).

Lemma bessel_id : forall (B : mat K) (w : nat -> K), isometry B ->
  bsum (nc B) (fun k => sqabs (bsum (nr B) (fun l => sconj (at_ B l k) * w l))) + bsum (nr B) (fun i => sqabs (residual B w i))
  = bsum (nr B) (fun i => sqabs (w i)).
Proof.
  intros B w (_ & _ & I).
  set (c := fun k => bsum (nr B) (fun l => sconj (at_ B l k) * w l)).
  assert (Bc : forall k, (k < nc B)%nat -> bsum (nr B) (fun i => sconj (at_ B i k) * bsum (nc B) (fun k' => at_ B i k' * c k')) = c k).
  { intros k Hk. transitivity (bsum (nc B) (fun k' => bsum (nr B) (fun i => sconj (at_ B i k) * at_ B i k') * c k')).
    - transitivity (bsum (nr B) (fun i => bsum (nc B) (fun k' => sconj (at_ B i k) * at_ B i k' * c k'))).
      + apply bsum_ext. intros i Hi. rewrite bsum_mul_l. apply bsum_ext. intros. ring.
      + rewrite bsum_swap. apply bsum_ext. intros k' Hk'. symmetry. apply bsum_mul_r.
    - rewrite <- (bsum_delta_l c Hk). apply bsum_ext. intros k' Hk'. specialize (I k k' Hk Hk'). cbn in I. rewrite Nat.min_id in I.
      rewrite I. reflexivity. }
  assert (P1 : bsum (nr B) (fun i => sconj (w i) * bsum (nc B) (fun k => at_ B i k * c k)) = bsum (nc B) (fun k => sqabs (c k))).
  { transitivity (bsum (nc B) (fun k => bsum (nr B) (fun i => sconj (w i) * at_ B i k) * c k)).
    - transitivity (bsum (nr B) (fun i => bsum (nc B) (fun k => sconj (w i) * at_ B i k * c k))).
      + apply bsum_ext. intros i Hi. rewrite bsum_mul_l. apply bsum_ext. intros. ring.
      + rewrite bsum_swap. apply bsum_ext. intros k Hk. symmetry. apply bsum_mul_r.
    - apply bsum_ext. intros k Hk. unfold sqabs. f_equal. unfold c. rewrite bsum_conj. apply bsum_ext. intros i Hi.
      rewrite s_conj_mul, s_conj_conj. ring. }
  assert (P2 : bsum (nr B) (fun i => sconj (bsum (nc B) (fun k => at_ B i k * c k)) * residual B w i) = 0).
  { transitivity (bsum (nc B) (fun k => sconj (c k) * (bsum (nr B) (fun i => sconj (at_ B i k) * residual B w i)))).
    - transitivity (bsum (nr B) (fun i => bsum (nc B) (fun k => sconj (c k) * (sconj (at_ B i k) * residual B w i)))).
      + apply bsum_ext. intros i Hi. rewrite bsum_conj, bsum_mul_r. apply bsum_ext. intros k Hk. rewrite s_conj_mul. ring.
      + rewrite bsum_swap. apply bsum_ext. intros k Hk. symmetry. apply bsum_mul_l.
    - apply bsum_zero. intros k Hk.
      replace (bsum (nr B) (fun i => sconj (at_ B i k) * residual B w i)) with (0:K); [ring|].
      unfold residual. fold c. transitivity (c k - bsum (nr B) (fun i => sconj (at_ B i k) * bsum (nc B) (fun k' => at_ B i k' * c k'))).
      + rewrite Bc by auto. ring.
      + unfold c at 1. rewrite <- bsum_sub. apply bsum_ext. intros i Hi. unfold c. ring. }
  change (bsum (nc B) (fun k => sqabs (c k)) + bsum (nr B) (fun i => sqabs (residual B w i)) = bsum (nr B) (fun i => sqabs (w i))).
  rewrite <- P1. unfold sqabs.
  transitivity (bsum (nr B) (fun i => sconj (w i) * bsum (nc B) (fun k => at_ B i k * c k)) +
                (bsum (nr B) (fun i => sconj (residual B w i) * residual B w i) + bsum (nr B) (fun i => sconj (bsum (nc B) (fun k => at_ B i k * c k)) * residual B w i))).
  { rewrite P2. ring. }
  rewrite <- bsum_add, <- bsum_add. apply bsum_ext. intros i Hi. change (residual B w i) with (w i - bsum (nc B) (fun k => at_ B i k * c k)). rewrite sconj_sub. ring.
Qed.
End Sums.

(** ** Over the complex numbers *)
Local Open Scope R_scope.

Definition re (z : CR) : R := fst z.

Lemma re_add : forall x y : CR, re (sadd x y) = re x + re y.
Proof. reflexivity. Qed.
Lemma re_sqabs : forall z : CR, 0 <= re (sqabs z).
Proof. intros [a b]. cbn. nra. Qed.
Lemma re_bsum_nonneg : forall n (f : nat -> CR), (forall i, 0 <= re (f i)) -> 0 <= re (bsum n f).
Proof. induction n; cbn [bsum]; intros f H; [cbn; lra|]. rewrite re_add. specialize (IHn f H). specialize (H n). lra. Qed.
Lemma re_bsum_ge : forall n (f : nat -> CR) k, (forall i, 0 <= re (f i)) -> (k < n)%nat -> re (f k) <= re (bsum n f).
Proof.
  induction n; intros f k H Hk; [lia|]. cbn [bsum]. rewrite re_add. destruct (Nat.eq_dec k n).
  - subst. pose proof (@re_bsum_nonneg n f H). lra.
  - pose proof (IHn f k H ltac:(lia)). pose proof (H n). lra.
Qed.
Lemma re_bsum_ge2 : forall n (f : nat -> CR) k k', (forall i, 0 <= re (f i)) -> (k < k')%nat -> (k' < n)%nat -> re (f k) + re (f k') <= re (bsum n f).
Proof.
  induction n; intros f k k' H Hk Hk'; [lia|]. cbn [bsum]. rewrite re_add. destruct (Nat.eq_dec k' n).
  - subst. pose proof (@re_bsum_ge n f k H Hk). lra.
  - pose proof (IHn f k k' H Hk ltac:(lia)). pose proof (H n). lra.
Qed.

Lemma bessel : forall (B : mat CR) (w : nat -> CR), isometry B ->
  re (bsum (nc B) (fun k => sqabs (bsum (nr B) (fun l => smul (sconj (at_ B l k)) (w l))))) <= re (bsum (nr B) (fun i => sqabs (w i))).
Proof.
  intros B w I. rewrite <- (@bessel_id CR B w I). rewrite re_add.
  pose proof (@re_bsum_nonneg (nr B) (fun i => sqabs (residual B w i)) (fun i => re_sqabs _)). lra.
Qed.

(** The rows of an isometry have norm at most one. *)
Lemma row_bessel : forall (B : mat CR) i, isometry B -> (i < nr B)%nat ->
  re (bsum (nc B) (fun k => sqabs (at_ B i k))) <= 1.
Proof.
  intros B i I Hi. pose proof (@bessel B (fun l => delta l i) I) as H.
  assert (E1 : bsum (nc B) (fun k => sqabs (bsum (nr B) (fun l => smul (sconj (at_ B l k)) (delta l i)))) = bsum (nc B) (fun k => sqabs (at_ B i k))).
  { apply bsum_ext. intros k Hk. rewrite (@bsum_delta_r CR (nr B) i (fun l => sconj (at_ B l k)) Hi). apply sqabs_conj. }
  assert (E2 : bsum (nr B) (fun l => sqabs (@delta CR l i)) = s1).
  { transitivity (bsum (nr B) (fun l => smul (@delta CR i l) s1)).
    - apply bsum_ext. intros l _. unfold sqabs, delta. rewrite (Nat.eqb_sym l i). destruct (Nat.eqb i l); apply injective_projections; cbn; ring.
    - apply (@bsum_delta_l CR (nr B) i (fun _ => s1) Hi). }
  cbv beta in H. rewrite E1, E2 in H. exact H.
Qed.
