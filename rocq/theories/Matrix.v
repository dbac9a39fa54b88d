(** Matrices over a commutative ring with involution.

    The code uses Eigen::SparseMatrix<Scalar> with Scalar = double or
    std::complex<double> (SystemBase.hpp:371-381).  The model replaces the scalar type by
    an arbitrary commutative ring with involution (the involution is
    std::conj, resp. the identity for real scalars; utils.hpp:70-90), i.e. rounding is
    not modelled, and a sparse matrix by its dimensions and its coefficient
    function (sparsity pattern not modelled here; see SparseModel.v for the
    storage format).  Eigen asserts that dimensions match; here products and
    sums of mismatching matrices use the common part, and the theorems about
    the system carry explicit dimension invariants. *)
From Coq Require Import ZArith Lia Bool Arith Setoid Morphisms Ring List.
Import ListNotations.
Set Implicit Arguments.

(** Scalar: double / std::complex<double> (SystemBase.hpp:371-381, instantiations SystemBase.cpp:1640-1643).
    [sltre x y] compares real parts as [std::real(x) < std::real(y)]. *)
Record StarRing : Type := {
  car :> Type;
  s0 : car; s1 : car;
  sadd : car -> car -> car;
  smul : car -> car -> car;
  ssub : car -> car -> car;
  sopp : car -> car;
  sconj : car -> car;
  sltre : car -> car -> bool;
  s_ring : ring_theory s0 s1 sadd smul ssub sopp eq;
  s_conj_add : forall x y, sconj (sadd x y) = sadd (sconj x) (sconj y);
  s_conj_mul : forall x y, sconj (smul x y) = smul (sconj x) (sconj y);
  s_conj_conj : forall x, sconj (sconj x) = x
}.

Arguments s0 {_}. Arguments s1 {_}. Arguments sadd {_} _ _. Arguments smul {_} _ _.
Arguments ssub {_} _ _. Arguments sopp {_} _. Arguments sconj {_} _. Arguments sltre {_} _ _.

Declare Scope star_scope.
Delimit Scope star_scope with S.
Notation "x + y" := (sadd x y) : star_scope.
Notation "x * y" := (smul x y) : star_scope.
Notation "x - y" := (ssub x y) : star_scope.
Notation "- x" := (sopp x) : star_scope.
Notation "0" := s0 : star_scope.
Notation "1" := s1 : star_scope.

Section Mat.
Context {K : StarRing}.
Local Open Scope star_scope.
Add Ring Kr : (s_ring K).

Lemma sconj_0 : sconj (0 : K) = 0.
Proof.
  assert (H : sconj (0 : K) + sconj 0 = sconj 0) by (rewrite <- s_conj_add; f_equal; ring).
  replace (sconj (0:K)) with ((sconj 0 + sconj 0) - sconj (0:K)) by ring.
  rewrite H. ring.
Qed.

Lemma sconj_1 : sconj (1 : K) = 1.
Proof.
  rewrite <- (s_conj_conj K 1) at 2.
  replace (sconj (1:K)) with (1 * sconj (1:K)) at 2 by ring.
  rewrite s_conj_mul, s_conj_conj. ring.
Qed.

Lemma sconj_opp : forall x : K, sconj (- x) = - sconj x.
Proof.
  intro x. replace (sconj (- x)) with ((sconj (-x) + sconj x) - sconj x) by ring.
  rewrite <- s_conj_add. replace (- x + x) with (0:K) by ring. rewrite sconj_0. ring.
Qed.

Lemma sconj_sub : forall x y : K, sconj (x - y) = sconj x - sconj y.
Proof.
  intros. replace (x - y) with (x + - y) by ring. rewrite s_conj_add, sconj_opp. ring.
Qed.

(** Finite sums [f 0 + ... + f (n-1)]. *)
Fixpoint bsum (n : nat) (f : nat -> K) : K :=
  match n with O => 0 | S m => bsum m f + f m end.

Lemma bsum_ext : forall n f g, (forall k, (k < n)%nat -> f k = g k) -> bsum n f = bsum n g.
Proof. induction n; simpl; intros; auto. rewrite (IHn f g), (H n); auto with arith. Qed.

Lemma bsum_0 : forall n, bsum n (fun _ => 0) = 0.
Proof. induction n; simpl; auto. rewrite IHn; ring. Qed.

Lemma bsum_zero : forall n f, (forall k, (k < n)%nat -> f k = 0) -> bsum n f = 0.
Proof. intros. rewrite <- (bsum_0 n). apply bsum_ext; auto. Qed.

Lemma bsum_add : forall n f g, bsum n (fun k => f k + g k) = bsum n f + bsum n g.
Proof. induction n; simpl; intros; [ring|]. rewrite IHn; ring. Qed.

Lemma bsum_sub : forall n f g, bsum n (fun k => f k - g k) = bsum n f - bsum n g.
Proof. induction n; simpl; intros; [ring|]. rewrite IHn; ring. Qed.

Lemma bsum_mul_l : forall n c f, c * bsum n f = bsum n (fun k => c * f k).
Proof. induction n; simpl; intros; [ring|]. rewrite <- IHn; ring. Qed.

Lemma bsum_mul_r : forall n c f, bsum n f * c = bsum n (fun k => f k * c).
Proof. induction n; simpl; intros; [ring|]. rewrite <- IHn; ring. Qed.

Lemma bsum_swap : forall n m (f : nat -> nat -> K),
  bsum n (fun i => bsum m (fun j => f i j)) = bsum m (fun j => bsum n (fun i => f i j)).
Proof.
  induction n; simpl; intros. { symmetry; apply bsum_0. }
  rewrite IHn, <- bsum_add. reflexivity.
Qed.

Lemma bsum_conj : forall n f, sconj (bsum n f) = bsum n (fun k => sconj (f k)).
Proof. induction n; simpl; intros; [apply sconj_0|]. rewrite s_conj_add, IHn; auto. Qed.

Definition delta (i j : nat) : K := if Nat.eqb i j then 1 else 0.

Lemma delta_same : forall i, delta i i = 1.
Proof. intro; unfold delta; rewrite Nat.eqb_refl; auto. Qed.
Lemma delta_diff : forall i j, i <> j -> delta i j = 0.
Proof. intros; unfold delta. destruct (Nat.eqb_spec i j); congruence. Qed.
Lemma delta_sym : forall i j, delta i j = delta j i.
Proof. intros; unfold delta. rewrite Nat.eqb_sym; auto. Qed.
Lemma delta_conj : forall i j, sconj (delta i j) = delta i j.
Proof. intros; unfold delta; destruct (Nat.eqb i j); [apply sconj_1|apply sconj_0]. Qed.

Lemma bsum_delta_l : forall n i f, (i < n)%nat -> bsum n (fun k => delta i k * f k) = f i.
Proof.
  induction n; intros; [lia|]. simpl.
  destruct (Nat.eq_dec i n).
  - subst. rewrite delta_same, bsum_zero; [ring|]. intros. rewrite delta_diff by lia. ring.
  - rewrite IHn by lia. rewrite (@delta_diff i n) by lia. ring.
Qed.

Lemma bsum_delta_r : forall n i f, (i < n)%nat -> bsum n (fun k => f k * delta k i) = f i.
Proof.
  intros. rewrite <- (bsum_delta_l f H). apply bsum_ext. intros. rewrite (delta_sym k i). ring.
Qed.

Lemma bsum_delta_out : forall n i f, (n <= i)%nat -> bsum n (fun k => f k * delta k i) = 0.
Proof. intros. apply bsum_zero. intros. rewrite delta_diff by lia. ring. Qed.

Lemma bsum_app : forall n m f, bsum (n + m) f = bsum n f + bsum m (fun k => f (n + k)%nat).
Proof.
  induction m; intros; simpl. { rewrite Nat.add_0_r; ring. }
  rewrite Nat.add_succ_r. simpl. rewrite IHm. ring.
Qed.

(** ** Matrices *)

(** Eigen::SparseMatrix<Scalar>: rows(), cols(), coeff(i,j). *)
Record mat := Mat { nr : nat; nc : nat; at_ : nat -> nat -> K }.

(** Equality of dimensions and of all coefficients inside them. *)
Definition meq (A B : mat) : Prop :=
  nr A = nr B /\ nc A = nc B /\
  forall i j, (i < nr A)%nat -> (j < nc A)%nat -> at_ A i j = at_ B i j.

Definition mmul (A B : mat) : mat :=
  Mat (nr A) (nc B) (fun i j => bsum (Nat.min (nc A) (nr B)) (fun k => at_ A i k * at_ B k j)).
Definition madj (A : mat) : mat := Mat (nc A) (nr A) (fun i j => sconj (at_ A j i)).
Definition madd (A B : mat) : mat :=
  Mat (Nat.min (nr A) (nr B)) (Nat.min (nc A) (nc B)) (fun i j => at_ A i j + at_ B i j).
Definition mscale (c : K) (A : mat) : mat := Mat (nr A) (nc A) (fun i j => c * at_ A i j).
Definition mid (n : nat) : mat := Mat n n delta.
Definition mzero (n m : nat) : mat := Mat n m (fun _ _ => 0).

(** Eigen's [size()] = rows * cols *)
Definition msize (A : mat) : nat := (nr A * nc A)%nat.

Definition hermitian (A : mat) : Prop := meq (madj A) A.
Definition isometry (A : mat) : Prop := meq (mmul (madj A) A) (mid (nc A)).
Definition unitary (n : nat) (A : mat) : Prop :=
  nr A = n /\ nc A = n /\ meq (mmul (madj A) A) (mid n) /\ meq (mmul A (madj A)) (mid n).
Definition diagonal (A : mat) : Prop :=
  forall i j, (i < nr A)%nat -> (j < nc A)%nat -> i <> j -> at_ A i j = 0.

Global Instance meq_equiv : Equivalence meq.
Proof.
  split.
  - intro A; repeat split; auto.
  - intros A B (h1&h2&h3); repeat split; auto. intros; symmetry; apply h3; congruence.
  - intros A B C (h1&h2&h3) (g1&g2&g3); repeat split; try congruence.
    intros. rewrite h3 by auto. apply g3; congruence.
Qed.

Global Instance mmul_proper : Proper (meq ==> meq ==> meq) mmul.
Proof.
  intros A A' (a1&a2&a3) B B' (b1&b2&b3). repeat split; simpl; auto.
  intros. rewrite <- a2, <- b1. apply bsum_ext. intros k Hk.
  rewrite a3, b3 by lia. auto.
Qed.

Global Instance madj_proper : Proper (meq ==> meq) madj.
Proof. intros A A' (a1&a2&a3). repeat split; simpl; auto. intros. rewrite a3; auto. Qed.

Global Instance madd_proper : Proper (meq ==> meq ==> meq) madd.
Proof.
  intros A A' (a1&a2&a3) B B' (b1&b2&b3). repeat split; simpl; [lia|lia|].
  intros. rewrite a3, b3 by lia. auto.
Qed.

Global Instance mscale_proper : Proper (eq ==> meq ==> meq) mscale.
Proof. intros c c' <- A A' (a1&a2&a3). repeat split; simpl; auto. intros. rewrite a3; auto. Qed.

Lemma meq_nr : forall A B, meq A B -> nr A = nr B. Proof. firstorder. Qed.
Lemma meq_nc : forall A B, meq A B -> nc A = nc B. Proof. firstorder. Qed.

Lemma mmul_assoc : forall A B C, meq (mmul (mmul A B) C) (mmul A (mmul B C)).
Proof.
  intros. repeat split; auto. intros i j _ _. simpl.
  transitivity (bsum (Nat.min (nc B) (nr C)) (fun k =>
     bsum (Nat.min (nc A) (nr B)) (fun l => at_ A i l * at_ B l k * at_ C k j))).
  { apply bsum_ext; intros. rewrite bsum_mul_r. apply bsum_ext; intros; ring. }
  rewrite bsum_swap. apply bsum_ext; intros. rewrite bsum_mul_l. apply bsum_ext; intros; ring.
Qed.

Lemma madj_mul : forall A B, meq (madj (mmul A B)) (mmul (madj B) (madj A)).
Proof.
  intros. repeat split; auto. intros i j _ _. simpl. rewrite bsum_conj.
  rewrite Nat.min_comm. apply bsum_ext; intros. rewrite s_conj_mul. ring.
Qed.

Lemma madj_adj : forall A, meq (madj (madj A)) A.
Proof. intros. repeat split; auto. intros; simpl. apply s_conj_conj. Qed.

Lemma madj_add : forall A B, meq (madj (madd A B)) (madd (madj A) (madj B)).
Proof. intros. repeat split; auto. intros; simpl. apply s_conj_add. Qed.

Lemma madj_scale : forall c A, meq (madj (mscale c A)) (mscale (sconj c) (madj A)).
Proof. intros. repeat split; auto. intros; simpl. apply s_conj_mul. Qed.

Lemma madj_id : forall n, meq (madj (mid n)) (mid n).
Proof. intros. repeat split; auto. intros; simpl. rewrite delta_conj. apply delta_sym. Qed.

Lemma mmul_id_l : forall n A, nr A = n -> meq (mmul (mid n) A) A.
Proof.
  intros n A <-. repeat split; auto. intros; simpl in *. rewrite Nat.min_id.
  apply (@bsum_delta_l (nr A) i (fun k => at_ A k j)); auto.
Qed.

Lemma mmul_id_r : forall n A, nc A = n -> meq (mmul A (mid n)) A.
Proof.
  intros n A <-. repeat split; auto. intros; simpl in *. rewrite Nat.min_id.
  apply (@bsum_delta_r (nc A) j (fun k => at_ A i k)); auto.
Qed.

Lemma mmul_add_l : forall A B C, nr B = nr A -> nc B = nc A ->
  meq (mmul (madd A B) C) (madd (mmul A C) (mmul B C)).
Proof.
  intros. repeat split; simpl; try lia. intros. rewrite H0, Nat.min_id, <- bsum_add.
  apply bsum_ext; intros; ring.
Qed.

Lemma mmul_add_r : forall A B C, nr B = nr C -> nc B = nc C ->
  meq (mmul A (madd B C)) (madd (mmul A B) (mmul A C)).
Proof.
  intros. repeat split; simpl; try lia. intros. rewrite H, Nat.min_id, <- bsum_add.
  apply bsum_ext; intros; ring.
Qed.

Lemma mmul_scale_l : forall c A B, meq (mmul (mscale c A) B) (mscale c (mmul A B)).
Proof.
  intros. repeat split; auto. intros; simpl. rewrite bsum_mul_l. apply bsum_ext; intros; ring.
Qed.

Lemma mmul_scale_r : forall c A B, meq (mmul A (mscale c B)) (mscale c (mmul A B)).
Proof.
  intros. repeat split; auto. intros; simpl. rewrite bsum_mul_l. apply bsum_ext; intros; ring.
Qed.

Lemma madd_comm : forall A B, meq (madd A B) (madd B A).
Proof. intros. repeat split; simpl; try lia. intros; ring. Qed.

Lemma madd_assoc : forall A B C, meq (madd (madd A B) C) (madd A (madd B C)).
Proof. intros. repeat split; simpl; try lia. intros; ring. Qed.

Lemma madd_0_r : forall A n m, nr A = n -> nc A = m -> meq (madd A (mzero n m)) A.
Proof. intros A n m <- <-. repeat split; simpl; try lia. intros; ring. Qed.

Lemma mscale_mul : forall c d A, meq (mscale c (mscale d A)) (mscale (c * d) A).
Proof. intros. repeat split; auto. intros; simpl; ring. Qed.

(** Congruence [T† A T]. *)
Definition mconj (T A : mat) : mat := mmul (mmul (madj T) A) T.

Global Instance mconj_proper : Proper (meq ==> meq ==> meq) mconj.
Proof. intros T T' HT A A' HA. unfold mconj. rewrite HT, HA. reflexivity. Qed.

Lemma mconj_mul : forall S T A, meq (mconj (mmul S T) A) (mconj T (mconj S A)).
Proof.
  intros. unfold mconj. rewrite madj_mul.
  rewrite !mmul_assoc. reflexivity.
Qed.

Lemma mconj_add : forall T A B, nr A = nr B -> nc A = nc B ->
  meq (mconj T (madd A B)) (madd (mconj T A) (mconj T B)).
Proof.
  intros. unfold mconj. rewrite mmul_add_r by auto.
  rewrite mmul_add_l; simpl; auto. reflexivity.
Qed.

Lemma mconj_scale : forall T c A, meq (mconj T (mscale c A)) (mscale c (mconj T A)).
Proof.
  intros. unfold mconj. rewrite mmul_scale_r, mmul_scale_l. reflexivity.
Qed.

Lemma mconj_id : forall n A, nr A = n -> nc A = n -> meq (mconj (mid n) A) A.
Proof.
  intros. unfold mconj. rewrite madj_id.
  rewrite mmul_id_l by auto. apply mmul_id_r; auto.
Qed.

Lemma mconj_adj : forall T A, meq (madj (mconj T A)) (mconj T (madj A)).
Proof. intros. unfold mconj. rewrite !madj_mul, madj_adj, mmul_assoc. reflexivity. Qed.

Lemma mconj_hermitian : forall T A, hermitian A -> hermitian (mconj T A).
Proof. intros T A H. unfold hermitian in *. rewrite mconj_adj. rewrite H. reflexivity. Qed.

Lemma madd_hermitian : forall A B, hermitian A -> hermitian B -> hermitian (madd A B).
Proof. intros. unfold hermitian in *. rewrite madj_add, H, H0. reflexivity. Qed.

Lemma mscale_hermitian : forall c A, sconj c = c -> hermitian A -> hermitian (mscale c A).
Proof. intros. unfold hermitian in *. rewrite madj_scale, H, H0. reflexivity. Qed.

(** Selection matrix: entry (idxs[k], k) is 1; the transformators built from
    triplets (idx, idx_new++, 1), e.g. SystemBase.cpp:958-970. *)
Definition msel (n : nat) (idxs : list nat) : mat :=
  Mat n (length idxs) (fun i k => delta i (nth k idxs n)).

Lemma mmul_sel : forall A idxs i k, nc A = nc A ->
  (k < length idxs)%nat -> (nth k idxs (nc A) < nc A)%nat ->
  at_ (mmul A (msel (nc A) idxs)) i k = at_ A i (nth k idxs (nc A)).
Proof.
  intros. simpl. rewrite Nat.min_id.
  apply (@bsum_delta_r (nc A) _ (fun k0 => at_ A i k0)); auto.
Qed.

(** [setFromTriplets]: coefficients of equal positions are summed up. *)
Fixpoint tsum (l : list (nat * nat * K)) (i j : nat) : K :=
  match l with
  | [] => 0
  | (r, c, v) :: tl => (if Nat.eqb r i && Nat.eqb c j then v else 0) + tsum tl i j
  end.
Definition mtrip (n m : nat) (l : list (nat * nat * K)) : mat := Mat n m (tsum l).

End Mat.

Arguments mat K : clear implicits.

Declare Scope mat_scope.
Delimit Scope mat_scope with M.
Infix "==" := meq (at level 70) : mat_scope.
Infix "*" := mmul : mat_scope.
Infix "+" := madd : mat_scope.
Notation "A ^+" := (madj A) (at level 8, format "A ^+") : mat_scope.

(** ** Instances *)

(** Gaussian integers: a computable instance used for counterexamples and
    examples (complex numbers with integer parts). *)
Definition gz := (Z * Z)%type.
Local Open Scope Z_scope.
Definition gz_add (x y : gz) : gz := (fst x + fst y, snd x + snd y).
Definition gz_mul (x y : gz) : gz := (fst x * fst y - snd x * snd y, fst x * snd y + snd x * fst y).
Definition gz_sub (x y : gz) : gz := (fst x - fst y, snd x - snd y).
Definition gz_opp (x : gz) : gz := (- fst x, - snd x).
Definition gz_conj (x : gz) : gz := (fst x, - snd x).
Definition gz_lt (x y : gz) : bool := fst x <? fst y.

Lemma gz_ring : ring_theory (0,0) (1,0) gz_add gz_mul gz_sub gz_opp eq.
Proof.
  constructor; intros; repeat match goal with x : gz |- _ => destruct x end;
  apply injective_projections; unfold gz_add, gz_mul, gz_sub, gz_opp, gz_conj; cbn [fst snd]; ring.
Qed.

Definition GZ : StarRing.
Proof.
  refine (@Build_StarRing gz (0,0) (1,0) gz_add gz_mul gz_sub gz_opp gz_conj gz_lt gz_ring _ _ _);
  intros; repeat match goal with x : gz |- _ => destruct x end;
  apply injective_projections; unfold gz_add, gz_mul, gz_sub, gz_opp, gz_conj; cbn [fst snd]; ring.
Defined.

(** Integers with trivial involution: the real scalar type. *)
Definition ZR : StarRing.
Proof.
  refine (@Build_StarRing Z 0 1 Z.add Z.mul Z.sub Z.opp (fun x => x) Z.ltb _ _ _ _).
  - constructor; intros; ring.
  - auto.
  - auto.
  - auto.
Defined.

(** Matrices from literal lists of rows (for examples). *)
Definition mlist {K : StarRing} (n m : nat) (rows : list (list K)) : mat K :=
  Mat n m (fun i j => nth j (nth i rows []) s0).
