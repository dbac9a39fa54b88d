(** Coefficients of products of linear forms (used for the Wigner d-matrix). *)
From Verif Require Import Matrix.
From Coq Require Import ZArith Lia Bool Arith Ring List Permutation.
Import ListNotations.
Set Implicit Arguments.

Section Poly.
Context {K : StarRing}.
Local Open Scope star_scope.
Add Ring Kr : (s_ring K).

(** Multiplication of the polynomial with coefficients [f] by [fst u + snd u * y]. *)
Definition pmul (u : K * K) (f : nat -> K) (a : nat) : K :=
  fst u * f a + (match a with O => 0 | S a' => snd u * f a' end).
Definition pone (a : nat) : K := match a with O => 1 | _ => 0 end.
(** Coefficients of the product of a list of linear forms. *)
Fixpoint coefs (l : list (K * K)) : nat -> K :=
  match l with [] => pone | u :: l' => pmul u (coefs l') end.

Lemma pmul_ext : forall u f g, (forall a, f a = g a) -> forall a, pmul u f a = pmul u g a.
Proof. intros u f g H a. unfold pmul. destruct a; rewrite ?H; auto. Qed.

Lemma pmul_comm : forall u v f a, pmul u (pmul v f) a = pmul v (pmul u f) a.
Proof. intros u v f a. unfold pmul. destruct a as [|[|a]]; ring. Qed.

Lemma coefs_perm : forall l l', Permutation l l' -> forall a, coefs l a = coefs l' a.
Proof.
  intros l l' H. induction H; intro a; cbn [coefs]; auto.
  - apply pmul_ext; auto.
  - apply pmul_comm.
  - rewrite IHPermutation1; auto.
Qed.

Lemma coefs_high : forall l a, (length l < a)%nat -> coefs l a = 0.
Proof.
  induction l; intros b H; cbn [coefs length] in *.
  - destruct b; [lia|reflexivity].
  - unfold pmul. destruct b; [lia|]. rewrite !IHl by lia. ring.
Qed.

(** Two linear forms with multiplicities. *)
Definition two (u v : K * K) (p q : nat) : list (K * K) := repeat u p ++ repeat v q.
Lemma two_length : forall u v p q, length (two u v p q) = (p + q)%nat.
Proof. intros. unfold two. rewrite app_length, !repeat_length. reflexivity. Qed.
Lemma two_l : forall u v p q a, coefs (two u v (S p) q) a = pmul u (coefs (two u v p q)) a.
Proof. reflexivity. Qed.
Lemma two_r : forall u v p q a, coefs (two u v p (S q)) a = pmul v (coefs (two u v p q)) a.
Proof.
  intros. transitivity (coefs (v :: two u v p q) a); [|reflexivity]. apply coefs_perm.
  unfold two. cbn [repeat]. symmetry. apply Permutation_middle.
Qed.

(** Homogeneous substitution: replace 1 by [u] and y by [v]. *)
Definition subst (u v : K * K) (w : K * K) : K * K :=
  (fst w * fst u + snd w * fst v, fst w * snd u + snd w * snd v).

Lemma pmul_sum : forall w n (g : nat -> nat -> K) a,
  pmul w (fun i => bsum n (fun k => g k i)) a = bsum n (fun k => pmul w (g k) a).
Proof.
  intros. unfold pmul. destruct a.
  - rewrite bsum_add, bsum_mul_l, bsum_0. reflexivity.
  - rewrite bsum_add, !bsum_mul_l. reflexivity.
Qed.

Theorem substitution : forall u v l a,
  bsum (S (length l)) (fun b => coefs (two u v (length l - b) b) a * coefs l b) = coefs (map (subst u v) l) a.
Proof.
  intros u v. induction l as [|w l IH]; intro a.
  - cbn [length bsum map coefs]. unfold two. cbn [repeat app Nat.sub coefs]. cbn [pone]. ring.
  - set (n := length l) in *. cbn [map coefs]. rewrite <- (@pmul_ext _ _ _ IH).
    rewrite pmul_sum.
    (* split the sum on the left into the two contributions of w *)
    assert (E : forall b, coefs (two u v (length (w :: l) - b) b) a * coefs (w :: l) b =
                 coefs (two u v (S n - b) b) a * (fst w * coefs l b) +
                 (match b with O => 0 | S b' => coefs (two u v (n - b') (S b')) a * (snd w * coefs l b') end)).
    { intro b. cbn [length coefs]. fold n. unfold pmul. destruct b; [ring|]. replace (S n - S b)%nat with (n - b)%nat by lia. ring. }
    etransitivity; [apply bsum_ext; intros b _; exact (E b)|].
    rewrite bsum_add. cbn [length]. fold n.
    replace (bsum (S (S n)) (fun k => coefs (two u v (S n - k) k) a * (fst w * coefs l k)))
      with (bsum (S n) (fun k => pmul u (coefs (two u v (n - k) k)) a * (fst w * coefs l k))).
    2:{ change (bsum (S (S n)) ?f) with (bsum (S n) f + f (S n)). cbv beta.
        rewrite (@coefs_high l (S n)) by (unfold n; lia).
        transitivity (bsum (S n) (fun k => coefs (two u v (S n - k) k) a * (fst w * coefs l k))); [|ring].
        apply bsum_ext. intros k Hk. replace (S n - k)%nat with (S (n - k)) by lia. rewrite two_l. reflexivity. }
    replace (bsum (S (S n)) (fun k => match k with O => 0 | S b' => coefs (two u v (n - b') (S b')) a * (snd w * coefs l b') end))
      with (bsum (S n) (fun k => pmul v (coefs (two u v (n - k) k)) a * (snd w * coefs l k))).
    2:{ transitivity (bsum (S n) (fun k => coefs (two u v (n - k) (S k)) a * (snd w * coefs l k))).
        - apply bsum_ext. intros k Hk. rewrite two_r. reflexivity.
        - change (S (S n)) with (1 + S n)%nat. rewrite bsum_app. cbn [bsum Nat.add]. ring. }
    rewrite <- bsum_add. apply bsum_ext. intros k Hk. unfold pmul, subst. cbn [fst snd]. destruct a; ring.
Qed.

(** Scaling the forms. *)
Definition pscale (c : K) (u : K * K) : K * K := (c * fst u, c * snd u).
Fixpoint spow (c : K) (n : nat) : K := match n with O => 1 | S n' => c * spow c n' end.
Lemma coefs_scale : forall c l a, coefs (map (pscale c) l) a = spow c (length l) * coefs l a.
Proof.
  induction l; intro b; cbn [map coefs length spow]; [ring|].
  unfold pmul, pscale. cbn [fst snd]. destruct b; rewrite !IHl; ring.
Qed.
(** Substituting [c y] for [y]. *)
Definition ptwist (c : K) (u : K * K) : K * K := (fst u, c * snd u).
Lemma coefs_twist : forall c l a, coefs (map (ptwist c) l) a = spow c a * coefs l a.
Proof.
  induction l; intro b; cbn [map coefs].
  - unfold pone. destruct b; cbn [spow]; ring.
  - unfold pmul, ptwist. cbn [fst snd]. destruct b; rewrite !IHl; cbn [spow]; ring.
Qed.

Lemma map_repeat : forall A B (f : A -> B) x n, map f (repeat x n) = repeat (f x) n.
Proof. induction n; cbn; f_equal; auto. Qed.
Lemma map_two : forall f u v p q, map f (two u v p q) = two (f u) (f v) p q.
Proof. intros. unfold two. rewrite map_app, !map_repeat. reflexivity. Qed.

Lemma spow_add : forall c p q, spow c (p + q) = spow c p * spow c q.
Proof. induction p; intros; cbn [spow Nat.add]; [ring|]. rewrite IHp. ring. Qed.
Lemma spow_1 : forall n, spow 1 n = 1.
Proof. induction n; cbn [spow]; auto. rewrite IHn. ring. Qed.
Lemma spow_mul : forall c d n, spow (c * d) n = spow c n * spow d n.
Proof. induction n; cbn [spow]; [ring|]. rewrite IHn. ring. Qed.

(** *** The explicit sum: coefficients by binomial numbers. *)
Fixpoint binom (n k : nat) : nat :=
  match n, k with
  | _, O => 1%nat
  | O, S _ => 0%nat
  | S n', S k' => (binom n' k' + binom n' k)%nat
  end.
Fixpoint ofnat (n : nat) : K := match n with O => 0 | S n' => 1 + ofnat n' end.
Lemma ofnat_add : forall a b, ofnat (a + b) = ofnat a + ofnat b.
Proof. induction a; intros; cbn [ofnat Nat.add]; [ring|]. rewrite IHa. ring. Qed.

Lemma binom_0 : forall n, binom n 0 = 1%nat. Proof. destruct n; reflexivity. Qed.
Lemma binom_high : forall n k, (n < k)%nat -> binom n k = 0%nat.
Proof. induction n; intros [|k] H; cbn [binom]; try lia. rewrite !IHn by lia. reflexivity. Qed.

Lemma coefs_repeat : forall u p k, coefs (repeat u p) k = ofnat (binom p k) * (spow (snd u) k * spow (fst u) (p - k)).
Proof.
  induction p; intros k; cbn [repeat coefs].
  - destruct k; cbn; ring.
  - unfold pmul. destruct k; rewrite !IHp.
    + rewrite !binom_0, !Nat.sub_0_r. cbn [spow]. ring.
    + cbn [binom Nat.sub]. rewrite ofnat_add. destruct (Nat.lt_ge_cases k p) as [H|H].
      * replace (p - k)%nat with (S (p - S k)) by lia. cbn [spow]. ring.
      * rewrite (@binom_high p (S k)) by lia. cbn [ofnat spow]. ring.
Qed.

(** Product of two polynomials: convolution. *)
Lemma coefs_app : forall l l' a, coefs (l ++ l') a = bsum (S a) (fun i => coefs l i * coefs l' (a - i)).
Proof.
  induction l as [|w l IH]; intros l' a; cbn [app coefs].
  - change (S a) with (1 + a)%nat. rewrite bsum_app. cbn [bsum]. rewrite Nat.sub_0_r. cbn [pone].
    rewrite bsum_zero. ring. intros; cbn [Nat.add pone]. ring.
  - unfold pmul at 1. destruct a.
    + rewrite IH. cbn [bsum]. unfold pmul. cbn [Nat.sub]. ring.
    + rewrite !IH. unfold pmul.
      rewrite (@bsum_ext K (S (S a)) (fun i => (fst w * coefs l i + match i with O => 0 | S a' => snd w * coefs l a' end) * coefs l' (S a - i))
        (fun i => fst w * (coefs l i * coefs l' (S a - i)) + match i with O => 0 | S a' => snd w * (coefs l a' * coefs l' (a - a')) end)).
      2:{ intros k Hk. destruct k; [ring|]. replace (S a - S k)%nat with (a - k)%nat by lia. ring. }
      rewrite bsum_add, <- bsum_mul_l. f_equal.
      change (S (S a)) with (1 + S a)%nat. rewrite bsum_app, bsum_mul_l. cbn [bsum Nat.add]. ring.
Qed.
End Poly.
