(** The Wigner d-matrix: the code's sums in closed form. *)
From Verif Require Import Base StateModel LookupModel Matrix FieldModel WignerModel WignerPoly.
From Coq Require Import ZArith Lia Bool Arith Reals Lra List.
Import ListNotations.
Set Implicit Arguments.
Local Open Scope R_scope.

(** ** Elementary facts *)

Ltac toR := match goal with |- @eq _ ?x ?y => change (@eq R x y) end;
  cbn [sadd smul ssub sopp s0 s1 RR].


Lemma half_double : forall x : Z, half (2 * x) = x.
Proof. intro x. unfold half. rewrite Z.mul_comm. apply Z.quot_mul. lia. Qed.

Lemma binom_fact : forall n k, (k <= n)%nat -> (binom n k * (fact k * fact (n - k)) = fact n)%nat.
Proof.
  induction n; intros k H.
  - assert (k = 0%nat) by lia; subst. reflexivity.
  - destruct k.
    + rewrite binom_0. cbn [fact Nat.sub]. lia.
    + cbn [binom Nat.sub]. rewrite Nat.mul_add_distr_r.
      assert (E1 : (binom n k * (fact (S k) * fact (n - k)) = S k * fact n)%nat).
      { rewrite <- (IHn k) by lia. cbn [fact]. nia. }
      destruct (Nat.eq_dec k n) as [->|Hk].
      * rewrite (@binom_high n (S n)) by lia. rewrite E1. cbn [fact]. lia.
      * assert (E2 : (binom n (S k) * (fact (S k) * fact (n - k)) = (n - k) * fact n)%nat).
        { rewrite <- (IHn (S k)) by lia. replace (n - k)%nat with (S (n - S k)) by lia. cbn [fact]. 
          replace (S (n - S k))%nat with (n - k)%nat by lia.
          replace (fact (n - S k) + (n - S k) * fact (n - S k))%nat with (S (n - S k) * fact (n - S k))%nat by lia.
          replace (S (n - S k))%nat with (n - k)%nat by lia. nia. }
        rewrite E1, E2. cbn [fact]. nia.
Qed.

Lemma fact_pos : forall n, 0 < INR (fact n).
Proof. intro. apply lt_0_INR, Nat.neq_0_lt_0, fact_neq_0. Qed.

Lemma bin_nat : forall n k, (k <= n)%nat -> bin (Z.of_nat n) (Z.of_nat k) = INR (binom n k).
Proof.
  intros n k H. unfold bin, facR. rewrite <- Nat2Z.inj_sub by auto. rewrite !Nat2Z.id.
  rewrite <- (@binom_fact n k H), !mult_INR.
  pose proof (fact_pos k). pose proof (fact_pos (n - k)). field; split; lra.
Qed.

Lemma ofnat_INR : forall n, ofnat (K := RR) n = INR n.
Proof.
  induction n; auto. rewrite S_INR. cbn [ofnat]. rewrite IHn. change (1 + INR n = INR n + 1). apply Rplus_comm.
Qed.
Lemma spow_pow : forall (c : R) n, spow (K := RR) c n = c ^ n.
Proof. induction n; [reflexivity|]. cbn [spow pow]. rewrite IHn. reflexivity. Qed.

Lemma powerRZ_m1 : forall n, powerRZ (-1) (Z.of_nat n) = (-1) ^ n.
Proof. intro. symmetry. apply pow_powerRZ. Qed.
Lemma powerRZ_m1_even : forall z, powerRZ (-1) (2 * z) = 1.
Proof.
  intro z. replace (2 * z)%Z with (z + z)%Z by lia. rewrite powerRZ_add by lra.
  rewrite <- powerRZ_mult. replace (-1 * -1) with 1 by ring. apply powerRZ_R1.
Qed.
Lemma powerRZ_m1_add : forall x y, powerRZ (-1) (x + y) = powerRZ (-1) x * powerRZ (-1) y.
Proof. intros. apply powerRZ_add. lra. Qed.

(** Sum of a list in R as a bounded sum. *)
Lemma fold_bsum : forall A (f : A -> R) l r,
  fold_left (fun r x => r + f x) l r = r + fold_right (fun x s => f x + s) 0 l.
Proof. induction l; intros; cbn; [ring|]. rewrite IHl. ring. Qed.
Lemma bsum_seq : forall n (f : nat -> R),
  fold_right (fun x s => f x + s) 0 (seq 0 n) = bsum (K := RR) n f.
Proof.
  intros n f.
  assert (G : forall k x, fold_right (fun i s => f i + s) x (seq 0 k) = bsum (K := RR) k f + x).
  { induction k; intros; [cbn; ring|]. rewrite seq_S, fold_right_app. cbn [fold_right Nat.add]. rewrite IHk. cbn [bsum]. toR. ring. }
  rewrite G. apply Rplus_0_r.
Qed.

(** ** evalWignerdPiHalf *)

Definition w (n a : nat) : R := sqrt (INR (fact a) * INR (fact (n - a))).
Lemma w_pos : forall n a, 0 < w n a.
Proof. intros. apply sqrt_lt_R0. apply Rmult_lt_0_compat; apply fact_pos. Qed.

(** Twice the magnetic quantum number of the a-th state of the multiplet. *)
Definition mq (n a : nat) : Z := (2 * Z.of_nat a - Z.of_nat n)%Z.

Notation rc l a := (coefs (K := RR) l a) (only parsing).
Definition lm : RR * RR := (1, -1).
Definition lp : RR * RR := (1, 1).

Lemma rep_m : forall p k, rc (repeat lm p) k = INR (binom p k) * (-1) ^ k.
Proof.
  intros. rewrite (@coefs_repeat RR). rewrite ofnat_INR, !spow_pow. cbn [fst snd lm]. rewrite pow1.
  toR. ring.
Qed.
Lemma rep_p : forall p k, rc (repeat lp p) k = INR (binom p k).
Proof.
  intros. rewrite (@coefs_repeat RR). rewrite ofnat_INR, !spow_pow. cbn [fst snd lp]. rewrite !pow1.
  toR. ring.
Qed.

Lemma binom_sym : forall n k, (k <= n)%nat -> binom n (n - k) = binom n k.
Proof.
  intros n k H. pose proof (@binom_fact n k H). pose proof (@binom_fact n (n - k) ltac:(lia)).
  replace (n - (n - k))%nat with k in H1 by lia.
  pose proof (fact_neq_0 k). pose proof (fact_neq_0 (n - k)).
  assert (fact k * fact (n - k) <> 0)%nat by nia.
  rewrite (Nat.mul_comm (fact (n - k))) in H1. rewrite <- H1 in H0. nia.
Qed.

Lemma krange_nat : forall n a b, (a <= n)%nat -> (b <= n)%nat ->
  krange (Z.of_nat n) (mq n a) (mq n b) =
  map (fun i => (Z.of_nat i + Z.of_nat b - Z.of_nat a)%Z) (seq (a - b) (Nat.min a (n - b) + 1 - (a - b))).
Proof.
  intros n a b Ha Hb. unfold krange.
  replace (mq n b - mq n a)%Z with (2 * (Z.of_nat b - Z.of_nat a))%Z by (unfold mq; lia). rewrite half_double.
  replace ((Z.of_nat n + Z.min (mq n b) (- mq n a)) / 2)%Z with (Z.min (Z.of_nat b) (Z.of_nat n - Z.of_nat a)).
  2:{ replace (Z.of_nat n + Z.min (mq n b) (- mq n a))%Z with (Z.min (Z.of_nat b) (Z.of_nat n - Z.of_nat a) * 2)%Z by (unfold mq; lia).
      symmetry. apply Z.div_mul. lia. }
  replace (Z.to_nat _) with (Nat.min a (n - b) + 1 - (a - b))%nat by lia.
  set (L := (Nat.min a (n - b) + 1 - (a - b))%nat).
  replace (seq (a - b) L) with (map (fun i => (a - b + i)%nat) (seq 0 L)).
  2:{ clear. generalize (a - b)%nat as s. intro s. assert (G : forall k, map (fun i => (s + i)%nat) (seq k L) = seq (s + k) L).
      { induction L; intros; cbn; f_equal. rewrite IHL. f_equal. lia. }
      rewrite G. f_equal. lia. }
  rewrite map_map. apply map_ext. intros i. lia.
Qed.

Lemma fold_right_map : forall A B (g : A -> B) (f : B -> R) l,
  fold_right (fun x acc => f x + acc) 0 (map g l) = fold_right (fun x acc => f (g x) + acc) 0 l.
Proof. induction l; cbn; auto. rewrite IHl. reflexivity. Qed.
Lemma fold_right_ext : forall A (f g : A -> R) l, (forall x, In x l -> f x = g x) ->
  fold_right (fun x acc => f x + acc) 0 l = fold_right (fun x acc => g x + acc) 0 l.
Proof. induction l; intros; cbn; auto. rewrite (H a), IHl; auto with datatypes. Qed.
Lemma sum_shift : forall s L (f : nat -> R),
  fold_right (fun x acc => f x + acc) 0 (seq s L) = bsum (K := RR) L (fun i => f (s + i)%nat).
Proof.
  intros s L f. rewrite <- bsum_seq. revert s f. induction L; intros; cbn [seq fold_right]; auto.
  rewrite IHL, <- seq_shift. replace (s + 0)%nat with s by lia. f_equal.
  rewrite fold_right_map. apply fold_right_ext. intros. f_equal. lia.
Qed.

Lemma fold_right_scale : forall A (f : A -> R) c l,
  c * fold_right (fun x acc => f x + acc) 0 l = fold_right (fun x acc => c * f x + acc) 0 l.
Proof. induction l; cbn; [ring|]. rewrite <- IHl. ring. Qed.

Lemma bsum_R_zero : forall n (f : nat -> R), (forall k, (k < n)%nat -> f k = 0) -> bsum (K := RR) n f = 0.
Proof. intros. apply (@bsum_zero RR); auto. Qed.

(** The sum over the code's range is the coefficient of the polynomial. *)
Lemma piHalf_sum : forall n a b, (a <= n)%nat -> (b <= n)%nat ->
  fold_right (fun i s => INR (binom (n - b) i) * (-1) ^ i * INR (binom b (a - i)) + s) 0
    (seq (a - b) (Nat.min a (n - b) + 1 - (a - b))) = rc (two lm lp (n - b) b) a.
Proof.
  intros n a b Ha Hb. unfold two. rewrite (@coefs_app RR).
  rewrite sum_shift. set (lo := (a - b)%nat). set (len := (Nat.min a (n - b) + 1 - lo)%nat).
  replace (S a) with (lo + (len + (a - Nat.min a (n - b))))%nat by lia.
  rewrite !(@bsum_app RR). change (@sadd RR) with Rplus.
  rewrite (@bsum_R_zero lo), (@bsum_R_zero (a - Nat.min a (n - b))).
  - rewrite Rplus_0_l, Rplus_0_r. apply (@bsum_ext RR). intros k Hk. rewrite rep_m, rep_p. reflexivity.
  - intros k Hk. rewrite rep_m. rewrite (@binom_high (n - b)) by lia. toR. cbn [INR]. ring.
  - intros k Hk. rewrite rep_p. rewrite (@binom_high b) by lia. toR. cbn [INR]. ring.
Qed.

Lemma Rpower_half : forall n, Rpower 2 (IZR (Z.of_nat n) / 2) = sqrt 2 ^ n.
Proof.
  intro n. rewrite <- INR_IZR_INZ. unfold Rdiv. rewrite Rmult_comm, <- Rpower_mult.
  rewrite Rpower_pow. 2:{ apply exp_pos. } rewrite Rpower_sqrt by lra. reflexivity.
Qed.

Theorem piHalf_closed : forall n a b, (a <= n)%nat -> (b <= n)%nat ->
  piHalf (Z.of_nat n) (mq n a) (mq n b) = w n a / w n b / sqrt 2 ^ n * rc (two lm lp (n - b) b) a.
Proof.
  intros n a b Ha Hb. unfold piHalf. rewrite krange_nat by auto. rewrite fold_bsum, Rplus_0_l, fold_right_map.
  replace (Z.of_nat n + mq n b)%Z with (2 * Z.of_nat b)%Z by (unfold mq; lia).
  replace (Z.of_nat n - mq n b)%Z with (2 * Z.of_nat (n - b))%Z by (unfold mq; lia).
  replace (Z.of_nat n + mq n a)%Z with (2 * Z.of_nat a)%Z by (unfold mq; lia).
  replace (Z.of_nat n - mq n a)%Z with (2 * Z.of_nat (n - a))%Z by (unfold mq; lia).
  replace (mq n a - mq n b)%Z with (2 * (Z.of_nat a - Z.of_nat b))%Z by (unfold mq; lia).
  rewrite !half_double, Rpower_half.
  rewrite (fold_right_ext _ (fun i => powerRZ (-1) (Z.of_nat b - Z.of_nat a) * (INR (binom (n - b) i) * (-1) ^ i * INR (binom b (a - i))))).
  2:{ intros i Hi. apply in_seq in Hi.
      replace (2 * (Z.of_nat i + Z.of_nat b - Z.of_nat a) + mq n a - mq n b)%Z with (2 * Z.of_nat i)%Z by (unfold mq; lia).
      rewrite half_double, bin_nat by lia.
      replace (Z.of_nat i + Z.of_nat b - Z.of_nat a)%Z with (Z.of_nat (b - (a - i))) at 2 by lia.
      rewrite bin_nat, binom_sym by lia.
      replace (Z.of_nat i + Z.of_nat b - Z.of_nat a)%Z with (Z.of_nat b - Z.of_nat a + Z.of_nat i)%Z by lia.
      rewrite powerRZ_m1_add, powerRZ_m1. ring. }
  rewrite <- fold_right_scale, piHalf_sum by auto.
  unfold facR. rewrite !Nat2Z.id.
  rewrite sqrt_div_alt by (apply Rmult_lt_0_compat; apply fact_pos). fold (w n a). fold (w n b).
  assert (S : powerRZ (-1) (Z.of_nat b - Z.of_nat a) * powerRZ (-1) (Z.of_nat a - Z.of_nat b) = 1).
  { rewrite <- powerRZ_m1_add. replace (_ + _)%Z with 0%Z by lia. reflexivity. }
  pose proof (w_pos n b). assert (0 < sqrt 2 ^ n) by (apply pow_lt, sqrt_lt_R0; lra).
  set (X := coefs _ a). set (p := powerRZ (-1) (Z.of_nat b - Z.of_nat a)) in *.
  set (q := powerRZ (-1) (Z.of_nat a - Z.of_nat b)) in *.
  transitivity (p * q * (w n a / w n b / sqrt 2 ^ n * X)); [field; split; lra|]. rewrite S. ring.
Qed.
