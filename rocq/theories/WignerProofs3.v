(** The Wigner d-matrix: Wigner's formula, addition of angles, transposition. *)
From Verif Require Import Base StateModel LookupModel Matrix FieldModel WignerModel WignerSpec WignerPoly WignerProofs WignerProofs2.
From Coq Require Import ZArith Lia Bool Arith Reals Lra List Permutation.
Import ListNotations.
Set Implicit Arguments.
Local Open Scope R_scope.

Definition snap (beta : R) : R := if Rlt_dec (Rabs (beta - PI / 2)) tolW then PI / 2 else beta.

Lemma sqrt2_pow : forall n, 0 < sqrt 2 ^ n.
Proof. intro. apply pow_lt, sqrt_lt_R0. lra. Qed.

Lemma half_angle : sin (PI / 2 / 2) = / sqrt 2 /\ cos (PI / 2 / 2) = / sqrt 2.
Proof.
  replace (PI / 2 / 2) with (PI / 4) by field. rewrite sin_PI4, cos_PI4.
  split; unfold Rdiv; ring.
Qed.

Lemma dpoly_pi2 : forall n a b, (a <= n)%nat -> (b <= n)%nat ->
  dpoly n a b (PI / 2) = piHalf (Z.of_nat n) (mq n a) (mq n b).
Proof.
  intros n a b Ha Hb. rewrite piHalf_closed by auto. unfold dpoly. destruct half_angle as [Hs Hc].
  replace (two (K := RR) (down (PI / 2)) (upf (PI / 2)) (n - b) b) with (map (pscale (K := RR) (/ sqrt 2)) (two lm lp (n - b) b)).
  - rewrite coefs_scale, spow_pow, two_length. replace (n - b + b)%nat with n by lia. 
    rewrite pow_inv. toR. set (X := coefs _ a). pose proof (w_pos n b). pose proof (sqrt2_pow n). field. split; lra.
  - rewrite map_two'. f_equal; unfold down, upf, pscale, lm, lp; rewrite Hs, Hc; cbn [fst snd];
      apply injective_projections; cbn [fst snd]; toR; ring.
Qed.

Theorem wignerd_closed : forall n a b beta, (a <= n)%nat -> (b <= n)%nat ->
  wignerd (Z.of_nat n) (mq n a) (mq n b) beta = dpoly n a b (snap beta).
Proof.
  intros n a b beta Ha Hb. unfold wignerd, snap. destruct (Rlt_dec _ _).
  - symmetry. apply dpoly_pi2; auto.
  - apply evalWignerd_closed; auto.
Qed.

(** ** Addition of angles *)
Theorem dpoly_add : forall n a c x y, (c <= n)%nat ->
  bsum (K := RR) (S n) (fun b => dpoly n a b x * dpoly n b c y) = dpoly n a c (x + y).
Proof.
  intros n a c x y Hc. unfold dpoly.
  pose proof (@substitution RR (down x) (upf x) (two (down y) (upf y) (n - c) c) a) as Q.
  rewrite two_length in Q. replace (n - c + c)%nat with n in Q by lia.
  rewrite map_two' in Q.
  assert (F : subst (K := RR) (down x) (upf x) (down y) = down (x + y) /\ subst (K := RR) (down x) (upf x) (upf y) = upf (x + y)).
  { assert (E1 : cos ((x + y) / 2) = cos (x / 2) * cos (y / 2) - sin (x / 2) * sin (y / 2)) by (rewrite <- cos_plus; f_equal; field).
    assert (E2 : sin ((x + y) / 2) = sin (x / 2) * cos (y / 2) + cos (x / 2) * sin (y / 2)) by (rewrite <- sin_plus; f_equal; field).
    unfold subst, down, upf. rewrite E1, E2. cbn [fst snd].
    split; apply injective_projections; cbn [fst snd]; toR; ring. }
  destruct F as [F1 F2]. rewrite F1, F2 in Q. rewrite <- Q.
  change (w n a / w n c * ?s) with (smul (s := RR) (w n a / w n c) s). rewrite (@bsum_mul_l RR).
  apply (@bsum_ext RR). intros k Hk. toR. set (X := coefs _ a). set (Y := coefs _ k).
  pose proof (w_pos n k). pose proof (w_pos n c). field. split; lra.
Qed.

Lemma pick_high : forall b a, coefs (K := RR) (repeat ((0, 1) : RR * RR) b) a = if Nat.eqb a b then 1 else 0.
Proof.
  induction b; intro a; cbn [repeat coefs].
  - destruct a; reflexivity.
  - unfold pmul. cbn [fst snd]. destruct a; [toR; rewrite IHb; cbn [Nat.eqb]; ring|].
    rewrite !IHb. cbn [Nat.eqb]. toR. ring.
Qed.
Theorem dpoly_0 : forall n a b, dpoly n a b 0 = if Nat.eqb a b then 1 else 0.
Proof.
  intros n a b. unfold dpoly, down, upf. replace (0 / 2) with 0 by field. rewrite cos_0, sin_0.
  assert (E : forall p a, coefs (K := RR) (two ((1, - 0) : RR * RR) ((0, 1) : RR * RR) p b) a = if Nat.eqb a b then 1 else 0).
  { induction p; intro c. apply pick_high. rewrite two_l. unfold pmul. cbn [fst snd]. rewrite IHp. destruct c; [|rewrite IHp]; toR; ring. }
  rewrite E. destruct (Nat.eqb_spec a b); [subst|ring]. pose proof (w_pos n b). field. lra.
Qed.

(** ** The sum in terms of a common index *)
Lemma coefs_range : forall (u v : RR * RR) n a b, (a <= n)%nat -> (b <= n)%nat ->
  coefs (K := RR) (two u v (n - b) b) a =
  bsum (K := RR) (Nat.min a (n - b) + 1 - (a - b))
    (fun t => INR (binom (n - b) (a - b + t)) * (snd u ^ (a - b + t) * fst u ^ (n - b - (a - b + t))) *
              (INR (binom b (a - (a - b + t))) * (snd v ^ (a - (a - b + t)) * fst v ^ (b - (a - (a - b + t)))))).
Proof.
  intros u v n a b Ha Hb. unfold two. rewrite (@coefs_app RR).
  set (lo := (a - b)%nat). set (len := (Nat.min a (n - b) + 1 - lo)%nat).
  replace (S a) with (lo + (len + (a - Nat.min a (n - b))))%nat by lia.
  rewrite !(@bsum_app RR). change (@sadd RR) with Rplus.
  rewrite (@bsum_R_zero lo), (@bsum_R_zero (a - Nat.min a (n - b))).
  - rewrite Rplus_0_l, Rplus_0_r. apply (@bsum_ext RR). intros k Hk.
    rewrite !(@coefs_repeat RR), !ofnat_INR, !spow_pow. reflexivity.
  - intros k Hk. rewrite (@coefs_repeat RR (u)), ofnat_INR. rewrite (@binom_high (n - b)) by lia. toR. cbn [INR]. ring.
  - intros k Hk. rewrite (@coefs_repeat RR v), ofnat_INR. rewrite (@binom_high b) by lia. toR. cbn [INR]. ring.
Qed.

(** Common form of the summands: [k] sines from the one, [l] from the other factor. *)
Definition dterm (n a b : nat) (beta : R) (t : nat) : R :=
  let k := (b - a + t)%nat in let l := (a - b + t)%nat in
  (-1) ^ l * (w n a * w n b / (INR (fact k) * INR (fact (b - k)) * INR (fact l) * INR (fact (n - a - k)))) *
  (cos (beta / 2) ^ (b - k + (n - a - k)) * sin (beta / 2) ^ (k + l)).

Lemma dpoly_terms : forall n a b beta, (a <= n)%nat -> (b <= n)%nat ->
  dpoly n a b beta = bsum (K := RR) (Nat.min a (n - b) + 1 - (a - b)) (dterm n a b beta).
Proof.
  intros n a b beta Ha Hb. unfold dpoly. rewrite coefs_range by auto.
  change (w n a / w n b * ?s) with (smul (s := RR) (w n a / w n b) s). rewrite (@bsum_mul_l RR).
  apply (@bsum_ext RR). intros t Ht. toR. unfold dterm, down, upf. cbn [fst snd].
  set (k := (b - a + t)%nat). set (l := (a - b + t)%nat).
  assert (Kb : (k <= b)%nat) by lia. assert (Kn : (k <= n - a)%nat) by lia. assert (L : (l <= n - b)%nat) by lia.
  replace (a - l)%nat with (b - k)%nat by lia. rewrite binom_sym by auto.
  replace (b - (b - k))%nat with k by lia. replace (n - b - l)%nat with (n - a - k)%nat by lia.
  assert (E1 : INR (binom (n - b) l) = INR (fact (n - b)) / (INR (fact l) * INR (fact (n - a - k)))).
  { rewrite <- (@binom_fact (n - b) l L), !mult_INR. replace (n - b - l)%nat with (n - a - k)%nat by lia.
    pose proof (fact_pos l). pose proof (fact_pos (n - a - k)). field. split; lra. }
  assert (E2 : INR (binom b k) = INR (fact b) / (INR (fact k) * INR (fact (b - k)))).
  { rewrite <- (@binom_fact b k Kb), !mult_INR.
    pose proof (fact_pos k). pose proof (fact_pos (b - k)). field. split; lra. }
  rewrite E1, E2. replace (- sin (beta / 2)) with (-1 * sin (beta / 2)) by ring.
  rewrite Rpow_mult_distr, !pow_add.
  assert (E3 : INR (fact b) * INR (fact (n - b)) = w n b * w n b).
  { unfold w. rewrite sqrt_sqrt; auto. apply Rlt_le, Rmult_lt_0_compat; apply fact_pos. }
  pose proof (fact_pos l) as P1. pose proof (fact_pos (n - a - k)) as P2. pose proof (fact_pos k) as P3. pose proof (fact_pos (b - k)) as P4. pose proof (w_pos n b) as P5.
  transitivity (w n a / w n b * (INR (fact b) * INR (fact (n - b))) / (INR (fact k) * INR (fact (b - k)) * INR (fact l) * INR (fact (n - a - k))) *
    ((-1) ^ l * sin (beta / 2) ^ l * cos (beta / 2) ^ (n - a - k) * cos (beta / 2) ^ (b - k) * sin (beta / 2) ^ k)).
  - field. repeat split; lra.
  - rewrite E3. field. repeat split; lra.
Qed.

(** ** Transposition *)
Lemma m1_sub : forall k l, (-1) ^ k * (-1) ^ l = (-1) ^ (k + l).
Proof. intros. rewrite pow_add. reflexivity. Qed.
Theorem dpoly_transpose : forall n a b beta, (a <= n)%nat -> (b <= n)%nat -> dpoly n a b (- beta) = dpoly n b a beta.
Proof.
  intros n a b beta Ha Hb. rewrite !dpoly_terms by auto.
  replace (Nat.min b (n - a) + 1 - (b - a))%nat with (Nat.min a (n - b) + 1 - (a - b))%nat by lia.
  apply (@bsum_ext RR). intros t Ht. unfold dterm.
  set (k := (b - a + t)%nat). set (l := (a - b + t)%nat).
  replace (a - l)%nat with (b - k)%nat by lia. replace (n - b - l)%nat with (n - a - k)%nat by lia.
  replace (- beta / 2) with (- (beta / 2)) by field. rewrite cos_neg, sin_neg.
  replace (- sin (beta / 2)) with (-1 * sin (beta / 2)) by ring. rewrite Rpow_mult_distr.
  replace (l + k)%nat with (k + l)%nat by lia.
  replace ((-1) ^ k) with ((-1) ^ l * (-1) ^ (k + l)).
  2:{ rewrite m1_sub. replace (l + (k + l))%nat with (2 * l + k)%nat by lia. rewrite pow_add, pow_1_even. ring. }
  toR. pose proof (fact_pos l) as P1. pose proof (fact_pos (n - a - k)) as P2. pose proof (fact_pos k) as P3. pose proof (fact_pos (b - k)) as P4.
  field. repeat split; lra.
Qed.

(** ** Wigner's formula *)
Lemma sumR_bsum : forall n f, sumR n f = bsum (K := RR) n f.
Proof.
  intros. rewrite <- bsum_seq. unfold sumR. generalize (seq 0 n). induction l; cbn; auto. rewrite IHl. reflexivity.
Qed.
Theorem dpoly_formula : forall n a b beta, (a <= n)%nat -> (b <= n)%nat -> dpoly n a b beta = wigner_formula n a b beta.
Proof.
  intros n a b beta Ha Hb. rewrite dpoly_terms by auto. unfold wigner_formula. rewrite sumR_bsum.
  set (len := (Nat.min a (n - b) + 1 - (a - b))%nat).
  replace (S n) with ((b - a) + (len + (n + 1 - (b - a) - len)))%nat by lia.
  rewrite !(@bsum_app RR). change (@sadd RR) with Rplus.
  rewrite (@bsum_R_zero (b - a)), (@bsum_R_zero (n + 1 - (b - a) - len)).
  - rewrite Rplus_0_l, Rplus_0_r. apply (@bsum_ext RR). intros t Ht. unfold dterm.
    set (k := (b - a + t)%nat).
    replace ((k <=? b) && (k <=? n - a) && (b <=? k + a))%nat with true.
    2:{ symmetry. rewrite !andb_true_iff, !Nat.leb_le. lia. }
    replace (k + a - b)%nat with (a - b + t)%nat by lia. set (l := (a - b + t)%nat).
    replace (n + b - a - 2 * k)%nat with (b - k + (n - a - k))%nat by lia.
    replace (2 * k + a - b)%nat with (k + l)%nat by lia.
    replace (sqrt (INR (fact b) * INR (fact (n - b)) * INR (fact a) * INR (fact (n - a)))) with (w n a * w n b).
    2:{ unfold w. rewrite <- sqrt_mult by (apply Rlt_le, Rmult_lt_0_compat; apply fact_pos). f_equal. ring. }
    toR. pose proof (fact_pos l) as P1. pose proof (fact_pos (n - a - k)) as P2. pose proof (fact_pos k) as P3. pose proof (fact_pos (b - k)) as P4.
    field. repeat split; lra.
  - intros t Ht. destruct ((_ <=? _) && _ && _)%nat eqn:E; auto. rewrite !andb_true_iff, !Nat.leb_le in E. lia.
  - intros t Ht. destruct ((_ <=? _) && _ && _)%nat eqn:E; auto. rewrite !andb_true_iff, !Nat.leb_le in E. lia.
Qed.
