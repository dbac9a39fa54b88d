(** The Wigner d-matrix at every angle. *)
From Verif Require Import Base StateModel LookupModel Matrix FieldModel WignerModel WignerPoly WignerProofs.
From Coq Require Import ZArith Lia Bool Arith Reals Lra List Permutation.
Import ListNotations.
Set Implicit Arguments.
Local Open Scope R_scope.

Ltac cxr := intros; repeat match goal with x : car CR |- _ => destruct x end;
  apply injective_projections; unfold cadd, cmul, csub, copp, ofR;
  cbn [fst snd sadd smul ssub sopp s0 s1 CR]; try ring.

Lemma ofR_add : forall x y, ofR (x + y) = sadd (ofR x) (ofR y). Proof. cxr; unfold cadd; cbn; ring. Qed.
Lemma ofR_mul : forall x y, ofR (x * y) = smul (ofR x) (ofR y). Proof. cxr; unfold cmul; cbn; ring. Qed.

Lemma map_two' : forall (K1 K2 : StarRing) (f : K1 * K1 -> K2 * K2) u v p q,
  map f (two (K := K1) u v p q) = two (K := K2) (f u) (f v) p q.
Proof. intros. unfold two. rewrite map_app, !map_repeat. reflexivity. Qed.

Definition up2 (u : RR * RR) : CR * CR := (ofR (fst u), ofR (snd u)).
Lemma coefs_ofR : forall l a, coefs (K := CR) (map up2 l) a = ofR (coefs (K := RR) l a).
Proof.
  induction l; intro b; cbn [map coefs].
  - destruct b; reflexivity.
  - unfold pmul. destruct b; rewrite !IHl; cbn [up2 fst snd]; rewrite <- !ofR_mul; [|rewrite <- ofR_add; reflexivity].
    change (@s0 CR) with (ofR 0). rewrite <- ofR_add. reflexivity.
Qed.

Lemma cis_add : forall x y, cis (x + y) = smul (cis x) (cis y).
Proof.
  intros. unfold cis. apply injective_projections; cbn [fst snd smul CR]; unfold cmul; cbn [fst snd].
  - apply cos_plus.
  - rewrite sin_plus. ring.
Qed.
Lemma cis_0 : cis 0 = @s1 CR.
Proof. unfold cis. rewrite cos_0, sin_0. reflexivity. Qed.
Lemma cis_nat : forall x n, cis (INR n * x) = spow (K := CR) (cis x) n.
Proof.
  induction n; cbn [spow].
  - rewrite Rmult_0_l. apply cis_0.
  - rewrite S_INR, <- IHn, <- cis_add. f_equal. ring.
Qed.

Definition ci : CR := (0, 1).
Lemma cis_pi2 : cis (PI / 2) = ci.
Proof. unfold cis, ci. rewrite cos_PI2, sin_PI2. reflexivity. Qed.

Lemma fold_csum : forall A (f : A -> CR) l r,
  fold_left (fun r x => cadd r (f x)) l r = sadd (s := CR) r (fold_right (fun x s => sadd (s := CR) (f x) s) (@s0 CR) l).
Proof.
  induction l; intros; cbn [fold_left fold_right].
  - destruct r. cbn. unfold cadd. cbn. f_equal; ring.
  - rewrite IHl. cbn. unfold cadd. cbn. f_equal; ring.
Qed.

Section K.
Context {K : StarRing}.
Add Ring Kr2 : (s_ring K).
Local Open Scope star_scope.
Lemma fold_seq : forall n (f : nat -> K), fold_right (fun x s => f x + s) 0 (seq 0 n) = bsum n f.
Proof.
  intros n f. assert (G : forall k x, fold_right (fun i s => f i + s) x (seq 0 k) = bsum k f + x).
  { induction k; intros; [cbn; ring|]. rewrite seq_S, fold_right_app. cbn [fold_right Nat.add]. rewrite IHk. cbn. ring. }
  rewrite G. ring.
Qed.
Lemma bsum_rev : forall n (f : nat -> K), bsum (S n) (fun i => f (n - i)%nat) = bsum (S n) f.
Proof.
  induction n; intro f.
  - reflexivity.
  - change (bsum (S (S n)) f) with (bsum (S n) f + f (S n)). rewrite <- (IHn f).
    change (S (S n)) with (1 + S n)%nat at 1. rewrite bsum_app. cbn [bsum Nat.add Nat.sub]. ring.
Qed.
Lemma coefs_scale_l : forall (c : K) u v p q a, coefs (two (pscale c u) v p q) a = spow c p * coefs (two u v p q) a.
Proof.
  intros c u v p q. induction p; intro a.
  - cbn [spow]. unfold two. cbn [repeat app]. ring.
  - rewrite two_l, two_l, (@pmul_ext K (pscale c u) _ _ IHp a). cbn [spow]. unfold pmul, pscale. cbn [fst snd]. destruct a; ring.
Qed.
Lemma coefs_swap : forall (u v : K * K) p q a, coefs (two u v p q) a = coefs (two v u q p) a.
Proof. intros. apply coefs_perm. apply Permutation_app_comm. Qed.
End K.

(** cos(beta/2) - sin(beta/2) y and sin(beta/2) + cos(beta/2) y *)
Definition down (beta : R) : RR * RR := (cos (beta / 2), - sin (beta / 2)).
Definition upf (beta : R) : RR * RR := (sin (beta / 2), cos (beta / 2)).

(** The d-matrix in terms of coefficients of polynomials. *)
Definition dpoly (n a b : nat) (beta : R) : R := w n a / w n b * coefs (K := RR) (two (down beta) (upf beta) (n - b) b) a.

Definition cf1 (beta : R) : CR * CR := ((0, sin (beta / 2)), ofR (- cos (beta / 2))).
Definition cf2 (beta : R) : CR * CR := (ofR (cos (beta / 2)), (0, - sin (beta / 2))).

Lemma mq_rev : forall n b, (b <= n)%nat -> (- mq n b)%Z = mq n (n - b).
Proof. intros. unfold mq. lia. Qed.
Lemma w_rev : forall n b, (b <= n)%nat -> w n (n - b) = w n b.
Proof. intros. unfold w. replace (n - (n - b))%nat with b by lia. f_equal. ring. Qed.

Lemma z_forms : forall beta, let h := cis (- beta / 2) in let z := cis (- beta) in
  subst (K := CR) (up2 lm) (up2 lp) (ptwist (K := CR) z (up2 lm)) =
    pscale (K := CR) (smul (ofR 2) h) (cf1 beta) /\
  subst (K := CR) (up2 lm) (up2 lp) (ptwist (K := CR) z (up2 lp)) =
    pscale (K := CR) (smul (ofR 2) h) (cf2 beta).
Proof.
  intros beta h z. unfold h, z. 
  assert (E1 : cos (- beta) = cos (beta / 2) * cos (beta / 2) - sin (beta / 2) * sin (beta / 2)).
  { rewrite cos_neg, <- cos_plus. f_equal. field. }
  assert (E2 : sin (- beta) = - (2 * sin (beta / 2) * cos (beta / 2))).
  { rewrite sin_neg, <- sin_2a. do 2 f_equal. field. }
  assert (E3 : cis (- beta / 2) = (cos (beta / 2), - sin (beta / 2))).
  { unfold cis. replace (- beta / 2) with (- (beta / 2)) by field. rewrite cos_neg, sin_neg. reflexivity. }
  rewrite E3. unfold cis. rewrite E1, E2.
  pose proof (sin2_cos2 (beta / 2)) as P. unfold Rsqr in P.
  unfold cf1, cf2. set (s := sin (beta / 2)) in *. set (c := cos (beta / 2)) in *. clearbody s c.
  unfold subst, pscale, ptwist, up2, lm, lp, ofR. cbn [fst snd smul sadd CR RR]. unfold cmul, cadd. cbn [fst snd].
  split; repeat apply injective_projections; cbn [fst snd]; nra || (ring_simplify; nra).
Qed.

Lemma i_pow2 : forall k, smul (spow (K := CR) ci k) (spow (K := CR) (copp ci) k) = @s1 CR.
Proof.
  intro k. rewrite <- spow_mul. replace (smul ci (copp ci)) with (@s1 CR). apply spow_1.
  unfold ci, copp. cbn. unfold cmul. cbn. f_equal; ring.
Qed.
Lemma spow_ofR : forall x k, spow (K := CR) (ofR x) k = ofR (x ^ k).
Proof. induction k; cbn [spow pow]; [reflexivity|]. rewrite IHk, <- ofR_mul. reflexivity. Qed.
Lemma ci_sq : forall k, spow (K := CR) ci (2 * k) = ofR ((-1) ^ k).
Proof.
  intro k. replace (2 * k)%nat with (k + k)%nat by lia. rewrite spow_add, <- spow_mul.
  replace (smul ci ci) with (ofR (-1)). apply spow_ofR.
  unfold ci, ofR. cbn. unfold cmul. cbn. f_equal; ring.
Qed.
Lemma m1_parity : forall k, (-1) ^ k * (-1) ^ k = 1.
Proof. intro. rewrite <- Rpow_mult_distr. replace (-1 * -1) with 1 by ring. apply pow1. Qed.

Add Ring CRr : (s_ring CR).
Ltac cring := match goal with |- @eq _ ?x ?y => change (@eq (car CR) x y) end; ring.

(** The sum of evalWignerd without its phase: i^(a+b) times the coefficient. *)
Lemma phase_poly : forall n a b beta, (b <= n)%nat ->
  coefs (K := CR) (two (cf1 beta) (cf2 beta) b (n - b)) a =
  smul (spow (K := CR) ci (a + b)) (ofR (coefs (K := RR) (two (down beta) (upf beta) (n - b) b) a)).
Proof.
  intros n a b beta Hb. set (s := sin (beta / 2)). set (c := cos (beta / 2)).
  set (X := coefs _ a).
  assert (T : smul (spow (K := CR) (copp ci) a) X = smul (spow (K := CR) ci b) (ofR (coefs (K := RR) (two (down beta) (upf beta) (n - b) b) a))).
  { unfold X. rewrite <- coefs_twist, map_two', <- coefs_ofR, map_two', (@coefs_swap CR _ _ (n - b) b), <- coefs_scale_l.
    apply (f_equal (fun l => coefs (K := CR) l a)). f_equal.
    - unfold cf1, ptwist, pscale, up2, upf, ofR, ci, copp. fold s c. cbn [fst snd smul CR]. unfold cmul. cbn [fst snd].
      repeat apply injective_projections; cbn [fst snd]; ring.
    - unfold cf2, ptwist, up2, down, ofR, ci, copp. fold s c. cbn [fst snd smul CR]. unfold cmul. cbn [fst snd].
      repeat apply injective_projections; cbn [fst snd]; ring. }
  replace X with (smul (spow (K := CR) ci a) (smul (spow (K := CR) (copp ci) a) X)).
  - rewrite T, spow_add. ring.
  - transitivity (smul (smul (spow (K := CR) ci a) (spow (K := CR) (copp ci) a)) X); [ring|]. rewrite i_pow2. ring.
Qed.

Theorem evalWignerd_closed : forall n a b beta, (a <= n)%nat -> (b <= n)%nat ->
  evalWignerd (Z.of_nat n) (mq n a) (mq n b) beta = dpoly n a b beta.
Proof.
  intros n a b beta Ha Hb. unfold evalWignerd, mdown. rewrite fold_csum, Nat2Z.id.
  rewrite (mq_rev Hb).
  set (g := fun c : nat => smul (s := CR) (smul (s := CR) (ofR (w n a / w n b / 2 ^ n)) (cis (INR n * (beta / 2))))
     (smul (s := CR) (coefs (K := CR) (two (up2 lm) (up2 lp) (n - c) c) a)
        (coefs (K := CR) (map (ptwist (K := CR) (cis (- beta))) (two (up2 lm) (up2 lp) b (n - b))) c))).
  assert (S : fold_right (fun x s => sadd (s := CR) (cmul (cmul (ofR (piHalf (Z.of_nat n) (mq n a) x)) (cis (- (IZR x / 2) * beta)))
       (ofR (piHalf (Z.of_nat n) x (mq n (n - b))))) s) (@s0 CR) (map (fun i => (Z.of_nat n - 2 * Z.of_nat i)%Z) (seq 0 (S n))) = bsum (K := CR) (S n) g).
  { transitivity (fold_right (fun i s => sadd (s := CR) (g (n - i)%nat) s) (@s0 CR) (seq 0 (S n))).
    2:{ rewrite (@fold_seq CR). apply (@bsum_rev CR). }
    assert (H : forall i, In i (seq 0 (S n)) -> (i <= n)%nat) by (intros i Hi; apply in_seq in Hi; lia).
    revert H. generalize (seq 0 (S n)). induction l as [|i l IH]; intro H; cbn [map fold_right]; auto.
    rewrite IH by auto with datatypes. f_equal. assert (Hi : (i <= n)%nat) by auto with datatypes. clear IH H.
    replace (Z.of_nat n - 2 * Z.of_nat i)%Z with (mq n (n - i)) by (unfold mq; lia).
    set (c := (n - i)%nat). assert (Hc : (c <= n)%nat) by lia.
    rewrite !piHalf_closed by lia. rewrite w_rev by auto. replace (n - (n - b))%nat with b by lia.
    unfold g. rewrite coefs_twist, <- map_two', <- map_two', !coefs_ofR.
    replace (cis (- (IZR (mq n c) / 2) * beta)) with (smul (s := CR) (cis (INR n * (beta / 2))) (spow (K := CR) (cis (- beta)) c)).
    2:{ rewrite <- cis_nat, <- cis_add. f_equal. unfold mq. rewrite minus_IZR, mult_IZR, <- !INR_IZR_INZ. field. }
    set (X := coefs _ a). set (Y := coefs _ c). set (p := spow _ _). set (q := cis _). change cmul with (@smul CR).
    replace (w n a / w n c / sqrt 2 ^ n * X) with (w n a / w n c * / sqrt 2 ^ n * X) by reflexivity.
    replace (w n a / w n b / 2 ^ n) with ((w n a / w n c * / sqrt 2 ^ n) * (w n c / w n b / sqrt 2 ^ n)).
    2:{ pose proof (w_pos n c). pose proof (w_pos n b). assert (0 < sqrt 2 ^ n) by (apply pow_lt, sqrt_lt_R0; lra).
        replace (2 ^ n) with (sqrt 2 ^ n * sqrt 2 ^ n). field; repeat split; lra.
        rewrite <- Rpow_mult_distr, sqrt_sqrt by lra. reflexivity. }
    rewrite !ofR_mul. cring. }
  rewrite S. clear S. unfold g. rewrite <- (@bsum_mul_l CR).
  assert (L : length (map (ptwist (K := CR) (cis (- beta))) (two (up2 lm) (up2 lp) b (n - b))) = n)
    by (rewrite map_length, two_length; lia).
  pose proof (@substitution CR (up2 lm) (up2 lp) (map (ptwist (K := CR) (cis (- beta))) (two (up2 lm) (up2 lp) b (n - b))) a) as Q.
  rewrite L in Q. rewrite Q. clear Q L g.
  rewrite !map_two'. destruct (z_forms beta) as [F1 F2]. rewrite F1, F2, <- map_two', coefs_scale, two_length, phase_poly by auto.
  replace (b + (n - b))%nat with n by lia.
  rewrite spow_mul, spow_ofR, <- cis_nat.
  replace (PI / 2 * (IZR (2 * Z.of_nat n - mq n a - mq n b) / 2)) with (INR (2 * n - (a + b)) * (PI / 2)).
  2:{ rewrite INR_IZR_INZ. unfold mq. replace (Z.of_nat (2 * n - (a + b))) with (2 * Z.of_nat n - (Z.of_nat a + Z.of_nat b))%Z by lia.
      rewrite !minus_IZR, !plus_IZR, !mult_IZR. field. }
  rewrite (cis_nat (PI / 2)), cis_pi2.
  replace (powerRZ (-1) (mq n a)) with ((-1) ^ n).
  2:{ unfold mq. replace (2 * Z.of_nat a - Z.of_nat n)%Z with (2 * (Z.of_nat a - Z.of_nat n) + Z.of_nat n)%Z by lia.
      rewrite powerRZ_m1_add, powerRZ_m1_even, powerRZ_m1. ring. }
  set (X := coefs _ a).
  assert (E : smul (s := CR) (spow (K := CR) ci (a + b)) (spow (K := CR) ci (2 * n - (a + b))) = ofR ((-1) ^ n)).
  { rewrite <- spow_add. replace (a + b + (2 * n - (a + b)))%nat with (2 * n)%nat by lia. apply ci_sq. }
  assert (H : smul (s := CR) (cis (INR n * (beta / 2))) (cis (INR n * (- beta / 2))) = @s1 CR).
  { rewrite <- cis_add, <- cis_0. f_equal. field. }
  change cmul with (@smul CR). change (0, 0) with (@s0 CR).
  match goal with |- fst ?x = _ => replace x with (ofR (dpoly n a b beta)) end; [reflexivity|].
  transitivity (smul (s := CR) (smul (s := CR) (ofR (w n a / w n b / 2 ^ n)) (ofR (2 ^ n)))
    (smul (s := CR) (smul (s := CR) (cis (INR n * (beta / 2))) (cis (INR n * (- beta / 2))))
    (smul (s := CR) (ofR X) (smul (s := CR)
      (smul (s := CR) (spow (K := CR) ci (a + b)) (spow (K := CR) ci (2 * n - (a + b)))) (ofR ((-1) ^ n)))))); [|cring].
  rewrite E, H, <- !ofR_mul, m1_parity. unfold dpoly. fold X.
  transitivity (smul (s := CR) (ofR (w n a / w n b / 2 ^ n * 2 ^ n)) (ofR (X * 1))); [|cring].
  rewrite <- ofR_mul. f_equal. assert (0 < 2 ^ n) by (apply pow_lt; lra). pose proof (w_pos n b). field. lra.
Qed.
