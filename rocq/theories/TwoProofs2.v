From Verif Require Import Base FieldModel GreenModel GreenSpec GreenProofs TwoModel TwoSpec TwoProofs.
From Coq Require Import ZArith Lia Bool Arith Reals Lra Psatz Nsatz List.
Import ListNotations.
Local Open Scope R_scope.

(** ** Angle *)
Lemma hyp_pos : forall x z, x <> 0 -> 0 < sqrt (x * x + z * z).
Proof. intros. apply sqrt_lt_R0. nra. Qed.

Lemma atan2_spec : forall x z, x <> 0 ->
  sin (atan2 x z) = x / sqrt (x * x + z * z) /\ cos (atan2 x z) = z / sqrt (x * x + z * z).
Proof.
  intros x z X. unfold atan2.
  assert (z <> 0 -> sqrt (1 + (x / z)²) = sqrt (x * x + z * z) / Rabs z) as Q.
  { intros Z. apply Rsqr_inj.
    - apply sqrt_pos.
    - apply Rmult_le_pos; [apply sqrt_pos|]. left. apply Rinv_0_lt_compat. apply Rabs_pos_lt. exact Z.
    - rewrite Rsqr_sqrt by (pose proof (Rle_0_sqr (x / z)); lra).
      rewrite (Rsqr_div' (sqrt (x * x + z * z))). rewrite Rsqr_sqrt by nra.
      rewrite <- Rsqr_abs. unfold Rsqr. field. exact Z. }
  pose proof (hyp_pos x z X) as P.
  destruct (Rltb 0 z) eqn:Z.
  - apply Rltb_true in Z. rewrite sin_atan, cos_atan, Q by lra. rewrite Rabs_right by lra. split; field; lra.
  - apply Rltb_false in Z. destruct (Rltb z 0) eqn:Z'.
    + apply Rltb_true in Z'.
      assert (sin (atan (x / z)) = - x / sqrt (x * x + z * z) /\ cos (atan (x / z)) = - z / sqrt (x * x + z * z)) as [S C].
      { rewrite sin_atan, cos_atan, Q by lra. rewrite Rabs_left by lra. split; field; lra. }
      destruct (Rltb 0 x).
      * rewrite neg_sin, neg_cos, S, C. split; field; lra.
      * replace (atan (x / z) - PI) with (- (PI - atan (x / z))) by ring.
        rewrite sin_neg, cos_neg, sin_PI_x.
        replace (PI - atan (x / z)) with (- (atan (x / z) - PI)) by ring. rewrite cos_neg.
        replace (cos (atan (x / z) - PI)) with (- cos (atan (x / z))).
        2:{ rewrite cos_minus, cos_PI, sin_PI. ring. }
        rewrite S, C. split; field; lra.
    + apply Rltb_false in Z'. assert (z = 0) as -> by lra.
      replace (x * x + 0 * 0) with (x²) by (unfold Rsqr; ring). rewrite sqrt_Rsqr_abs.
      destruct (Rltb 0 x) eqn:X'.
      * apply Rltb_true in X'. rewrite sin_PI2, cos_PI2, Rabs_right by lra. split; field; lra.
      * apply Rltb_false in X'. replace (- PI / 2) with (- (PI / 2)) by field.
        rewrite sin_neg, cos_neg, sin_PI2, cos_PI2, Rabs_left by lra. split; field; lra.
Qed.

(** The untruncated angle terms *)
Definition aterm (s c : R) (q1 q2 : Z) : R :=
  if Z.eqb q1 0 then if Z.eqb q2 0 then 1 - 3 * c ^ 2
                     else if Z.eqb q2 1 then 3 / sqrt 2 * s * c else - 3 / sqrt 2 * s * c
  else if Z.eqb q1 1 then if Z.eqb q2 0 then 3 / sqrt 2 * s * c
                     else if Z.eqb q2 1 then - (3 / 2) * s ^ 2 else -1 + 3 / 2 * s ^ 2
  else if Z.eqb q2 0 then - 3 / sqrt 2 * s * c
       else if Z.eqb q2 1 then -1 + 3 / 2 * s ^ 2 else - (3 / 2) * s ^ 2.

Lemma sq_inv2 : forall u, u * (1 / sqrt 2) * (1 / sqrt 2) = u / 2.
Proof. intros. rewrite Rmult_assoc, s2. lra. Qed.

Lemma dipole_angle : forall kC d s c p, 0 < d -> s * s + c * c = 1 -> lawful p ->
  psel1 p 1 = true -> psel2 p 1 = true ->
  dipole_dipole kC (d * s) 0 (d * c) (dip1 p) (dip2 p)
  = (kC * pM1 p 1%nat * pM2 p 1%nat * aterm s c (pq1 p) (pq2 p) / d ^ 3, 0).
Proof.
  intros kC d s c p D SC (L1 & L2 & L3 & L4) S1 S2.
  apply L3 in S1. apply L4 in S2. change (Z.of_nat 1) with 1%Z in *.
  unfold dipole_dipole. cbv zeta.
  assert (sqrt (d * s * (d * s) + 0 * 0 + d * c * (d * c)) = d) as N.
  { replace (d * s * (d * s) + 0 * 0 + d * c * (d * c)) with (d * d * (s * s + c * c)) by ring.
    rewrite SC, Rmult_1_r. apply sqrt_square. lra. }
  rewrite N. unfold dip1, dip2. set (a := pM1 p 1%nat). set (b := pM2 p 1%nat).
  pose proof s2 as S. set (t := 1 / sqrt 2) in *.
  assert (forall u, u / sqrt 2 = u * t) as T by (intros; unfold t, Rdiv; ring).
  pose proof sqrt2_pos.
  destruct (q_cases _ S1) as [-> | [-> | ->]]; destruct (q_cases _ S2) as [-> | [-> | ->]];
  unfold aterm; cbn [Z.eqb Pos.eqb]; rewrite ?T;
  unfold dot, csum3, cart; cbn [Z.eqb Pos.eqb orb]; fold t;
  unfold rmul, cmul, cadd, csub; apply injective_projections; cbn [fst snd vec3].
  all: unfold Rdiv; assert (/ d ^ 3 = / d ^ 5 * d * d) as E3 by (field; lra); rewrite E3; clear E3.
  all: generalize dependent t; intros t S _.
  all: generalize (/ d ^ 5); intros v; clear N L1 L2 L3 L4 SC D S1 S2.
  all: generalize dependent a; intros a; generalize dependent b; intros b.
  all: try ring.
  all: assert (/ 2 = t * t) as E2 by (rewrite S; lra); rewrite E2;
       assert (2 * (t * t) = 1) as E1 by (rewrite S; lra); clear S E2.
  all: try replace (s ^ 2) with (s * s) by ring; try replace (c ^ 2) with (c * c) by ring.
  all: first [ring | nsatz].
Qed.

Lemma angle_key_term : forall tol a q1 q2, (Z.abs q1 <= 1)%Z -> (Z.abs q2 <= 1)%Z ->
  angle_term tol a (angle_key q1 q2) = trunc tol (aterm (sin a) (cos a) q1 q2).
Proof.
  intros tol a q1 q2 H1 H2.
  destruct (q_cases _ H1) as [-> | [-> | ->]]; destruct (q_cases _ H2) as [-> | [-> | ->]]; reflexivity.
Qed.

Lemma angle_entry_close : forall kC tol x z p, lawful p -> 0 <= tol -> x <> 0 ->
  let d := sqrt (x * x + 0 * 0 + z * z) in
  close (tol * Rabs (kC * pM1 p 1%nat * pM2 p 1%nat) / d ^ 3)
        (angle_entry kC tol (atan2 x z) d p, 0)
        (dipole_dipole kC x 0 z (dip1 p) (dip2 p)).
Proof.
  intros kC tol x z p L T X d. destruct (atan2_spec x z X) as [S C].
  assert (d = sqrt (x * x + z * z)) as D by (unfold d; f_equal; ring).
  rewrite <- D in S, C. assert (0 < d) as P by (rewrite D; apply hyp_pos; exact X).
  set (a := atan2 x z) in *.
  assert (x = d * sin a) as Ex by (rewrite S; field; lra).
  assert (z = d * cos a) as Ez by (rewrite C; field; lra).
  assert (0 < d ^ 3) as P3 by (apply pow_lt; exact P).
  set (K := kC * pM1 p 1%nat * pM2 p 1%nat).
  unfold angle_entry. destruct (psel1 p 1 && psel2 p 1) eqn:Q.
  - apply andb_true_iff in Q. destruct Q as [Q1 Q2].
    replace (dipole_dipole kC x 0 z (dip1 p) (dip2 p))
      with (dipole_dipole kC (d * sin a) 0 (d * cos a) (dip1 p) (dip2 p)) by (rewrite <- Ex, <- Ez; reflexivity).
    rewrite dipole_angle; auto; [|pose proof (sin2_cos2 a) as H; unfold Rsqr in H; exact H].
    pose proof L as (_ & _ & L3 & L4). apply L3 in Q1. apply L4 in Q2.
    rewrite angle_key_term by assumption. fold K.
    set (A := aterm (sin a) (cos a) (pq1 p) (pq2 p)).
    unfold close. cbn [fst snd]. split.
    + replace (K * trunc tol A * (1 / d ^ 3) - K * A / d ^ 3) with ((trunc tol A - A) * K / d ^ 3) by (field; lra).
      unfold Rdiv. rewrite !Rabs_mult. rewrite (Rabs_right (/ d ^ 3)) by (left; apply Rinv_0_lt_compat; exact P3).
      apply Rmult_le_compat_r; [left; apply Rinv_0_lt_compat; exact P3|].
      apply Rmult_le_compat_r; [apply Rabs_pos | apply trunc_close; exact T].
    + rewrite Rminus_0_r, Rabs_R0. apply Rmult_le_pos; [|left; apply Rinv_0_lt_compat; exact P3].
      apply Rmult_le_pos; [exact T | apply Rabs_pos].
  - assert (pM1 p 1%nat * pM2 p 1%nat = 0) as Z.
    { destruct L as (L1 & L2 & _). apply andb_false_iff in Q.
      destruct Q as [Q|Q]; [rewrite (L1 _ Q) | rewrite (L2 _ Q)]; ring. }
    assert (dipole_dipole kC x 0 z (dip1 p) (dip2 p) = (0, 0)) as V.
    { rewrite <- dd_exact_physics.
      2:{ intros (A & _). contradiction. }
      unfold dd_exact, idx2, three. cbn [list_prod app map fold_right fst snd].
      unfold dip1, dip2. rewrite !rmul_cmul, Z. unfold rmul, cadd. apply injective_projections; cbn [fst snd]; ring. }
    rewrite V. unfold close. cbn [fst snd]. rewrite Rminus_0_r, Rabs_R0.
    assert (0 <= tol * Rabs K / d ^ 3).
    { apply Rmult_le_pos; [|left; apply Rinv_0_lt_compat; exact P3].
      apply Rmult_le_pos; [exact T | apply Rabs_pos]. }
    split; assumption.
Qed.

Lemma binom2 : forall k, (0 <= k <= 2)%Z -> binom_coef 2%nat k = if Z.eqb k 1%Z then 2 else 1.
Proof.
  intros k H. assert (k = 0 \/ k = 1 \/ k = 2)%Z as [-> | [-> | ->]] by lia; unfold binom_coef, C; change (Z.to_nat 0) with 0%nat; change (Z.to_nat 1) with 1%nat; change (Z.to_nat 2) with 2%nat; change (Z.to_nat 3) with 3%nat; cbn; field; repeat split; lra.
Qed.
Lemma binom3 : forall k, (0 <= k <= 3)%Z -> binom_coef 3%nat k = if Z.eqb k 1%Z || Z.eqb k 2%Z then 3 else 1.
Proof.
  intros k H. assert (k = 0 \/ k = 1 \/ k = 2 \/ k = 3)%Z as [-> | [-> | [-> | ->]]] by lia; unfold binom_coef, C; change (Z.to_nat 0) with 0%nat; change (Z.to_nat 1) with 1%nat; change (Z.to_nat 2) with 2%nat; change (Z.to_nat 3) with 3%nat; cbn; field; repeat split; lra.
Qed.

Lemma mult3 : forall kC p, lawful p ->
  mult_val kC 3 p = kC * pM1 p 1%nat * pM2 p 1%nat *
    (if Z.eqb (pq1 p) 0 && Z.eqb (pq2 p) 0 then -2 else if Z.eqb (pq1 p + pq2 p) 0 then -1 else 0).
Proof.
  intros kC p (L1 & L2 & L3 & L4). unfold mult_val. cbn [seq map fold_right Nat.sub Nat.add].
  destruct (psel1 p 1 && psel2 p 1) eqn:Q.
  - apply andb_true_iff in Q. destruct Q as [Q1 Q2]. apply L3 in Q1. apply L4 in Q2.
    change (Z.of_nat 1) with 1%Z in *.
    destruct (q_cases _ Q1) as [E1 | [E1 | E1]]; destruct (q_cases _ Q2) as [E2 | [E2 | E2]]; rewrite E1, E2;
    cbn [Z.eqb Z.add Pos.eqb andb Z.pos_sub Pos.add Pos.pred_double Pos.succ Z.succ_double Z.double Z.pred_double]; try lra;
    change (1 + -1)%Z with 0%Z; change (1 - 1)%Z with 0%Z; change (1 - -1)%Z with 2%Z; change (1 + 1)%Z with 2%Z;
    change (1 - 0)%Z with 1%Z; change (1 + 0)%Z with 1%Z;
    rewrite !binom2 by lia; cbn [Z.eqb Pos.eqb].
    + rewrite Rmult_1_l, sqrt_1. ring.
    + rewrite sqrt_square by lra. ring.
    + rewrite Rmult_1_l, sqrt_1. ring.
  - assert (pM1 p 1%nat * pM2 p 1%nat = 0) as Z.
    { apply andb_false_iff in Q. destruct Q as [Q|Q]; [rewrite (L1 _ Q) | rewrite (L2 _ Q)]; ring. }
    rewrite (Rmult_assoc kC), Z. destruct (Z.eqb (pq1 p + pq2 p) 0); ring.
Qed.

Lemma mult_entry3 : forall kC z p, lawful p -> z <> 0 ->
  (mult_entry kC 3 (sqrt (0 * 0 + 0 * 0 + z * z)) p, 0) = dipole_dipole kC 0 0 z (dip1 p) (dip2 p).
Proof.
  intros kC z p L Z. unfold mult_entry. cbn [seq map fold_right Nat.sub]. rewrite mult3 by exact L.
  assert (sqrt (0 * 0 + 0 * 0 + z * z) = Rabs z) as N.
  { replace (0 * 0 + 0 * 0 + z * z) with (z²) by (unfold Rsqr; ring). apply sqrt_Rsqr_abs. }
  assert (0 < Rabs z) as P by (apply Rabs_pos_lt; exact Z).
  set (K := kC * pM1 p 1%nat * pM2 p 1%nat).
  destruct (psel1 p 1 && psel2 p 1) eqn:Q.
  - apply andb_true_iff in Q. destruct Q as [Q1 Q2].
    set (c := z / Rabs z).
    assert (c * c = 1) as C.
    { unfold c. destruct (Rcase_abs z); [rewrite Rabs_left by lra | rewrite Rabs_right by lra]; field; lra. }
    pose proof (dipole_angle kC (Rabs z) 0 c p P ltac:(rewrite C; ring) L Q1 Q2) as D.
    replace (Rabs z * 0) with 0 in D by ring.
    replace (Rabs z * c) with z in D by (unfold c; field; lra).
    rewrite D, N. apply injective_projections; cbn [fst snd]; [|reflexivity].
    fold K. destruct L as (_ & _ & L3 & L4). apply L3 in Q1. apply L4 in Q2.
    assert (c ^ 2 = 1) as C2 by (rewrite <- C; ring).
    destruct (q_cases _ Q1) as [E1 | [E1 | E1]]; destruct (q_cases _ Q2) as [E2 | [E2 | E2]]; rewrite E1, E2;
    unfold aterm; cbn [Z.eqb Z.add Pos.eqb andb Z.pos_sub Pos.add]; rewrite ?C2; field; pose proof sqrt2_pos; repeat split; lra.
  - assert (K = 0) as K0.
    { unfold K. destruct L as (L1 & L2 & _). apply andb_false_iff in Q.
      destruct Q as [Q|Q]; [rewrite (L1 _ Q) | rewrite (L2 _ Q)]; ring. }
    rewrite K0. rewrite <- dd_exact_physics.
    2:{ intros (_ & _ & A). contradiction. }
    unfold dd_exact, idx2, three. cbn [list_prod app map fold_right fst snd].
    assert (forall i j, rmul (- kC) (cmul (dip1 p i) (dip2 p j)) = (0, 0)) as R0.
    { intros. unfold dip1, dip2. rewrite rmul_cmul. unfold rmul. cbn [fst snd].
      replace (- kC * (pM1 p 1%nat * pM2 p 1%nat * fst (cmul (cart i (pq1 p)) (cart j (pq2 p))))) with (- K * fst (cmul (cart i (pq1 p)) (cart j (pq2 p)))) by (unfold K; ring).
      replace (- kC * (pM1 p 1%nat * pM2 p 1%nat * snd (cmul (cart i (pq1 p)) (cart j (pq2 p))))) with (- K * snd (cmul (cart i (pq1 p)) (cart j (pq2 p)))) by (unfold K; ring).
      rewrite K0. apply injective_projections; cbn; ring. }
    rewrite !R0. unfold rmul, cadd. apply injective_projections; cbn [fst snd]; ring.
Qed.
