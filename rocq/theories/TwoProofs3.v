From Verif Require Import Base FieldModel GreenModel GreenSpec GreenProofs TwoModel TwoSpec TwoProofs TwoProofs2.
From Coq Require Import ZArith Lia Bool Arith Reals Lra Psatz Nsatz List.
Import ListNotations.
Local Open Scope R_scope.

Lemma sqrt24_pos : 0 < sqrt 24. Proof. apply sqrt_lt_R0; lra. Qed.
Lemma sqrt30_pos : 0 < sqrt 30. Proof. apply sqrt_lt_R0; lra. Qed.
Lemma sqrt24_sq : sqrt 24 * sqrt 24 = 24. Proof. apply sqrt_sqrt; lra. Qed.
Lemma sqrt30_sq : sqrt 30 * sqrt 30 = 30. Proof. apply sqrt_sqrt; lra. Qed.
Lemma sqrt_int24 : forall n, 0 <= n -> sqrt (n * n / 24) = n / sqrt 24.
Proof. intros. rewrite sqrt_div_alt by lra. rewrite sqrt_square by assumption. reflexivity. Qed.
Lemma sqrt_5_4 : sqrt (5 / 4) = sqrt 30 / sqrt 24.
Proof. replace (5 / 4) with (30 / 24) by lra. apply sqrt_div_alt. lra. Qed.
Lemma sqrt_3_8 : sqrt (3 / 8) = 3 / sqrt 24.
Proof. replace (3 / 8) with (3 * 3 / 24) by lra. apply sqrt_int24; lra. Qed.
Lemma sqrt_3_2 : sqrt (3 / 2) = 6 / sqrt 24.
Proof. replace (3 / 2) with (6 * 6 / 24) by lra. apply sqrt_int24; lra. Qed.
Lemma sqrt_2_3 : sqrt (2 / 3) = 4 / sqrt 24.
Proof. replace (2 / 3) with (4 * 4 / 24) by lra. apply sqrt_int24; lra. Qed.
Lemma sqrt_8_3 : sqrt (8 / 3) = 8 / sqrt 24.
Proof. replace (8 / 3) with (8 * 8 / 24) by lra. apply sqrt_int24; lra. Qed.
Lemma sqrt_10_3 : sqrt (10 / 3) = sqrt 30 / 3.
Proof.
  replace (10 / 3) with (30 / (3 * 3)) by lra. rewrite sqrt_div_alt by lra. rewrite sqrt_square by lra. reflexivity.
Qed.
Lemma sqrt_1_4 : sqrt (1 / 4) = 1 / 2.
Proof. replace (1 / 4) with ((1 / 2) * (1 / 2)) by lra. apply sqrt_square. lra. Qed.

(** Simplified quadrupole table *)
Definition qtab (j k : nat) (q : Z) (m2 m0 : R) : R :=
  let t := / sqrt 24 in
  match j, k with
  | O, O => if Z.eqb (Z.abs q) 2 then m2 * t else if Z.eqb q 0 then - m2 / 6 + m0 / 6 else 0
  | O, S O | S O, O => if Z.eqb (Z.abs q) 2 then m2 * t * (if Z.eqb q 2 then -1 else 1) else 0
  | O, S (S O) | S (S O), O => if Z.eqb (Z.abs q) 1 then m2 * t * (if Z.eqb q 1 then -1 else 1) else 0
  | S O, S O => if Z.eqb (Z.abs q) 2 then - m2 * t else if Z.eqb q 0 then - m2 / 6 + m0 / 6 else 0
  | S O, S (S O) | S (S O), S O => if Z.eqb (Z.abs q) 1 then m2 * t else 0
  | S (S O), S (S O) => if Z.eqb q 0 then m2 / 3 + m0 / 6 else 0
  | _, _ => 0
  end.

Lemma inv24 : forall u, u / sqrt 24 / sqrt 24 = u / 24.
Proof.
  intros. unfold Rdiv. rewrite Rmult_assoc, <- Rinv_mult, sqrt24_sq. reflexivity.
Qed.

Lemma matentry_tab : forall j k q m2 m0, (j < 3)%nat -> (k < 3)%nat ->
  matentry j k q m2 m0 / sqrt 30 = qtab j k q m2 m0.
Proof.
  intros j k q m2 m0 Hj Hk. pose proof sqrt24_pos. pose proof sqrt30_pos.
  assert (forall c, sqrt (c) * 0 = 0) by (intros; ring).
  assert (- sqrt (2 / 3) * m2 * sqrt (5 / 4) + sqrt (10 / 3) * m0 * sqrt (1 / 4) = (- m2 / 6 + m0 / 6) * sqrt 30) as A.
  { rewrite sqrt_2_3, sqrt_5_4, sqrt_10_3, sqrt_1_4.
    replace (- (4 / sqrt 24) * m2 * (sqrt 30 / sqrt 24)) with (- (4 / sqrt 24 / sqrt 24) * m2 * sqrt 30) by (field; lra).
    rewrite inv24. field. }
  assert (sqrt (8 / 3) * m2 * sqrt (5 / 4) + sqrt (10 / 3) * m0 * sqrt (1 / 4) = (m2 / 3 + m0 / 6) * sqrt 30) as B.
  { rewrite sqrt_8_3, sqrt_5_4, sqrt_10_3, sqrt_1_4.
    replace (8 / sqrt 24 * m2 * (sqrt 30 / sqrt 24)) with ((8 / sqrt 24 / sqrt 24) * m2 * sqrt 30) by (field; lra).
    rewrite inv24. field. }
  destruct (idx3 _ Hj) as [-> | [-> | ->]]; destruct (idx3 _ Hk) as [-> | [-> | ->]]; unfold matentry, qtab; cbv zeta;
  repeat match goal with |- context [(?a =? ?b)%Z] => destruct (a =? b)%Z end;
  rewrite ?A, ?B, ?sqrt_5_4; field; lra.
Qed.

(** The table is the decomposition of x_j x_k / 2 into spherical components. *)
Definition qphase (j k : nat) : bool := negb (Nat.eqb j k) && (Nat.eqb j 1 || Nat.eqb k 1).
Definition csum_q (f : Z -> cx) : cx :=
  cadd (f (-2)%Z) (cadd (f (-1)%Z) (cadd (f 0%Z) (cadd (f 1%Z) (f 2%Z)))).

Lemma table_cartesian : forall x y z j k m0, (j < 3)%nat -> (k < 3)%nat ->
  cadd (csum_q (fun q => cmul (phase (qphase j k) (matentry j k q 1 0 / sqrt 30)) (rC2 x y z q)))
       (matentry j k 0 0 m0 / sqrt 30, 0)
  = (vec3 x y z j * vec3 x y z k / 2 - eye j k * (x * x + y * y + z * z - m0) / 6, 0).
Proof.
  intros x y z j k m0 Hj Hk. pose proof sqrt24_pos as P. pose proof sqrt24_sq as S.
  unfold csum_q. rewrite !matentry_tab by assumption.
  unfold rC2. rewrite sqrt_3_8, sqrt_3_2.
  assert (/ sqrt 24 * / sqrt 24 = / 24) as T by (rewrite <- Rinv_mult, S; reflexivity).
  destruct (idx3 _ Hj) as [-> | [-> | ->]]; destruct (idx3 _ Hk) as [-> | [-> | ->]];
  unfold qtab, qphase, phase, eye; cbn [Z.abs Z.eqb Pos.eqb Nat.eqb negb andb orb vec3];
  unfold cmul, cadd; apply injective_projections; cbn [fst snd]; unfold Rdiv;
  generalize dependent (/ sqrt 24); intros t T; try lra;
  first [ field
        | match goal with |- ?l = ?r => 
            assert (24 * (t * t) = 1) as T1 by (rewrite T; lra); clear T S P;
            assert (2 * / 2 = 1) as H2 by lra; assert (6 * / 6 = 1) as H6 by lra;
            assert (/ 6 = 4 * (t * t)) as E6 by lra; assert (/ 2 = 12 * (t * t)) as E2 by lra; assert (/ 3 = 8 * (t * t)) as E3 by lra;
            rewrite ?E6, ?E2, ?E3; clear H2 H6 E6 E2 E3; nsatz end ].
Qed.

Lemma dipole_cartesian : forall x y z i, (i < 3)%nat ->
  cadd (cmul (cart i (-1)%Z) (rC1 x y z (-1)%Z)) (cadd (cmul (cart i 0%Z) (rC1 x y z 0%Z)) (cmul (cart i 1%Z) (rC1 x y z 1%Z)))
  = (vec3 x y z i, 0).
Proof.
  intros x y z i Hi. pose proof sqrt2_pos. pose proof s2 as S.
  destruct (idx3 _ Hi) as [-> | [-> | ->]]; unfold cart, rC1; cbn [Z.eqb Pos.eqb orb vec3];
  unfold cmul, cadd; apply injective_projections; cbn [fst snd]; unfold Rdiv in *; rewrite ?Rmult_1_l in *;
  generalize dependent (/ sqrt 2); intros t T; try lra;
  assert (2 * (t * t) = 1) as T1 by (rewrite T; lra); clear T; nsatz.
Qed.

Definition quad1 (p : pdata) (j k : nat) : cx := phase (qphase j k) (qtab j k (pq1 p) (pM1 p 2%nat) (pM1 p 0%nat)).
Definition quad2 (p : pdata) (j k : nat) : cx := phase (qphase j k) (qtab j k (pq2 p) (pM2 p 2%nat) (pM2 p 0%nat)).

Lemma kept_trunc : forall tol v, kept tol v -> trunc tol v = v.
Proof.
  intros tol v [->|H]; unfold trunc.
  - destruct (Rltb tol (Rabs 0)); reflexivity.
  - apply Rltb_true in H. rewrite H. reflexivity.
Qed.
Lemma kept_zero : forall v, kept 0 v.
Proof. intros v. destruct (Req_dec v 0); [left; assumption | right; apply Rabs_pos_lt; assumption]. Qed.
Lemma no_cutoff_0 : forall x y z p, no_cutoff 0 x y z p.
Proof. intros x y z p i j k _ _ _. repeat split; intros; apply kept_zero. Qed.

Lemma qtab_zero : forall j k q, qtab j k q 0 0 = 0.
Proof.
  intros. unfold qtab. destruct j as [|[|[|j]]]; destruct k as [|[|[|k]]]; cbv zeta; auto;
  repeat match goal with |- context [(?a =? ?b)%Z] => destruct (a =? b)%Z end; lra.
Qed.

Lemma dq_coef : forall kC tol x y z p i j k, lawful p -> no_cutoff tol x y z p ->
  (i < 3)%nat -> (j < 3)%nat -> (k < 3)%nat ->
  coef (dq_val kC tol p i j k) = rmul kC (cmul (dip1 p i) (quad2 p j k)).
Proof.
  intros kC tol x y z p i j k (L1 & L2 & L3 & L4) N Hi Hj Hk. unfold dq_val.
  destruct ((psel1 p 1 && psel2 p 2) || (psel1 p 1 && psel2 p 0)) eqn:S.
  - assert (psel1 p 1 = true) as S1.
    { destruct (psel1 p 1); auto. }
    apply L3 in S1. unfold dip1. rewrite (vecentry_cart _ _ _ Hi S1).
    destruct (N i j k Hi Hj Hk) as (_ & _ & _ & K & _).
    destruct (vecentry i (pq1 p) (pM1 p 1)) as [v|] eqn:V.
    + specialize (K v eq_refl). cbv zeta.
      unfold quad2. rewrite <- matentry_tab by assumption.
      set (m := matentry j k (pq2 p) (pM2 p 2) (pM2 p 0)) in *.
      pose proof sqrt30_pos as P30.
      destruct (Rltb tol (Rabs (v * m))) eqn:D.
      * unfold qphase. destruct (idx3 _ Hi) as [-> | [-> | ->]]; destruct (idx3 _ Hj) as [-> | [-> | ->]];
        destruct (idx3 _ Hk) as [-> | [-> | ->]]; cbn -[sqrt];
        unfold rmul, cmul; apply injective_projections; cbn -[sqrt]; field; lra.
      * assert (v * m = 0) as Z.
        { destruct K as [K|K]; [exact K|]. apply Rltb_true in K. congruence. }
        cbn [coef]. unfold rmul, cmul, phase.
        assert (v * (m / sqrt 30) = 0) as Z' by (unfold Rdiv; rewrite <- Rmult_assoc, Z; ring).
        destruct (Nat.eqb i 1), (qphase j k); apply injective_projections; cbn [fst snd];
        rewrite ?Z', ?Rmult_0_l, ?Rmult_0_r; try ring; 
        (transitivity (kC * - (v * (m / sqrt 30))); [rewrite Z'; ring | ring]).
    + unfold rmul, cmul, coef; apply injective_projections; cbn [fst snd]; ring.
  - assert (pM1 p 1%nat = 0 \/ (pM2 p 2%nat = 0 /\ pM2 p 0%nat = 0)) as Z.
    { destruct (psel1 p 1) eqn:E1; [right | left; apply L1; exact E1].
      cbn in S. apply orb_false_iff in S. destruct S as [Sa Sb]. split; apply L2; assumption. }
    unfold dip1, quad2. destruct Z as [Z|[Z Z']].
    + rewrite Z. unfold rmul, cmul, coef; apply injective_projections; cbn [fst snd]; ring.
    + rewrite Z, Z', qtab_zero. unfold phase. destruct (qphase j k);
      unfold rmul, cmul, coef; apply injective_projections; cbn [fst snd]; ring.
Qed.

Lemma qd_coef : forall kC tol x y z p i j k, lawful p -> no_cutoff tol x y z p ->
  (i < 3)%nat -> (j < 3)%nat -> (k < 3)%nat ->
  coef (qd_val kC tol p i j k) = rmul kC (cmul (quad1 p i j) (dip2 p k)).
Proof.
  intros kC tol x y z p i j k (L1 & L2 & L3 & L4) N Hi Hj Hk. unfold qd_val.
  destruct ((psel1 p 2 && psel2 p 1) || (psel1 p 0 && psel2 p 1)) eqn:S.
  - assert (psel2 p 1 = true) as S1.
    { destruct (psel2 p 1); auto. rewrite !andb_false_r in S. discriminate. }
    apply L4 in S1. unfold dip2. rewrite (vecentry_cart _ _ _ Hk S1).
    destruct (N k i j Hk Hi Hj) as (_ & _ & _ & _ & K).
    destruct (vecentry k (pq2 p) (pM2 p 1)) as [v|] eqn:V.
    + specialize (K v eq_refl). cbv zeta.
      unfold quad1. rewrite <- matentry_tab by assumption.
      set (m := matentry i j (pq1 p) (pM1 p 2) (pM1 p 0)) in *.
      pose proof sqrt30_pos as P30.
      destruct (Rltb tol (Rabs (v * m))) eqn:D.
      * unfold qphase. destruct (idx3 _ Hi) as [-> | [-> | ->]]; destruct (idx3 _ Hj) as [-> | [-> | ->]];
        destruct (idx3 _ Hk) as [-> | [-> | ->]]; cbn -[sqrt];
        unfold rmul, cmul; apply injective_projections; cbn -[sqrt]; field; lra.
      * assert (v * m = 0) as Z.
        { destruct K as [K|K]; [exact K|]. apply Rltb_true in K. congruence. }
        cbn [coef]. unfold rmul, cmul, phase.
        assert (v * (m / sqrt 30) = 0) as Z' by (unfold Rdiv; rewrite <- Rmult_assoc, Z; ring).
        assert (m / sqrt 30 * v = 0) as Z'' by (rewrite Rmult_comm; exact Z').
        destruct (Nat.eqb k 1), (qphase i j); apply injective_projections; cbn [fst snd];
        rewrite ?Z', ?Z'', ?Rmult_0_l, ?Rmult_0_r; ring.
    + unfold rmul, cmul, coef; apply injective_projections; cbn [fst snd]; ring.
  - assert (pM2 p 1%nat = 0 \/ (pM1 p 2%nat = 0 /\ pM1 p 0%nat = 0)) as Z.
    { destruct (psel2 p 1) eqn:E1; [right | left; apply L2; exact E1].
      rewrite !andb_true_r in S. apply orb_false_iff in S. destruct S as [Sa Sb]. split; apply L1; assumption. }
    unfold dip2, quad1. destruct Z as [Z|[Z Z']].
    + rewrite Z. unfold rmul, cmul, coef; apply injective_projections; cbn [fst snd]; ring.
    + rewrite Z, Z', qtab_zero. unfold phase. destruct (qphase i j);
      unfold rmul, cmul, coef; apply injective_projections; cbn [fst snd]; ring.
Qed.

Lemma in_idx3s : forall t, In t idx3s -> (fst (fst t) < 3)%nat /\ (snd (fst t) < 3)%nat /\ (snd t < 3)%nat.
Proof.
  intros [[i j] k] H. apply in_prod_iff in H. destruct H as [H K]. apply in_prod_iff in H. cbn in *. lia.
Qed.

Definition csum27 (f : nat -> nat -> nat -> cx) : cx :=
  fold_right cadd (0, 0) (map (fun t => f (fst (fst t)) (snd (fst t)) (snd t)) idx3s).

Lemma dq_entry_exact : forall kC tol x y z p, lawful p -> no_cutoff tol x y z p ->
  dq_entry kC tol false (DQvac x y z) p =
  Ok (csum27 (fun i j k => rmul (DQvac x y z i j k) (rmul kC (cmul (dip1 p i) (quad2 p j k))))).
Proof.
  intros kC tol x y z p L N. unfold dq_entry, csum27. rewrite <- sumres_ok. f_equal. apply map_ext_in.
  intros [[i j] k] I. apply in_idx3s in I. cbn [fst snd] in *. destruct I as (Hi & Hj & Hk).
  rewrite gterm_complex, (dq_coef kC tol x y z p i j k L N Hi Hj Hk).
  destruct (N i j k Hi Hj Hk) as (_ & K & _). rewrite (kept_trunc _ _ K). reflexivity.
Qed.
Lemma qd_entry_exact : forall kC tol x y z p, lawful p -> no_cutoff tol x y z p ->
  qd_entry kC tol false (QDvac x y z) p =
  Ok (csum27 (fun i j k => rmul (QDvac x y z i j k) (rmul kC (cmul (quad1 p i j) (dip2 p k))))).
Proof.
  intros kC tol x y z p L N. unfold qd_entry, csum27. rewrite <- sumres_ok. f_equal. apply map_ext_in.
  intros [[i j] k] I. apply in_idx3s in I. cbn [fst snd] in *. destruct I as (Hi & Hj & Hk).
  rewrite gterm_complex, (qd_coef kC tol x y z p i j k L N Hi Hj Hk).
  destruct (N i j k Hi Hj Hk) as (_ & _ & K & _). rewrite (kept_trunc _ _ K). reflexivity.
Qed.
Lemma dd_entry_exact : forall kC tol x y z p, lawful p -> no_cutoff tol x y z p ->
  dd_entry kC tol false (DDvac x y z) p = Ok (dd_exact kC (DDvac x y z) p).
Proof.
  intros kC tol x y z p L N. rewrite dd_entry_sum. unfold dd_exact. f_equal. f_equal. apply map_ext_in.
  intros [i j] I. apply in_idx2 in I. cbn [fst snd] in *. destruct I as [Hi Hj].
  rewrite (dd_coef kC p i j L Hi Hj). destruct (N i j 0%nat Hi Hj ltac:(lia)) as (K & _).
  rewrite (kept_trunc _ _ K). reflexivity.
Qed.

(** ** On the z axis *)
Lemma norm_axis : forall z, norm3 0 0 z = Rabs z.
Proof.
  intros. unfold norm3. replace (0 * 0 + 0 * 0 + z * z) with (z²) by (unfold Rsqr; ring). apply sqrt_Rsqr_abs.
Qed.

(** 0 unless the indices are (z,z,z) or one z and twice x or y *)
Definition axis (i j k : nat) : R :=
  match i, j, k with
  | 2, 2, 2 => 6%R
  | 0, 0, 2 | 0, 2, 0 | 2, 0, 0 | 1, 1, 2 | 1, 2, 1 | 2, 1, 1 => (-3)%R
  | _, _, _ => 0%R
  end%nat.

Lemma DQ_axis : forall z i j k, z <> 0 -> (i < 3)%nat -> (j < 3)%nat -> (k < 3)%nat ->
  DQvac 0 0 z i j k = axis i j k * (z / Rabs z ^ 5).
Proof.
  intros z i j k Z Hi Hj Hk. unfold DQvac. cbv zeta. rewrite norm_axis.
  assert (0 < Rabs z) as P by (apply Rabs_pos_lt; exact Z).
  assert (Rabs z * Rabs z = z * z) as S by (rewrite <- Rabs_mult; apply Rabs_right; nra).
  destruct (idx3 _ Hi) as [-> | [-> | ->]]; destruct (idx3 _ Hj) as [-> | [-> | ->]];
  destruct (idx3 _ Hk) as [-> | [-> | ->]]; unfold eye, axis; cbn [Nat.eqb vec3]; try (field; lra).
  transitivity (-9 * z / Rabs z ^ 5 + 15 * z * (z * z) / Rabs z ^ 7); [field; lra|].
  rewrite <- S. field. lra.
Qed.

Definition axis_sum (f : nat -> nat -> nat -> cx) : cx :=
  csub (rmul 6 (f 2 2 2)%nat)
       (rmul 3 (cadd (cadd (cadd (f 0 0 2)%nat (f 0 2 0)%nat) (cadd (f 2 0 0)%nat (f 1 1 2)%nat))
                     (cadd (f 1 2 1)%nat (f 2 1 1)%nat))).

Lemma fst_sum : forall l, fst (fold_right cadd (0, 0) l) = fold_right Rplus 0 (map fst l).
Proof. induction l; cbn; [reflexivity|]. rewrite IHl. reflexivity. Qed.
Lemma snd_sum : forall l, snd (fold_right cadd (0, 0) l) = fold_right Rplus 0 (map snd l).
Proof. induction l; cbn; [reflexivity|]. rewrite IHl. reflexivity. Qed.

Lemma csum27_axis : forall g f, csum27 (fun i j k => rmul (axis i j k * g) (f i j k)) = rmul g (axis_sum f).
Proof.
  intros. unfold csum27, axis_sum. apply injective_projections; rewrite ?fst_sum, ?snd_sum, ?map_map;
  unfold idx3s, three; cbn [list_prod app map fold_right];
  unfold rmul, cadd, csub, axis; cbn [fst snd]; ring.
Qed.

Lemma csum27_ext : forall f g, (forall i j k, (i < 3)%nat -> (j < 3)%nat -> (k < 3)%nat -> f i j k = g i j k) ->
  csum27 f = csum27 g.
Proof.
  intros f g H. unfold csum27. f_equal. apply map_ext_in. intros t I. apply in_idx3s in I.
  apply H; tauto.
Qed.

Definition weight4 (q1 q2 : Z) : R :=
  if Z.eqb q1 0 && Z.eqb q2 0 then 3 else if Z.eqb (q1 + q2) 0 then sqrt 3 else 0.

Lemma sqrt48 : / sqrt 2 * / sqrt 24 = sqrt 3 / 12.
Proof.
  pose proof sqrt2_pos. pose proof sqrt24_pos. pose proof (sqrt_lt_R0 3 ltac:(lra)).
  assert (sqrt 2 * sqrt 24 = 4 * sqrt 3) as E.
  { rewrite <- sqrt_mult_alt by lra. replace (2 * 24) with (4 * 4 * 3) by lra.
    rewrite sqrt_mult_alt by lra. rewrite sqrt_square by lra. reflexivity. }
  assert (sqrt 3 * sqrt 3 = 3) as E3 by (apply sqrt_sqrt; lra).
  rewrite <- Rinv_mult, E. apply Rmult_eq_reg_r with (4 * sqrt 3); [|lra].
  rewrite Rinv_l by lra. transitivity (sqrt 3 * sqrt 3 / 3); [rewrite E3; lra | field].
Qed.

Lemma q2_cases : forall q : Z, (Z.abs q <= 2)%Z -> (q = -2 \/ q = -1 \/ q = 0 \/ q = 1 \/ q = 2)%Z.
Proof. intros. lia. Qed.

Lemma axis_dq : forall p, (Z.abs (pq1 p) <= 1)%Z -> (Z.abs (pq2 p) <= 2)%Z ->
  axis_sum (fun i j k => cmul (dip1 p i) (quad2 p j k))
  = (pM1 p 1%nat * pM2 p 2%nat * weight4 (pq1 p) (pq2 p), 0).
Proof.
  intros p H1 H2. unfold axis_sum, dip1, quad2. set (a := pM1 p 1%nat). set (b := pM2 p 2%nat). set (c := pM2 p 0%nat).
  pose proof sqrt48 as S.
  destruct (q_cases _ H1) as [-> | [-> | ->]]; destruct (q2_cases _ H2) as [-> | [-> | [-> | [-> | ->]]]];
  unfold cart, qtab, qphase, weight4, phase;
  cbn [Z.abs Z.eqb Pos.eqb Nat.eqb negb andb orb Z.add Z.pos_sub Pos.add Pos.pred_double];
  unfold rmul, cmul, cadd, csub; apply injective_projections; cbn [fst snd]; unfold Rdiv in *; rewrite ?Rmult_1_l;
  assert (sqrt 3 = 12 * (/ sqrt 2 * / sqrt 24)) as E by (rewrite S; lra); rewrite ?E;
  try (field; pose proof sqrt2_pos; pose proof sqrt24_pos; lra); try ring.
Qed.
Lemma axis_qd : forall p, (Z.abs (pq1 p) <= 2)%Z -> (Z.abs (pq2 p) <= 1)%Z ->
  axis_sum (fun i j k => cmul (quad1 p i j) (dip2 p k))
  = (pM1 p 2%nat * pM2 p 1%nat * weight4 (pq1 p) (pq2 p), 0).
Proof.
  intros p H1 H2. unfold axis_sum, dip2, quad1. set (a := pM1 p 2%nat). set (b := pM2 p 1%nat). set (c := pM1 p 0%nat).
  pose proof sqrt48 as S.
  destruct (q_cases _ H2) as [-> | [-> | ->]]; destruct (q2_cases _ H1) as [-> | [-> | [-> | [-> | ->]]]];
  unfold cart, qtab, qphase, weight4, phase;
  cbn [Z.abs Z.eqb Pos.eqb Nat.eqb negb andb orb Z.add Z.pos_sub Pos.add Pos.pred_double];
  unfold rmul, cmul, cadd, csub; apply injective_projections; cbn [fst snd]; unfold Rdiv in *; rewrite ?Rmult_1_l;
  assert (sqrt 3 = 12 * (/ sqrt 2 * / sqrt 24)) as E by (rewrite S; lra); rewrite ?E;
  try (field; pose proof sqrt2_pos; pose proof sqrt24_pos; lra); try ring.
Qed.

Lemma mult4 : forall kC p, lawful p ->
  mult_val kC 4 p = kC * weight4 (pq1 p) (pq2 p) *
    (pM1 p 1%nat * pM2 p 2%nat - pM1 p 2%nat * pM2 p 1%nat).
Proof.
  intros kC p (L1 & L2 & L3 & L4). unfold mult_val.
  cbn [seq map fold_right Nat.sub Nat.add].
  assert (forall k1 k2 m1 m2 n, (psel1 p k1 = true -> (Z.abs (pq1 p) <= Z.of_nat k1)%Z) ->
    (psel2 p k2 = true -> (Z.abs (pq2 p) <= Z.of_nat k2)%Z) ->
    (k1 = 1 /\ k2 = 2 \/ k1 = 2 /\ k2 = 1)%nat ->
    (psel1 p k1 = false -> m1 = 0) -> (psel2 p k2 = false -> m2 = 0) -> (pq1 p + pq2 p = 0)%Z ->
    (if psel1 p k1 && psel2 p k2 then
       kC * n * sqrt (binom_coef 3 (Z.of_nat k1 + pq1 p) * binom_coef 3 (Z.of_nat k2 - pq2 p)) * m1 * m2 else 0)
    = kC * n * weight4 (pq1 p) (pq2 p) * m1 * m2) as Q.
  { intros k1 k2 m1 m2 n A1 A2 K B1 B2 Z.
    destruct (psel1 p k1) eqn:S1; cbn [andb].
    2:{ rewrite B1 by reflexivity. ring. }
    destruct (psel2 p k2) eqn:S2.
    2:{ rewrite B2 by reflexivity. ring. }
    specialize (A1 eq_refl). specialize (A2 eq_refl).
    assert (Z.abs (pq1 p) <= 1)%Z as Q1 by lia.
    assert (sqrt (1 * 3) = sqrt 3) as R1 by (f_equal; ring). assert (sqrt (3 * 1) = sqrt 3) as R2 by (f_equal; ring).
    assert (sqrt (3 * 3) = 3) as R3 by (apply sqrt_square; lra).
    unfold weight4.
    destruct K as [[-> ->]|[-> ->]]; destruct (q_cases _ Q1) as [E1 | [E1 | E1]]; 
    (assert (pq2 p = - pq1 p)%Z as E2 by lia; rewrite E2, E1; 
     rewrite !binom3 by lia; cbn; rewrite ?R1, ?R2, ?R3; ring). }
  destruct (Z.eqb (pq1 p + pq2 p) 0) eqn:Z.
  - apply Z.eqb_eq in Z.
    change (Z.of_nat 1) with (Z.of_nat 1).
    rewrite (Q 1%nat 2%nat (pM1 p 1) (pM2 p 2) ((-1) ^ 2)); auto.
    rewrite (Q 2%nat 1%nat (pM1 p 2) (pM2 p 1) ((-1) ^ 1)); auto. ring.
  - unfold weight4. rewrite Z.
    destruct (Z.eqb (pq1 p) 0 && Z.eqb (pq2 p) 0) eqn:Y; [|ring].
    apply andb_true_iff in Y. destruct Y as [Y1 Y2]. apply Z.eqb_eq in Y1, Y2. rewrite Y1, Y2 in Z. discriminate.
Qed.

Lemma axis_dq_lawful : forall p, lawful p ->
  axis_sum (fun i j k => cmul (dip1 p i) (quad2 p j k))
  = (pM1 p 1%nat * pM2 p 2%nat * weight4 (pq1 p) (pq2 p), 0).
Proof.
  intros p (L1 & L2 & L3 & L4).
  destruct (psel1 p 1) eqn:S1.
  - apply L3 in S1. destruct (psel2 p 2) eqn:S2.
    + apply L4 in S2. apply axis_dq; assumption.
    + apply L2 in S2. destruct (psel2 p 0) eqn:S0.
      * apply L4 in S0. apply axis_dq; [assumption|]. cbn in S0. lia.
      * apply L2 in S0. assert (forall j k, quad2 p j k = (0, 0)) as Z.
        { intros. unfold quad2. rewrite S2, S0, qtab_zero. unfold phase. destruct (qphase j k); reflexivity. }
        unfold axis_sum. rewrite !Z, S2. unfold cmul, cadd, csub, rmul. apply injective_projections; cbn [fst snd]; ring.
  - apply L1 in S1. unfold axis_sum, dip1. rewrite S1.
    unfold cmul, cadd, csub, rmul. apply injective_projections; cbn [fst snd]; ring.
Qed.
Lemma axis_qd_lawful : forall p, lawful p ->
  axis_sum (fun i j k => cmul (quad1 p i j) (dip2 p k))
  = (pM1 p 2%nat * pM2 p 1%nat * weight4 (pq1 p) (pq2 p), 0).
Proof.
  intros p (L1 & L2 & L3 & L4).
  destruct (psel2 p 1) eqn:S1.
  - apply L4 in S1. destruct (psel1 p 2) eqn:S2.
    + apply L3 in S2. apply axis_qd; assumption.
    + apply L1 in S2. destruct (psel1 p 0) eqn:S0.
      * apply L3 in S0. apply axis_qd; [|assumption]. cbn in S0. lia.
      * apply L1 in S0. assert (forall j k, quad1 p j k = (0, 0)) as Z.
        { intros. unfold quad1. rewrite S2, S0, qtab_zero. unfold phase. destruct (qphase j k); reflexivity. }
        unfold axis_sum. rewrite !Z, S2. unfold cmul, cadd, csub, rmul. apply injective_projections; cbn [fst snd]; ring.
  - apply L2 in S1. unfold axis_sum, dip2. rewrite S1.
    unfold cmul, cadd, csub, rmul. apply injective_projections; cbn [fst snd]; ring.
Qed.

Lemma axis_sum_rmul : forall a f, axis_sum (fun i j k => rmul a (f i j k)) = rmul a (axis_sum f).
Proof.
  intros. unfold axis_sum, rmul, cadd, csub. apply injective_projections; cbn [fst snd]; ring.
Qed.

Lemma green4_axis : forall kC tol z p, lawful p -> z <> 0 -> no_cutoff tol 0 0 z p ->
  cplus (dq_entry kC tol false (DQvac 0 0 z) p) (qd_entry kC tol false (QDvac 0 0 z) p)
  = Ok (mult_val kC 4 p * (z / Rabs z ^ 5), 0).
Proof.
  intros kC tol z p L Z N. rewrite (dq_entry_exact kC tol 0 0 z p L N), (qd_entry_exact kC tol 0 0 z p L N).
  unfold cplus. cbn [bind]. f_equal.
  rewrite (csum27_ext _ (fun i j k => rmul (axis i j k * (z / Rabs z ^ 5)) (rmul kC (cmul (dip1 p i) (quad2 p j k))))).
  2:{ intros. rewrite DQ_axis by assumption. reflexivity. }
  rewrite (csum27_ext (fun i j k => rmul (QDvac 0 0 z i j k) _)
             (fun i j k => rmul (axis i j k * (- (z / Rabs z ^ 5))) (rmul kC (cmul (quad1 p i j) (dip2 p k))))).
  2:{ intros. f_equal. pose proof (dq_is_minus_qd 0 0 z i j k) as E. rewrite DQ_axis in E by assumption. lra. }
  rewrite !csum27_axis, !axis_sum_rmul, axis_dq_lawful, axis_qd_lawful by exact L.
  rewrite mult4 by exact L.
  unfold rmul, cadd. apply injective_projections; cbn [fst snd]; ring.
Qed.
