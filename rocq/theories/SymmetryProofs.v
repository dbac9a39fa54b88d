(** Proofs for PropSymmetry.v: symmetries of the coefficients of the multipole expansion. *)
From Coq Require Import ZArith Lia Bool List Reals Lra.
Import ListNotations.
From Verif Require Import Base Matrix FieldModel BasisnamesModel CombineModel CombineSpec InteractModel InteractSpec InteractProofs SymmetrySpec.
Set Implicit Arguments.
Local Open Scope R_scope.

(** 1 or -1 *)
Definition zR (z : Z) : R := if (z =? 1)%Z then 1 else -1.
Definition rsum (f : nat -> R) (l : list nat) : R := fold_right Rplus 0 (map f l).
Lemma rsum_ext : forall f g l, (forall k, In k l -> f k = g k) -> rsum f l = rsum g l.
Proof. intros f g l H. unfold rsum. f_equal. apply map_ext_in. exact H. Qed.
Lemma rsum_scale : forall x f l, rsum (fun k => x * f k) l = x * rsum f l.
Proof. intros x f l. unfold rsum. induction l as [|k l IH]; cbn [map fold_right]; [ring|]. rewrite IH. ring. Qed.
Lemma rsum_app : forall f l l', rsum f (l ++ l') = rsum f l + rsum f l'.
Proof. intros f l l'. unfold rsum. induction l as [|k l IH]; cbn [app map fold_right]; [ring|]. rewrite IH. ring. Qed.
Lemma rsum_reverse : forall n f a, rsum f (seq a n) = rsum (fun k => f (2 * a + n - 1 - k)%nat) (seq a n).
Proof.
  intros n f a. assert (H : forall m g, (m <= n)%nat -> rsum g (map (fun k => (2 * a + n - 1 - k)%nat) (seq (a + (n - m)) m)) = rsum g (seq a m)).
  { induction m as [|m IH]; intros g L; [reflexivity|]. rewrite (seq_S m a), rsum_app. rewrite <- (IH g) by lia. cbn [seq map]. replace (S (a + (n - S m)))%nat with (a + (n - m))%nat by lia. unfold rsum at 1 3. cbn [map fold_right].
    fold (rsum g (map (fun k => (2 * a + n - 1 - k)%nat) (seq (a + (n - m)) m))). replace (2 * a + n - 1 - (a + (n - S m)))%nat with (a + m)%nat by lia. ring. }
  rewrite <- (H n f) by lia. rewrite Nat.sub_diag, Nat.add_0_r. unfold rsum. rewrite map_map. reflexivity.
Qed.
Lemma pow_m1_sq : forall k, (-1) ^ k * (-1) ^ k = 1.
Proof. induction k as [|k IH]; cbn [pow]; [ring|]. replace (-1 * (-1) ^ k * (-1 * (-1) ^ k)) with ((-1) ^ k * (-1) ^ k) by ring. exact IH. Qed.
Lemma expansion_swap : forall k1 k2 q, expansion k2 k1 q = (-1) ^ (k1 + k2) * expansion k1 k2 q.
Proof.
  intros k1 k2 q. unfold expansion. rewrite (Nat.add_comm k2 k1). set (a := fct (Z.of_nat k1 + q)). set (b := fct (Z.of_nat k1 - q)). set (c := fct (Z.of_nat k2 + q)). set (d := fct (Z.of_nat k2 - q)).
  replace (c * d * a * b) with (a * b * c * d) by ring. rewrite pow_add. unfold Rdiv. pose proof (pow_m1_sq k2) as Q.
  replace ((-1) ^ k1 * (-1) ^ k2 * ((-1) ^ k2 * INR (fact (k1 + k2)) * / sqrt (a * b * c * d))) with ((-1) ^ k2 * (-1) ^ k2 * ((-1) ^ k1 * INR (fact (k1 + k2)) * / sqrt (a * b * c * d))) by ring.
  rewrite Q. ring.
Qed.
Lemma half_neg : forall a b, Z.Even (a - b) -> ((b - a) / 2 = - ((a - b) / 2))%Z.
Proof. intros a b [x H]. replace (b - a)%Z with (- x * 2)%Z by lia. rewrite H, (Z.mul_comm 2), !Z.div_mul by lia. reflexivity. Qed.

(** exchange of the atoms *)
Lemma multipole_exchange : forall kC el p s t s' t', Z.Even (mm s - mm s') ->
  multipole kC el el p t s t' s' = (-1) ^ (p - 1) * multipole kC el el p s t s' t'.
Proof.
  intros kC el p s t s' t' V. unfold multipole. rewrite (Z.add_comm (mm t)), (Z.add_comm (mm t')). destruct (Z.eqb_spec (mm s + mm t) (mm s' + mm t')) as [M|_]; [|ring].
  replace (mm t - mm t')%Z with (mm s' - mm s)%Z by lia. rewrite (@half_neg (mm s) (mm s') V). set (q := ((mm s - mm s') / 2)%Z). cbv zeta.
  match goal with |- fold_right Rplus 0 (map ?f ?l) = _ * fold_right Rplus 0 (map ?g ?l) => change (rsum f l = (-1) ^ (p - 1) * rsum g l); set (F := f); set (G := g) end.
  rewrite (rsum_reverse (p - 2) F 1), <- rsum_scale. apply rsum_ext. intros k I. apply in_seq in I. unfold F, G. replace (2 * 1 + (p - 2) - 1 - k)%nat with (p - 1 - k)%nat by lia. replace (p - 1 - (p - 1 - k))%nat with k by lia.
  rewrite Z.abs_opp, (Nat.min_comm (p - 1 - k)). destruct (Z.abs q <=? Z.of_nat (Nat.min k (p - 1 - k)))%Z; [|ring]. rewrite expansion_neg, (expansion_swap k (p - 1 - k)). replace (k + (p - 1 - k))%nat with (p - 1)%nat by lia. ring.
Qed.

Definition eps (z : Z) : R := if Z.even z then 1 else -1.
Lemma eps_add : forall a b, eps (a + b) = eps a * eps b.
Proof. intros a b. unfold eps. rewrite Z.even_add. destruct (Z.even a), (Z.even b); cbn; ring. Qed.
Lemma eps_same : forall a b, Z.Even (a - b) -> eps a = eps b.
Proof. intros a b [x H]. replace a with (b + 2 * x)%Z by lia. rewrite eps_add. unfold eps at 2. rewrite Z.even_mul. cbn. ring. Qed.
Lemma eps_sq : forall a, eps a * eps a = 1. Proof. intros a. unfold eps. destruct (Z.even a); ring. Qed.
Lemma eps_pow : forall k, (-1) ^ k = eps (Z.of_nat k).
Proof. induction k as [|k IH]; [reflexivity|]. rewrite Nat2Z.inj_succ, <- Z.add_1_r, eps_add, <- IH. cbn [pow]. unfold eps. cbn [Z.even]. ring. Qed.
Lemma zR_sg : forall z, zR (sg z) = eps z. Proof. intros z. unfold zR, sg, eps. destruct (Z.even z); reflexivity. Qed.
Lemma pm_mul : forall a b, (a = 1 \/ a = -1)%Z -> (b = 1 \/ b = -1)%Z -> zR (a * b) = zR a * zR b.
Proof. intros a b [->| ->] [->| ->]; cbn; ring. Qed.
Lemma sg_pm : forall z, (sg z = 1 \/ sg z = -1)%Z. Proof. intros z. unfold sg. destruct (Z.even z); auto. Qed.

(** the orbital parity of all states together is (-1)^(p-1) *)
Section P.
Variables (kC : R) (el1 el2 : one -> one -> nat -> R) (P1 P2 : one -> Prop).
Hypothesis E1 : elements_on P1 el1.
Hypothesis E2 : elements_on P2 el2.
Lemma multipole_parity : forall p s t s' t', P1 s -> P1 s' -> P2 t -> P2 t' ->
  eps (l_ s + l_ t + (l_ s' + l_ t')) * multipole kC el1 el2 p s t s' t' = (-1) ^ (p - 1) * multipole kC el1 el2 p s t s' t'.
Proof.
  intros p s t s' t' A1 A2 A3 A4. unfold multipole. destruct (mm s + mm t =? mm s' + mm t')%Z; [|ring]. cbv zeta. match goal with |- _ * fold_right Rplus 0 (map ?f ?l) = _ => change (eps (l_ s + l_ t + (l_ s' + l_ t')) * rsum f l = (-1) ^ (p - 1) * rsum f l) end.
  rewrite <- !rsum_scale. apply rsum_ext. intros k I. apply in_seq in I. destruct (Z.abs _ <=? _)%Z; [|ring].
  destruct (Z.even (Z.of_nat k + l_ s + l_ s')) eqn:B1; [destruct (Z.even (Z.of_nat (p - 1 - k) + l_ t + l_ t')) eqn:B2|].
  - apply Z.even_spec in B1, B2. rewrite eps_pow. replace (eps (l_ s + l_ t + (l_ s' + l_ t'))) with (eps (Z.of_nat (p - 1))); [reflexivity|]. apply eps_same. destruct B1 as [x B1], B2 as [y B2].
    exists (Z.of_nat (p - 1) - x - y)%Z. lia.
  - destruct E2 as [Z2 _]. rewrite (Z2 t t' (p - 1 - k)%nat); auto; [ring|]. intros (_ & H & _). apply Z.even_spec in H. congruence.
  - destruct E1 as [Z1 _]. rewrite (Z1 s s' k); auto; [ring|]. intros (_ & H & _). apply Z.even_spec in H. congruence.
Qed.
End P.
(** reversal of all magnetic quantum numbers *)
Lemma multipole_mirror : forall kC b1 b2 el1 el2 p s t s' t' s_ t_ s'_ t'_, mirrored b1 el1 -> mirrored b2 el2 ->
  In s (names1 b1) -> In s' (names1 b1) -> In s_ (names1 b1) -> In s'_ (names1 b1) -> In t (names1 b2) -> In t' (names1 b2) -> In t_ (names1 b2) -> In t'_ (names1 b2) ->
  opposite s s_ = true -> opposite t t_ = true -> opposite s' s'_ = true -> opposite t' t'_ = true -> Z.Even (mm s - mm s') ->
  multipole kC el1 el2 p s_ t_ s'_ t'_ = eps ((jj s + jj s') / 2 + (jj t + jj t') / 2) * (-1) ^ (p - 1) * multipole kC el1 el2 p s t s' t'.
Proof.
  intros kC b1 b2 el1 el2 p s t s' t' s_ t_ s'_ t'_ M1 M2 I1 I2 I3 I4 I5 I6 I7 I8 O1 O2 O3 O4 V.
  assert (Ms : forall a b, opposite a b = true -> mm b = (- mm a)%Z) by (intros a b O; unfold opposite in O; rewrite !andb_true_iff, !Z.eqb_eq in O; lia).
  unfold multipole. rewrite (Ms _ _ O1), (Ms _ _ O2), (Ms _ _ O3), (Ms _ _ O4).
  destruct (Z.eqb_spec (- mm s + - mm t) (- mm s' + - mm t')), (Z.eqb_spec (mm s + mm t) (mm s' + mm t')); try lia; [|ring]. replace (- mm s - - mm s')%Z with (mm s' - mm s)%Z by lia. rewrite (@half_neg (mm s) (mm s') V). cbv zeta.
  match goal with |- fold_right Rplus 0 (map ?f ?l) = ?x * fold_right Rplus 0 (map ?g ?l) => change (rsum f l = x * rsum g l) end. rewrite <- rsum_scale. apply rsum_ext. intros k I. apply in_seq in I.
  rewrite Z.abs_opp, expansion_neg. destruct (Z.abs _ <=? _)%Z; [|ring]. rewrite (M1 s s' s_ s'_ k) by auto. rewrite (M2 t t' t_ t'_ (p - 1 - k)%nat) by auto.
  assert (S : forall z, (if Z.even z then -1 else 1) = - eps z) by (intros z; unfold eps; destruct (Z.even z); ring). rewrite !S, !eps_add, eps_pow.
  replace (eps (Z.of_nat (p - 1))) with (eps (Z.of_nat k) * eps (Z.of_nat (p - 1 - k))) by (rewrite <- eps_add; f_equal; lia). ring.
Qed.
