(** Proofs for PropElements.v: symmetries of the factors of the matrix elements. *)
From Coq Require Import ZArith Lia Bool List Reals Lra.
From Flocq Require Import Core.
Import ListNotations.
From Verif Require Import Base BasisnamesModel InteractSpec OneFieldSpec MatCacheModel MatCacheSpec Racah.
Set Implicit Arguments.
Local Open Scope R_scope.

Ltac sr := repeat match goal with |- context [sign ?e] => change (sign e) with (rsgn e) end.
Lemma rsgn_same : forall a b, Z.Even (a - b) -> rsgn a = rsgn b.
Proof. intros a b [x H]. replace a with (b + 2 * x)%Z by lia. rewrite rsgn_add, (rsgn_even (2 * x)) by (rewrite Z.even_mul; reflexivity). ring. Qed.
Lemma fmt_opp : forall x, fmt (- x) = - fmt x.
Proof. intros x. unfold fmt. apply round_NE_opp. Qed.
Lemma odd_sgn : forall (g : R -> R) e x, (forall x, g (- x) = - g x) -> g (rsgn e * x) = rsgn e * g x.
Proof. intros g e x G. unfold rsgn. destruct (Z.even e); [rewrite !Rmult_1_l; reflexivity|]. replace (-1 * x) with (- x) by ring. rewrite G. ring. Qed.
Lemma odd_0 : forall (g : R -> R), (forall x, g (- x) = - g x) -> g 0 = 0.
Proof. intros g G. pose proof (G 0) as H. rewrite Ropp_0 in H. lra. Qed.

Lemma ang_swap : forall k s t, doublet s -> doublet t -> f_angular W3j k t s = rsgn ((jj s - mm s) / 2 + (jj t - mm t) / 2) * f_angular W3j k s t.
Proof.
  intros k s t (_ & _ & _ & _) (_ & _ & _ & _). unfold f_angular. sr.
  pose proof (W3j_flip (jj t) (2 * Z.of_nat k) (jj s) (- mm t) (mm t - mm s) (mm s)) as F. rewrite Z.opp_involutive in F.
  rewrite (W3j_swap (jj s) (2 * Z.of_nat k) (jj t)). replace (mm s - mm t)%Z with (- (mm t - mm s))%Z by lia. rewrite F.
  replace (jj s + 2 * Z.of_nat k + jj t)%Z with (jj t + 2 * Z.of_nat k + jj s)%Z by lia. rewrite rsgn_add.
  set (x := W3j _ _ _ _ _ _). pose proof (rsgn_sq ((jj t + 2 * Z.of_nat k + jj s) / 2)) as Q1. pose proof (rsgn_sq ((jj s - mm s) / 2)) as Q2.
  set (a := rsgn ((jj t + 2 * Z.of_nat k + jj s) / 2)) in *. set (b := rsgn ((jj s - mm s) / 2)) in *. set (c := rsgn ((jj t - mm t) / 2)).
  replace (b * c * (b * (a * (a * x)))) with ((b * b) * (a * a) * (c * x)) by ring. rewrite Q1, Q2. ring.
Qed.
Lemma orb_swap : forall k s t, f_orbital W6j k t s = rsgn (l_ s + l_ t + (1 + jj s) / 2 + (1 + jj t) / 2) * f_orbital W6j k s t.
Proof.
  intros k s t. unfold f_orbital. cbv zeta. match goal with |- (if ?c then _ else _) = _ * (if ?d then _ else _) => replace d with c end.
  2:{ replace (Z.abs (l_ s - l_ t)) with (Z.abs (l_ t - l_ s)) by lia. replace (Z.abs (jj s - jj t)) with (Z.abs (jj t - jj s)) by lia. rewrite (Z.add_comm (l_ t)), (Z.add_comm (jj t)), (andb_comm (Z.abs (jj t - 2 * l_ t) =? 1)%Z). reflexivity. }
  match goal with |- (if ?c then _ else _) = _ => destruct c end; [|ring]. sr. rewrite (W6j_rows (2 * l_ t)), (W6j_cols (jj s)). rewrite (Z.mul_comm (jj t + 1)).
  replace (l_ s + l_ t + (1 + jj s) / 2 + (1 + jj t) / 2)%Z with ((l_ s + (1 + jj t) / 2 + Z.of_nat k) + (l_ t + (1 + jj s) / 2 - Z.of_nat k))%Z by lia. rewrite (rsgn_add (l_ s + (1 + jj t) / 2 + Z.of_nat k)).
  pose proof (rsgn_sq (l_ s + (1 + jj t) / 2 + Z.of_nat k)) as Q. set (a := rsgn (l_ s + (1 + jj t) / 2 + Z.of_nat k)) in *. set (y := sqrt _). set (x := W6j _ _ _ _ _ _).
  replace (rsgn (l_ t + (1 + jj s) / 2 + Z.of_nat k)) with (rsgn (l_ t + (1 + jj s) / 2 - Z.of_nat k)) by (apply rsgn_same; exists (- Z.of_nat k)%Z; lia).
  set (b := rsgn (l_ t + (1 + jj s) / 2 - Z.of_nat k)). replace (a * b * (a * y * x)) with ((a * a) * (b * y * x)) by ring. rewrite Q. ring.
Qed.
Lemma red_odd : forall k s t, ~ Z.Even (Z.of_nat k + l_ s + l_ t) -> f_reduced W3j k s t = 0.
Proof.
  intros k s t H. unfold f_reduced. rewrite W3j_odd_zero; [ring|]. replace (2 * l_ s + 2 * Z.of_nat k + 2 * l_ t)%Z with ((Z.of_nat k + l_ s + l_ t) * 2)%Z by lia. rewrite Z.div_mul by lia.
  rewrite <- Z.negb_even. destruct (Z.even (Z.of_nat k + l_ s + l_ t)) eqn:E; [apply Z.even_spec in E; contradiction|reflexivity].
Qed.
Lemma red_swap : forall k s t, f_reduced W3j k t s = rsgn (l_ s + l_ t) * f_reduced W3j k s t.
Proof.
  intros k s t. destruct (Z.even (Z.of_nat k + l_ s + l_ t)) eqn:E.
  - unfold f_reduced. sr. rewrite (W3j_swap (2 * l_ s)). replace (2 * l_ s + 2 * Z.of_nat k + 2 * l_ t)%Z with ((Z.of_nat k + l_ s + l_ t) * 2)%Z by lia. rewrite Z.div_mul by lia. rewrite (@rsgn_even _ E).
    rewrite (Z.mul_comm (2 * l_ t + 1)), rsgn_add. pose proof (rsgn_sq (l_ s)) as Q. set (a := rsgn (l_ s)) in *. set (b := rsgn (l_ t)). set (y := sqrt _). set (x := W3j _ _ _ _ _ _).
    replace (a * b * (a * y * (1 * x))) with ((a * a) * (b * y * x)) by ring. rewrite Q. ring.
  - assert (N : ~ Z.Even (Z.of_nat k + l_ s + l_ t)) by (intros H; apply Z.even_spec in H; congruence). rewrite (@red_odd k s t N), (@red_odd k t s); [ring|]. intros H. apply N. destruct H as [x H]. exists x. lia.
Qed.
Lemma spin_swap : forall k s t, l_ s = l_ t -> f_spin W6j k t s = rsgn ((1 + jj s) / 2 + (1 + jj t) / 2) * f_spin W6j k s t.
Proof.
  intros k s t L. unfold f_spin. sr. rewrite L. rewrite (W6j_rows 1 (jj t)), (W6j_cols (jj s)). rewrite (Z.mul_comm (jj t + 1)).
  set (y := sqrt _). set (x := W6j _ _ _ _ _ _).
  rewrite !rsgn_add. pose proof (rsgn_sq ((1 + jj s) / 2)) as Q. set (a := rsgn ((1 + jj s) / 2)) in *. set (b := rsgn ((1 + jj t) / 2)). set (c := rsgn (l_ t)). set (d := rsgn (Z.of_nat k)).
  replace (a * b * (c * a * d * y * x)) with ((a * a) * (c * b * d * y * x)) by ring. rewrite Q. ring.
Qed.
(** the sign of all factors together: (-1)^(m - m') *)
Lemma total_sign : forall s t, doublet s -> doublet t ->
  rsgn ((jj s - mm s) / 2 + (jj t - mm t) / 2) * rsgn ((1 + jj s) / 2 + (1 + jj t) / 2) = (if Z.even ((mm s - mm t) / 2) then 1 else -1).
Proof.
  intros s t (_ & _ & [a A] & [b B]) (_ & _ & [c C] & [d D]). change (if Z.even ((mm s - mm t) / 2) then 1 else -1) with (rsgn ((mm s - mm t) / 2)). rewrite <- rsgn_add. apply rsgn_same.
  rewrite A, B, C, D. replace (2 * a + 1 - (2 * b + 1))%Z with ((a - b) * 2)%Z by lia. replace (2 * c + 1 - (2 * d + 1))%Z with ((c - d) * 2)%Z by lia. replace (1 + (2 * a + 1))%Z with ((a + 1) * 2)%Z by lia.
  replace (1 + (2 * c + 1))%Z with ((c + 1) * 2)%Z by lia. replace (2 * b + 1 - (2 * d + 1))%Z with ((b - d) * 2)%Z by lia. rewrite !Z.div_mul by lia. exists (a + c + 1 - b)%Z. lia.
Qed.

(** zeros *)
Lemma ang_far : forall k s t, ~ (Z.abs (jj s - jj t) <= 2 * Z.of_nat k <= jj s + jj t /\ Z.abs (mm s - mm t) <= 2 * Z.of_nat k)%Z -> f_angular W3j k s t = 0.
Proof.
  intros k s t H. unfold f_angular. rewrite W3j_zero; [ring|]. unfold valid3. destruct (triangle (jj s) (2 * Z.of_nat k) (jj t)) eqn:T; [|reflexivity]. destruct (proj (2 * Z.of_nat k) (mm s - mm t)) eqn:P; [|rewrite !andb_false_r; reflexivity].
  exfalso. apply H. unfold triangle in T. unfold proj in P. rewrite !andb_true_iff, !Z.leb_le in T. rewrite andb_true_iff, Z.leb_le in P. destruct T as [[T1 T2] _], P as [P _]. lia.
Qed.
Lemma ang_special : forall s t, jj s = 3%Z -> jj t = 3%Z -> mm s = (- mm t)%Z -> f_angular W3j 2 s t = 0.
Proof.
  intros s t J J' M. unfold f_angular. rewrite J, J', M. replace (- - mm t)%Z with (mm t) by lia. pose proof (W3j_swap 3 (2 * Z.of_nat 2) 3 (mm t) (- mm t - mm t) (mm t)) as S.
  change ((3 + 2 * Z.of_nat 2 + 3) / 2)%Z with 5%Z in S. unfold rsgn in S. cbn [Z.even] in S. assert (Z0 : W3j 3 (2 * Z.of_nat 2) 3 (mm t) (- mm t - mm t) (mm t) = 0) by lra. rewrite Z0. ring.
Qed.
Lemma orb_far : forall k s t, ~ (Z.abs (l_ s - l_ t) <= Z.of_nat k)%Z -> f_orbital W6j k s t = 0.
Proof. intros k s t H. unfold f_orbital. cbv zeta. replace (Z.abs (l_ s - l_ t) <=? Z.of_nat k)%Z with false by (symmetry; apply Z.leb_gt; lia). rewrite !andb_false_r. reflexivity. Qed.
Lemma not_allowed : forall k s t, ~ allowed s t k -> f_angular W3j k s t = 0 \/ f_orbital W6j k s t = 0 \/ f_reduced W3j k s t = 0.
Proof.
  intros k s t H. destruct (Z_le_dec (Z.abs (l_ s - l_ t)) (Z.of_nat k)) as [A|A]; [|right; left; apply orb_far; exact A].
  destruct (Z.even (Z.of_nat k + l_ s + l_ t)) eqn:E; [|right; right; apply red_odd; intros X; apply Z.even_spec in X; congruence]. apply Z.even_spec in E. left.
  destruct (Z_le_dec (Z.abs (jj s - jj t)) (2 * Z.of_nat k)) as [B|B]; [|apply ang_far; lia]. destruct (Z_le_dec (2 * Z.of_nat k) (jj s + jj t)) as [C|C]; [|apply ang_far; lia].
  destruct (Z_le_dec (Z.abs (mm s - mm t)) (2 * Z.of_nat k)) as [D|D]; [|apply ang_far; lia].
  assert (X : (k = 2%nat /\ jj s = 3 /\ jj t = 3 /\ mm s = - mm t /\ Z.abs (mm s) = 1)%Z).
  { destruct (Nat.eq_dec k 2) as [K|K], (Z.eq_dec (jj s) 3) as [J|J], (Z.eq_dec (jj t) 3) as [J'|J'], (Z.eq_dec (mm s) (- mm t)) as [M|M], (Z.eq_dec (Z.abs (mm s)) 1) as [M'|M']; try (exfalso; apply H; repeat split; try assumption; tauto). tauto. }
  destruct X as (-> & J & J' & M & _). apply ang_special; assumption.
Qed.

(** m -> -m *)
Lemma ang_mirror : forall k s t s' t', doublet s -> doublet t -> jj s' = jj s -> mm s' = (- mm s)%Z -> jj t' = jj t -> mm t' = (- mm t)%Z ->
  f_angular W3j k s' t' = - rsgn ((jj s + jj t) / 2 + Z.of_nat k) * f_angular W3j k s t.
Proof.
  intros k s t s' t' (_ & _ & [a A] & [b B]) (_ & _ & [c C] & [d D]) J M J' M'. unfold f_angular. sr. rewrite J, M, J', M'.
  replace (- mm s - - mm t)%Z with (- (mm s - mm t))%Z by lia. rewrite (W3j_flip (jj s) (2 * Z.of_nat k) (jj t) (- mm s) (mm s - mm t) (mm t)). set (x := W3j _ _ _ _ _ _).
  replace ((jj s + 2 * Z.of_nat k + jj t) / 2)%Z with ((jj s + jj t) / 2 + Z.of_nat k)%Z by (replace (jj s + 2 * Z.of_nat k + jj t)%Z with (jj s + jj t + Z.of_nat k * 2)%Z by lia; rewrite Z.div_add; lia).
  replace (rsgn ((jj s - - mm s) / 2)) with (- rsgn ((jj s - mm s) / 2)); [ring|].
  rewrite A, B. replace (2 * a + 1 - - (2 * b + 1))%Z with ((a + b + 1) * 2)%Z by lia. replace (2 * a + 1 - (2 * b + 1))%Z with ((a - b) * 2)%Z by lia. rewrite !Z.div_mul by lia.
  rewrite (@rsgn_same (a - b) (a + b)) by (exists (- b)%Z; lia). rewrite (rsgn_add (a + b) 1). unfold rsgn at 3. cbn [Z.even]. ring.
Qed.
