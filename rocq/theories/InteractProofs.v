(** Proofs for PropInteract.v: matrix elements of the interaction. *)
From Coq Require Import ZArith Lia Bool List Reals Lra.
Import ListNotations.
From Verif Require Import Base Matrix FieldModel BasisnamesModel CombineModel InteractModel InteractSpec.
Set Implicit Arguments.
Local Open Scope R_scope.

Lemma sel_allowed : forall s s' k, sel_multipole s s' k = true <-> allowed s s' k.
Proof.
  intros s s' k. unfold sel_multipole, allowed. rewrite !andb_true_iff, !Z.leb_le, Z.eqb_eq, negb_true_iff, !andb_false_iff, !Z.eqb_neq.
  assert (P : (Z.of_nat k mod 2 = Z.abs (l_ s - l_ s') mod 2 <-> Z.Even (Z.of_nat k + l_ s + l_ s'))%Z).
  { rewrite <- Z.even_spec, !Z.even_add. rewrite !Zmod_even. destruct (Z.abs_spec (l_ s - l_ s')) as [[_ ->]|[_ ->]]; rewrite ?Z.even_opp, ?Z.even_sub;
    destruct (Z.even (Z.of_nat k)), (Z.even (l_ s)), (Z.even (l_ s')); cbn; split; intros; try reflexivity; try discriminate. }
  rewrite P. clear P. split; intros H; intuition lia.
Qed.

Lemma fct_pos : forall z, 0 < fct z. Proof. intros. unfold fct. apply INR_fact_lt_0. Qed.
Lemma binom_ok : forall k1 k2 q, (Z.abs q <= Z.of_nat k1)%Z -> (Z.abs q <= Z.of_nat k2)%Z ->
  exists c1 c2, binom_arg (k1 + k2) (Z.of_nat k1 + q) = Ok c1 /\ binom_arg (k1 + k2) (Z.of_nat k2 - - q) = Ok c2 /\
    (-1) ^ k2 * sqrt (c1 * c2) = expansion k1 k2 q.
Proof.
  intros k1 k2 q H1 H2. unfold binom_arg.
  replace ((Z.of_nat k1 + q <? 0)%Z || (Z.of_nat (k1 + k2) <? Z.of_nat k1 + q)%Z) with false by (symmetry; apply orb_false_iff; rewrite !Z.ltb_ge; lia).
  replace ((Z.of_nat k2 - - q <? 0)%Z || (Z.of_nat (k1 + k2) <? Z.of_nat k2 - - q)%Z) with false by (symmetry; apply orb_false_iff; rewrite !Z.ltb_ge; lia).
  eexists. eexists. split; [reflexivity|]. split; [reflexivity|]. unfold expansion, C. fold (fct (Z.of_nat k1 + q)).
  replace (k1 + k2 - Z.to_nat (Z.of_nat k1 + q))%nat with (Z.to_nat (Z.of_nat k2 - q)) by lia.
  replace (k1 + k2 - Z.to_nat (Z.of_nat k2 - - q))%nat with (Z.to_nat (Z.of_nat k1 - q)) by lia.
  replace (Z.to_nat (Z.of_nat k2 - - q)) with (Z.to_nat (Z.of_nat k2 + q)) by lia.
  fold (fct (Z.of_nat k2 - q)). fold (fct (Z.of_nat k1 - q)). fold (fct (Z.of_nat k2 + q)).
  pose proof (fct_pos (Z.of_nat k1 + q)) as A. pose proof (fct_pos (Z.of_nat k1 - q)) as B. pose proof (fct_pos (Z.of_nat k2 + q)) as D. pose proof (fct_pos (Z.of_nat k2 - q)) as E.
  assert (N : 0 < INR (fact (k1 + k2))) by apply INR_fact_lt_0.
  set (a := fct (Z.of_nat k1 + q)) in *. set (b := fct (Z.of_nat k1 - q)) in *. set (d := fct (Z.of_nat k2 + q)) in *. set (e := fct (Z.of_nat k2 - q)) in *. set (m := INR (fact (k1 + k2))) in *.
  clearbody a b d e m. replace (m / (a * e) * (m / (d * b))) with ((m * m) / (a * b * d * e)) by (field; repeat split; apply Rgt_not_eq; assumption).
  assert (X : 0 < a * b * d * e) by (repeat apply Rmult_lt_0_compat; assumption).
  rewrite sqrt_div_alt by exact X. rewrite sqrt_square by lra. field. apply Rgt_not_eq. apply sqrt_lt_R0. exact X.
Qed.

Section Val.
Variables kC tol : R.
Variables el1 el2 : one -> one -> nat -> R.
Variables P1 P2 : one -> Prop.
Hypothesis E1 : elements_on P1 el1.
Hypothesis E2 : elements_on P2 el2.
Definition term (n : nat) (s t s' t' : one) (k1 : nat) : R :=
  let q := ((mm s - mm s') / 2)%Z in let k2 := (n - k1)%nat in
  if (Z.abs q <=? Z.of_nat (Nat.min k1 k2))%Z then kC * expansion k1 k2 q * el1 s s' k1 * el2 t t' k2 else 0.

Lemma kappa_loop_ok : forall n row col ks val, (forall k, In k ks -> k <= n)%nat ->
  P1 (fst_ row) -> P1 (fst_ col) -> P2 (snd_ row) -> P2 (snd_ col) -> Z.Even (mm (fst_ row) - mm (fst_ col)) -> Z.Even (mm (snd_ row) - mm (snd_ col)) ->
  kappa_loop kC el1 el2 n row col ks val = Ok (val +
    if (mm (fst_ row) + mm (snd_ row) =? mm (fst_ col) + mm (snd_ col))%Z then fold_right Rplus 0 (map (term n (fst_ row) (snd_ row) (fst_ col) (snd_ col)) ks) else 0).
Proof.
  intros n row col ks val B R1 R2 R3 R4 V1 V2. set (s := fst_ row) in *. set (t := snd_ row) in *. set (s' := fst_ col) in *. set (t' := snd_ col) in *.
  assert (Q1 : qdiff s s' = ((mm s - mm s') / 2)%Z) by (unfold qdiff; destruct V1 as [x ->]; rewrite (Z.mul_comm 2), Z.quot_mul, Z.div_mul by lia; reflexivity).
  assert (Q2 : qdiff t t' = ((mm t - mm t') / 2)%Z) by (unfold qdiff; destruct V2 as [x ->]; rewrite (Z.mul_comm 2), Z.quot_mul, Z.div_mul by lia; reflexivity).
  assert (QQ : (qdiff s s' =? - qdiff t t')%Z = (mm s + mm t =? mm s' + mm t')%Z).
  { rewrite Q1, Q2. destruct V1 as [x Hx], V2 as [y Hy]. rewrite Hx, Hy, !(Z.mul_comm 2), !Z.div_mul by lia. apply eq_true_iff_eq. rewrite !Z.eqb_eq. lia. }
  revert val. induction ks as [|k ks IH]; intros val.
  - cbn [kappa_loop map fold_right]. destruct (mm s + mm t =? mm s' + mm t')%Z; f_equal; ring.
  - cbn [kappa_loop]. fold s t s' t'. rewrite QQ.
    assert (IH' : forall v, kappa_loop kC el1 el2 n row col ks v = Ok (v + if (mm s + mm t =? mm s' + mm t')%Z then fold_right Rplus 0 (map (term n s t s' t') ks) else 0)) by (apply IH; intros; apply B; right; auto).
    destruct (mm s + mm t =? mm s' + mm t')%Z eqn:M.
    + cbn [map fold_right]. assert (Q : qdiff t t' = (- qdiff s s')%Z) by (apply Z.eqb_eq in QQ; lia).
      destruct (sel_multipole s s' k && sel_multipole t t' (n - k)) eqn:S.
      * apply andb_true_iff in S. destruct S as [S1 S2]. apply sel_allowed in S1, S2. destruct S1 as (_ & _ & _ & S1 & _), S2 as (_ & _ & _ & S2 & _).
        assert (A1 : (Z.abs (qdiff s s') <= Z.of_nat k)%Z) by (rewrite Q1; destruct V1 as [x Hx]; rewrite Hx in *; rewrite (Z.mul_comm 2), Z.div_mul by lia; lia).
        assert (A2 : (Z.abs (qdiff s s') <= Z.of_nat (n - k))%Z).
        { replace (qdiff s s') with (- qdiff t t')%Z by lia. rewrite Q2. destruct V2 as [x Hx]. rewrite Hx in *. rewrite (Z.mul_comm 2), Z.div_mul by lia. lia. }
        destruct (@binom_ok k (n - k) (qdiff s s') A1 A2) as (c1 & c2 & F1 & F2 & F3). rewrite Q, F1. cbn [bind]. rewrite F2. cbn [bind]. rewrite IH'. f_equal.
        unfold term at 2. rewrite <- Q1. replace (Z.abs (qdiff s s') <=? Z.of_nat (Nat.min k (n - k)))%Z with true by (symmetry; apply Z.leb_le; lia).
        rewrite <- F3. ring.
      * rewrite IH'. f_equal. assert (Z0 : term n s t s' t' k = 0).
        { unfold term. destruct (Z.abs ((mm s - mm s') / 2) <=? Z.of_nat (Nat.min k (n - k)))%Z; [|reflexivity]. apply andb_false_iff in S. destruct S as [S|S].
          - assert (X : el1 s s' k = 0) by (apply E1; auto; rewrite <- sel_allowed; congruence). rewrite X. ring.
          - assert (X : el2 t t' (n - k) = 0) by (apply E2; auto; rewrite <- sel_allowed; congruence). rewrite X. ring. }
        rewrite Z0. ring.
    + destruct (sel_multipole s s' k && sel_multipole t t' (n - k)); apply IH'.
Qed.
Lemma value_ok : forall n row col, P1 (fst_ row) -> P1 (fst_ col) -> P2 (snd_ row) -> P2 (snd_ col) -> Z.Even (mm (fst_ row) - mm (fst_ col)) -> Z.Even (mm (snd_ row) - mm (snd_ col)) ->
  kappa_loop kC el1 el2 n row col (seq 1 (n - 1)) 0 = Ok (multipole kC el1 el2 (S n) (fst_ row) (snd_ row) (fst_ col) (snd_ col)).
Proof.
  intros n row col R1 R2 R3 R4 V1 V2. rewrite kappa_loop_ok; auto; [|intros k I; apply in_seq in I; lia]. f_equal. rewrite Rplus_0_l. unfold multipole.
  destruct (mm (fst_ row) + mm (snd_ row) =? mm (fst_ col) + mm (snd_ col))%Z; [|reflexivity]. replace (S n - 2)%nat with (n - 1)%nat by lia. f_equal. apply map_ext. intros k. unfold term.
  replace (S n - 1 - k)%nat with (n - k)%nat by lia. reflexivity.
Qed.

Lemma expansion_neg : forall k1 k2 q, expansion k1 k2 (- q) = expansion k1 k2 q.
Proof. intros. unfold expansion. replace (Z.of_nat k1 + - q)%Z with (Z.of_nat k1 - q)%Z by lia. replace (Z.of_nat k1 - - q)%Z with (Z.of_nat k1 + q)%Z by lia.
  replace (Z.of_nat k2 + - q)%Z with (Z.of_nat k2 - q)%Z by lia. replace (Z.of_nat k2 - - q)%Z with (Z.of_nat k2 + q)%Z by lia. do 2 f_equal. ring. Qed.
Lemma multipole_sym : forall p s t s' t', P1 s -> P1 s' -> P2 t -> P2 t' -> Z.Even (mm s - mm s') -> Z.Even (mm t - mm t') -> multipole kC el1 el2 p s' t' s t = multipole kC el1 el2 p s t s' t'.
Proof.
  intros p s t s' t' R1 R2 R3 R4 V1 V2. unfold multipole. rewrite (Z.eqb_sym (mm s' + mm t')). destruct (mm s + mm t =? mm s' + mm t')%Z eqn:M; [|reflexivity]. apply Z.eqb_eq in M.
  assert (Q : ((mm s' - mm s) / 2 = - ((mm s - mm s') / 2))%Z).
  { destruct V1 as [x Hx]. replace (mm s' - mm s)%Z with (2 * - x)%Z by lia. rewrite Hx, !(Z.mul_comm 2), !Z.div_mul by lia. reflexivity. }
  f_equal. apply map_ext. intros k. rewrite Q, Z.abs_opp, expansion_neg. destruct (Z.abs ((mm s - mm s') / 2) <=? Z.of_nat (Nat.min k (p - 1 - k)))%Z; [|reflexivity].
  destruct E1 as [_ H1], E2 as [_ H2]. rewrite (H1 s s' k R1 R2 V1), (H2 t t' (p - 1 - k)%nat R3 R4 V2).
  assert (P : Z.even ((mm t - mm t') / 2) = Z.even ((mm s - mm s') / 2)).
  { destruct V1 as [x Hx], V2 as [y Hy]. rewrite Hx, Hy, !(Z.mul_comm 2), !Z.div_mul by lia. replace y with (- x)%Z by lia. apply Z.even_opp. }
  rewrite P. destruct (Z.even ((mm s - mm s') / 2)); ring.
Qed.
End Val.
