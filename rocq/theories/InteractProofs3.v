(** Proofs for PropInteract.v: the matrices and the Hamiltonian of a step. *)
From Coq Require Import ZArith Lia Bool List Reals Lra.
Import ListNotations.
From Verif Require Import Base Matrix FieldModel BasisnamesModel BasisProofs CombineModel CombineSpec CombineProofs4 NecessaryProofs NecessarySpec InteractModel InteractSpec InteractProofs InteractProofs2.
Set Implicit Arguments.
Local Open Scope R_scope.

Lemma ofR_conj : forall x, @sconj CR (ofR x) = ofR x.
Proof. intros x. apply injective_projections; cbn; ring. Qed.
Lemma cut_spec : forall tol v, cut tol v = v \/ (cut tol v = 0 /\ Rabs v <= tol).
Proof. intros tol v. unfold cut, above. destruct (Rlt_dec tol (Rabs v)) as [H|H]; [left; reflexivity|right]. split; [reflexivity|lra]. Qed.
Lemma interaction_ok : forall kC tol el1 el2 b1 b2, elements_ok b1 el1 -> elements_ok b2 el2 -> forall start, small b1 b2 -> integer_steps b1 -> integer_steps b2 ->
  forall nec, length nec = (length (names1 b1) * length (names1 b2))%nat -> forall order,
  interaction kC tol el1 el2 order nec (build2 start b1 b2) = Ok (map (fun n => (S n, mats kC tol el1 el2 b1 b2 start nec n)) (seq 2 (Z.to_nat order - 2))).
Proof.
  intros kC tol el1 el2 b1 b2 E1 E2 start SM I1 I2 nec LN order. unfold interaction. destruct (Z.ltb_spec 2 order) as [L|L].
  - apply orders_loop_ok; auto.
  - replace (Z.to_nat order - 2)%nat with 0%nat by lia. reflexivity.
Qed.
Section E.
Variables kC tol : R.
Variables el1 el2 : one -> one -> nat -> R.
Variables b1 b2 : names_one.
Hypothesis E1 : elements_ok b1 el1.
Hypothesis E2 : elements_ok b2 el2.
Variable start : one * one.
Hypothesis SM : small b1 b2.
Hypothesis I1 : integer_steps b1.
Hypothesis I2 : integer_steps b2.
Variable nec : list bool.
Let N := (length (names1 b1) * length (names1 b2))%nat.
Hypothesis LN : length nec = N.
Let V (p r c : nat) : R := between_states (multipole kC el1 el2 p) b1 b2 r c.
Let F n := mats kC tol el1 el2 b1 b2 start nec n.
Lemma fent_at : forall n r c, (r < N)%nat -> (c < N)%nat -> at_ (fent (F n)) r c = ofR (if nth r nec false && nth c nec false then cut tol (V (S n) r c) else 0).
Proof. intros n r c Hr Hc. unfold F, mats, fent, mtrip, at_. apply tsum_epart; auto. Qed.
Lemma fbas_at : forall n r c, (r < N)%nat -> (c < N)%nat -> at_ (fbas (F n)) r c = if Nat.eqb r c && nth r nec false then @Matrix.s1 CR else @Matrix.s0 CR.
Proof. intros n r c Hr Hc. unfold F, mats, fbas, mtrip, at_. apply tsum_bpart; auto. Qed.
Lemma fent_herm : forall n, hermitian (fent (F n)).
Proof.
  intros n. unfold hermitian. split; [reflexivity|]. split; [reflexivity|]. intros r c Hr Hc. cbn in Hr, Hc. fold N in Hr, Hc. cbn [madj at_]. rewrite !fent_at by assumption. rewrite ofR_conj, (andb_comm (nth c nec false)).
  unfold V at 1. rewrite (@V_sym kC el1 el2 b1 b2 E1 E2 start SM I1 I2 (S n) c r) by assumption. reflexivity.
Qed.
Lemma change_at : forall n (B : mat CR), nr B = N -> (forall k r, (k < nc B)%nat -> (r < N)%nat -> at_ B r k <> @Matrix.s0 CR -> nth r nec false = true) ->
  meq (change_basis (F n) B) (mconj B (Mat N N (fun r c => ofR (cut tol (V (S n) r c))))).
Proof.
  intros n B HB S. assert (Z : forall k r, (k < nc B)%nat -> (r < N)%nat -> nth r nec false = false -> at_ B r k = @Matrix.s0 CR).
  { intros k r Hk Hr Nr. destruct (Req_dec (fst (at_ B r k)) 0) as [A|A]; [destruct (Req_dec (snd (at_ B r k)) 0) as [A'|A']; [apply injective_projections; assumption|]|];
    (rewrite (S k r Hk Hr) in Nr; [discriminate Nr|intros E; rewrite E in *; cbn in *; lra]). }
  assert (T : meq (mmul (madj (fbas (F n))) B) B).
  { split; [cbn; fold N; auto|]. split; [reflexivity|]. intros i k Hi Hk. cbn [mmul madj nr nc at_] in *. change (nr (fbas (F n))) with N. change (i < N)%nat in Hi. rewrite HB, Nat.min_id.
    transitivity (bsum N (fun r => smul (s := CR) (delta i r) (at_ B r k))); [|exact (@bsum_delta_l CR N i (fun r => at_ B r k) Hi)]. apply bsum_ext. intros r Hr. rewrite fbas_at by assumption. unfold delta. rewrite (Nat.eqb_sym i r).
    destruct (Nat.eqb_spec r i) as [Er|Ne]; cbn [andb].
    - subst r. destruct (nth i nec false) eqn:Ni; [|rewrite (Z k i Hk Hr Ni)]; apply injective_projections; cbn; ring.
    - apply injective_projections; cbn; ring. }
  unfold change_basis. rewrite T. unfold mconj. clear T.
  split; [reflexivity|]. split; [reflexivity|]. intros k l Hk Hl. cbn [mmul madj nr nc at_] in *. change (nc (fent (F n))) with N. change (nr (fent (F n))) with N. rewrite HB, !Nat.min_id.
  apply bsum_ext. intros c Hc. destruct (nth c nec false) eqn:Nc.
  - f_equal. apply bsum_ext. intros r Hr. rewrite fent_at by assumption. rewrite Nc, andb_true_r. destruct (nth r nec false) eqn:Nr; [reflexivity|]. rewrite (Z k r Hk Hr Nr). apply injective_projections; cbn; ring.
  - rewrite (Z l c Hl Hc Nc). apply injective_projections; cbn; ring.
Qed.
End E.

Lemma fold_madd : forall A (f : A -> mat CR) l H k j, at_ (fold_left (fun H v => madd H (f v)) l H) k j = sadd (at_ H k j) (fold_right (fun v a => sadd (at_ (f v) k j) a) (@Matrix.s0 CR) l).
Proof.
  intros A f l. induction l as [|v l IH]; intros H k j; cbn [fold_left fold_right].
  - apply injective_projections; cbn; ring.
  - rewrite IH. cbn [madd at_]. apply injective_projections; cbn; ring.
Qed.
Lemma fold_madd_dim : forall A (f : A -> mat CR) d l H, (forall v, nr (f v) = d /\ nc (f v) = d) -> nr H = d -> nc H = d ->
  nr (fold_left (fun H v => madd H (f v)) l H) = d /\ nc (fold_left (fun H v => madd H (f v)) l H) = d.
Proof. intros A f d l. induction l as [|v l IH]; intros H D R1 R2; cbn [fold_left]; [auto|]. destruct (D v) as [D1 D2]. apply IH; [exact D|cbn [madd nr nc]; rewrite ?R1, ?R2, ?D1, ?D2, ?Nat.min_id, ?Nat.max_id; reflexivity..]. Qed.
