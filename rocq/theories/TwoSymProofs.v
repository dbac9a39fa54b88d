(** Proofs about the symmetries of one entry of the interaction matrix. *)
From Coq Require Import ZArith Lia Bool Reals Lra Permutation List.
Import ListNotations.
From Verif Require Import Base FieldModel GreenModel GreenSpec GreenProofs TwoModel TwoSpec TwoProofs TwoProofs2 TwoProofs3 TwoProofs4 TwoSymSpec.
Set Implicit Arguments.
Local Open Scope R_scope.

(** ** linear maps and sums *)
Record lin (f : cx -> cx) : Prop := Lin {
  lin0 : f (0, 0) = (0, 0); linadd : forall a b, f (cadd a b) = cadd (f a) (f b);
  linscale : forall v g, f (fst v * g, snd v * g) = (fst (f v) * g, snd (f v) * g) }.
Lemma lin_conj : lin cconj.
Proof. constructor; intros; apply injective_projections; cbn; ring. Qed.
Lemma lin_times : forall s, lin (times s).
Proof. constructor; intros; apply injective_projections; cbn; ring. Qed.

Lemma gterm_lin : forall f tol isreal g odd v, lin f ->
  gterm tol isreal g odd (option_map f v) = rmap f (gterm tol isreal g odd v).
Proof.
  intros f tol isreal g odd v L. unfold gterm. destruct (Rltb tol (Rabs g)); cbn; [|rewrite (lin0 L); reflexivity].
  destruct v as [v|]; cbn; [|rewrite (lin0 L); reflexivity]. destruct (isreal && odd); cbn; [reflexivity|]. rewrite (linscale L). reflexivity.
Qed.
Lemma gterm_opp : forall tol isreal g odd v, gterm tol isreal (- g) odd v = rmap (times (-1)) (gterm tol isreal g odd v).
Proof.
  intros tol isreal g odd v. unfold gterm. rewrite Rabs_Ropp. destruct (Rltb tol (Rabs g)); cbn.
  - destruct v as [v|]; cbn; [destruct (isreal && odd); cbn; [reflexivity|]|]; f_equal; apply injective_projections; cbn; ring.
  - f_equal; apply injective_projections; cbn; ring.
Qed.
Lemma sumres_lin : forall f l, lin f -> sumres (map (rmap f) l) = rmap f (sumres l).
Proof.
  intros f l L. induction l as [|r l IH]; cbn; [rewrite (lin0 L); reflexivity|].
  destruct r as [v| |]; cbn; auto. rewrite IH. destruct (sumres l); cbn; auto. rewrite (linadd L). reflexivity.
Qed.
Lemma cplus_lin : forall f a b, lin f -> cplus (rmap f a) (rmap f b) = rmap f (cplus a b).
Proof. intros f a b L. unfold cplus. destruct a; cbn; auto. destruct b; cbn; auto. rewrite (linadd L). reflexivity. Qed.
Lemma cplus_comm : forall a b, a <> UB -> b <> UB -> cplus a b = cplus b a.
Proof. intros a b A B. unfold cplus. destruct a, b; cbn; try congruence. f_equal. apply injective_projections; cbn; ring. Qed.
Lemma gterm_noUB : forall tol isreal g odd v, gterm tol isreal g odd v <> UB.
Proof. intros. unfold gterm. destruct (Rltb _ _); [|discriminate]. destruct v; [|discriminate]. destruct (isreal && odd); discriminate. Qed.
Lemma sumres_noUB : forall l, (forall r, In r l -> r <> UB) -> sumres l <> UB.
Proof.
  induction l as [|r l IH]; cbn; intros H; [discriminate|]. assert (X := H r (or_introl eq_refl)). destruct r; try congruence.
  assert (Y : sumres l <> UB) by (apply IH; auto). destruct (sumres l); congruence.
Qed.
Lemma sumres_perm : forall l l', Permutation l l' -> (forall r, In r l -> r <> UB) -> sumres l = sumres l'.
Proof.
  intros l l' P. induction P; intros H; cbn; auto.
  - rewrite IHP by (intros; apply H; right; auto). reflexivity.
  - assert (X := H x (or_intror (or_introl eq_refl))). assert (Y := H y (or_introl eq_refl)).
    destruct x, y; try congruence; cbn; auto; destruct (sumres l); auto. f_equal. apply injective_projections; cbn; ring.
  - rewrite IHP1 by auto. apply IHP2. intros r I. apply H. eapply Permutation_in; [symmetry; exact P1|exact I].
Qed.
Lemma sumres_zero : forall l, (forall r, In r l -> r = Ok (0, 0)) -> sumres l = Ok (0, 0).
Proof.
  induction l as [|r l IH]; cbn; intros H; [reflexivity|]. rewrite (H r) by auto. rewrite IH by auto. f_equal. apply injective_projections; cbn; ring.
Qed.

(** ** entries *)
Definition ysgn (i : nat) : R := if Nat.eqb i 1 then -1 else 1.
Lemma vec_T : forall i q d, (i < 3)%nat -> vecentry i (- q) (par q * d) = option_map (Rmult (ysgn i)) (vecentry i q d).
Proof.
  intros i q d Hi. unfold vecentry, ysgn, par. destruct i as [|[|i]]; cbn [Nat.eqb].
  - rewrite Z.abs_opp. destruct (Z.eqb_spec (Z.abs q) 1) as [E|E]; cbn; [|reflexivity]. assert (X : q = 1%Z \/ q = (-1)%Z) by lia. destruct X as [->| ->]; cbn; f_equal; ring.
  - rewrite Z.abs_opp. destruct (Z.eqb_spec (Z.abs q) 1) as [E|E]; cbn; [|reflexivity]. assert (X : q = 1%Z \/ q = (-1)%Z) by lia. destruct X as [->| ->]; cbn; f_equal; ring.
  - destruct (Z.eqb_spec q 0) as [->|E]; cbn; [f_equal; ring|]. destruct (Z.eqb_spec (- q) 0); [lia|reflexivity].
Qed.
Lemma mat_T : forall j k q a b, (j < 3)%nat -> (k < 3)%nat ->
  matentry j k (- q) (par q * a) (par q * b) = ysgn j * ysgn k * matentry j k q a b.
Proof.
  intros j k q a b Hj Hk. unfold matentry, ysgn, par.
  destruct (Z.eq_dec (Z.abs q) 2) as [E2|E2]; [assert (X : q = 2%Z \/ q = (-2)%Z) by lia; destruct X as [->| ->]; destruct (idx3 _ Hj) as [->|[->| ->]], (idx3 _ Hk) as [->|[->| ->]]; cbn; ring|].
  destruct (Z.eq_dec (Z.abs q) 1) as [E1|E1]; [assert (X : q = 1%Z \/ q = (-1)%Z) by lia; destruct X as [->| ->]; destruct (idx3 _ Hj) as [->|[->| ->]], (idx3 _ Hk) as [->|[->| ->]]; cbn; ring|].
  destruct (Z.eq_dec q 0) as [->|E0]; [destruct (idx3 _ Hj) as [->|[->| ->]], (idx3 _ Hk) as [->|[->| ->]]; cbn; ring|].
  rewrite Z.abs_opp. apply Z.eqb_neq in E2, E1. assert (E0' : ((- q =? 0) = false)%Z) by (apply Z.eqb_neq; lia). apply Z.eqb_neq in E0. rewrite E2, E1, E0, E0'.
  destruct (idx3 _ Hj) as [->|[->| ->]], (idx3 _ Hk) as [->|[->| ->]]; cbn; ring.
Qed.

Definition flip (i : nat) : bool := Nat.eqb i 1.
Lemma conj_phase : forall odd v, cconj (phase odd v) = phase odd ((if odd then -1 else 1) * v).
Proof. intros [|] v; apply injective_projections; cbn; ring. Qed.
Lemma times_phase : forall s odd v, times s (phase odd v) = phase odd (s * v).
Proof. intros s [|] v; apply injective_projections; cbn; ring. Qed.
Lemma odd2 : forall i j, (i < 3)%nat -> (j < 3)%nat -> (if Nat.odd (3 * j + i) then -1 else 1) = ysgn i * ysgn j.
Proof. intros i j Hi Hj. destruct (idx3 _ Hi) as [->|[->| ->]], (idx3 _ Hj) as [->|[->| ->]]; cbn; ring. Qed.
Lemma odd3 : forall i j k, (i < 3)%nat -> (j < 3)%nat -> (k < 3)%nat -> (if Nat.odd (9 * k + 3 * j + i) then -1 else 1) = ysgn i * ysgn j * ysgn k.
Proof. intros i j k Hi Hj Hk. destruct (idx3 _ Hi) as [->|[->| ->]], (idx3 _ Hj) as [->|[->| ->]], (idx3 _ Hk) as [->|[->| ->]]; cbn; ring. Qed.
Lemma Rabs_ysgn : forall i x, Rabs (ysgn i * x) = Rabs x.
Proof. intros i x. unfold ysgn. destruct (Nat.eqb i 1); [|rewrite Rmult_1_l; reflexivity]. replace (-1 * x) with (- x) by ring. apply Rabs_Ropp. Qed.

Section T.
Variables kC tol : R.
Variables p p' : pdata.
Hypothesis TR : transposed p p'.

Lemma dd_T : forall i j, (i < 3)%nat -> (j < 3)%nat -> dd_val kC p' i j = option_map cconj (dd_val kC p i j).
Proof.
  intros i j Hi Hj. destruct TR as (Q1 & Q2 & S1 & S2 & M1 & M2). unfold dd_val. rewrite S1, S2, M1, M2, Q1, Q2, !vec_T by assumption.
  destruct (psel1 p 1 && psel2 p 1); [|reflexivity]. destruct (vecentry i (pq1 p) (pM1 p 1)) as [v|]; [|reflexivity]. destruct (vecentry j (pq2 p) (pM2 p 1)) as [w|]; [|reflexivity].
  cbn [option_map]. rewrite conj_phase, odd2 by assumption. do 2 f_equal. destruct (Nat.eqb i 1 && Nat.eqb j 1); ring.
Qed.
Lemma dq_T : forall i j k, (i < 3)%nat -> (j < 3)%nat -> (k < 3)%nat -> dq_val kC tol p' i j k = option_map cconj (dq_val kC tol p i j k).
Proof.
  intros i j k Hi Hj Hk. destruct TR as (Q1 & Q2 & S1 & S2 & M1 & M2). unfold dq_val. rewrite !S1, !S2, M1, !M2, Q1, Q2, vec_T, mat_T by assumption.
  destruct (psel1 p 1 && psel2 p 2 || psel1 p 1 && psel2 p 0); [|reflexivity]. destruct (vecentry i (pq1 p) (pM1 p 1)) as [v|]; [|reflexivity]. cbn [option_map].
  set (m := matentry j k (pq2 p) (pM2 p 2) (pM2 p 0)). replace (ysgn i * v * (ysgn j * ysgn k * m)) with (ysgn i * (ysgn j * (ysgn k * (v * m)))) by ring. rewrite !Rabs_ysgn.
  destruct (Rltb tol (Rabs (v * m))); [|reflexivity]. cbn [option_map]. rewrite conj_phase, odd3 by assumption. do 2 f_equal. match goal with |- context [if ?b then _ * -1 else _] => destruct b end; unfold Rdiv; ring.
Qed.
Lemma qd_T : forall i j k, (i < 3)%nat -> (j < 3)%nat -> (k < 3)%nat -> qd_val kC tol p' i j k = option_map cconj (qd_val kC tol p i j k).
Proof.
  intros i j k Hi Hj Hk. destruct TR as (Q1 & Q2 & S1 & S2 & M1 & M2). unfold qd_val. rewrite !S1, !S2, M2, !M1, Q1, Q2, vec_T, mat_T by assumption.
  destruct (psel1 p 2 && psel2 p 1 || psel1 p 0 && psel2 p 1); [|reflexivity]. destruct (vecentry k (pq2 p) (pM2 p 1)) as [v|]; [|reflexivity]. cbn [option_map].
  set (m := matentry i j (pq1 p) (pM1 p 2) (pM1 p 0)). replace (ysgn k * v * (ysgn i * ysgn j * m)) with (ysgn i * (ysgn j * (ysgn k * (v * m)))) by ring. rewrite !Rabs_ysgn.
  destruct (Rltb tol (Rabs (v * m))); [|reflexivity]. cbn [option_map]. rewrite conj_phase, odd3 by assumption. do 2 f_equal. match goal with |- context [if ?b then _ * -1 else _] => destruct b end; unfold Rdiv; ring.
Qed.
Lemma dd_entry_T : forall isreal G, dd_entry kC tol isreal G p' = rmap cconj (dd_entry kC tol isreal G p).
Proof.
  intros isreal G. unfold dd_entry. rewrite <- (sumres_lin _ lin_conj), map_map. f_equal. apply map_ext_in. intros [i j] I. apply in_idx2 in I. cbn [fst snd] in I. rewrite dd_T by apply I. apply gterm_lin, lin_conj.
Qed.
Lemma dq_entry_T : forall isreal G, dq_entry kC tol isreal G p' = rmap cconj (dq_entry kC tol isreal G p).
Proof.
  intros isreal G. unfold dq_entry. rewrite <- (sumres_lin _ lin_conj), map_map. f_equal. apply map_ext_in. intros [[i j] k] I. apply in_idx3s in I. cbn [fst snd] in I. rewrite dq_T by apply I. apply gterm_lin, lin_conj.
Qed.
Lemma qd_entry_T : forall isreal G, qd_entry kC tol isreal G p' = rmap cconj (qd_entry kC tol isreal G p).
Proof.
  intros isreal G. unfold qd_entry. rewrite <- (sumres_lin _ lin_conj), map_map. f_equal. apply map_ext_in. intros [[i j] k] I. apply in_idx3s in I. cbn [fst snd] in I. rewrite qd_T by apply I. apply gterm_lin, lin_conj.
Qed.
Lemma angle_key_T : forall angle q1 q2, (Z.abs q1 <= 1)%Z -> (Z.abs q2 <= 1)%Z ->
  angle_term tol angle (angle_key (- q1) (- q2)) = par (q1 + q2) * angle_term tol angle (angle_key q1 q2).
Proof.
  intros angle q1 q2 A B. assert (F : forall v, (if Rltb tol (Rabs (- v)) then - v else 0) = - (if Rltb tol (Rabs v) then v else 0)) by (intros v; rewrite Rabs_Ropp; destruct (Rltb _ _); lra).
  assert (W : -3 / sqrt 2 * sin angle * cos angle = - (3 / sqrt 2 * sin angle * cos angle)) by (unfold Rdiv; ring).
  destruct (q_cases _ A) as [->|[->| ->]], (q_cases _ B) as [->|[->| ->]]; cbn; unfold angle_term; cbn; rewrite ?W, ?F; ring.
Qed.
Lemma par_add : forall a b, par (a + b) = par a * par b.
Proof. intros a b. unfold par. rewrite Z.even_add. destruct (Z.even a), (Z.even b); cbn; ring. Qed.
Lemma par_sq : forall a, par a * par a = 1. Proof. intros a. unfold par. destruct (Z.even a); ring. Qed.
Lemma angle_entry_T : forall angle dist, lawful p -> angle_entry kC tol angle dist p' = angle_entry kC tol angle dist p.
Proof.
  intros angle dist (_ & _ & L1 & L2). destruct TR as (Q1 & Q2 & S1 & S2 & M1 & M2). unfold angle_entry. rewrite S1, S2, M1, M2, Q1, Q2.
  destruct (psel1 p 1 && psel2 p 1) eqn:E; [|reflexivity]. apply andb_true_iff in E. destruct E as [E1 E2].
  rewrite angle_key_T by (first [exact (L1 1%nat E1)|exact (L2 1%nat E2)]). rewrite par_add.
  transitivity (kC * pM1 p 1%nat * pM2 p 1%nat * angle_term tol angle (angle_key (pq1 p) (pq2 p)) * (1 / dist ^ 3) * ((par (pq1 p) * par (pq1 p)) * (par (pq2 p) * par (pq2 p)))); [ring|]. rewrite !par_sq. ring.
Qed.
Lemma mult_val_T : forall o, lawful p -> mult_val kC o p' = mult_val kC o p.
Proof.
  intros o (_ & _ & L1 & L2). destruct TR as (Q1 & Q2 & S1 & S2 & M1 & M2). unfold mult_val. rewrite Q1, Q2.
  replace (- pq1 p + - pq2 p =? 0)%Z with (pq1 p + pq2 p =? 0)%Z by (destruct (Z.eqb_spec (pq1 p + pq2 p) 0), (Z.eqb_spec (- pq1 p + - pq2 p) 0); lia || reflexivity).
  destruct (Z.eqb_spec (pq1 p + pq2 p) 0) as [E|E]; [|reflexivity]. f_equal. apply map_ext_in. intros k1 I. apply in_seq in I. set (k2 := (o - 1 - k1)%nat). rewrite S1, S2, M1, M2.
  destruct (psel1 p k1 && psel2 p k2) eqn:X; [|reflexivity]. apply andb_true_iff in X. destruct X as [X1 X2]. apply L1 in X1. apply L2 in X2.
  assert (C1 : binom_coef (k1 + k2) (Z.of_nat k1 + - pq1 p) = binom_coef (k1 + k2) (Z.of_nat k2 - pq2 p)).
  { unfold binom_coef. rewrite (pascal_step1 (k1 + k2) (Z.to_nat (Z.of_nat k2 - pq2 p))) by lia. f_equal. lia. }
  assert (C2 : binom_coef (k1 + k2) (Z.of_nat k2 - - pq2 p) = binom_coef (k1 + k2) (Z.of_nat k1 + pq1 p)).
  { unfold binom_coef. rewrite (pascal_step1 (k1 + k2) (Z.to_nat (Z.of_nat k1 + pq1 p))) by lia. f_equal. lia. }
  rewrite C1, C2. rewrite (Rmult_comm (binom_coef (k1 + k2) (Z.of_nat k2 - pq2 p))).
  transitivity (kC * (-1) ^ k2 * sqrt (binom_coef (k1 + k2) (Z.of_nat k1 + pq1 p) * binom_coef (k1 + k2) (Z.of_nat k2 - pq2 p)) * pM1 p k1 * pM2 p k2 * (par (pq1 p) * par (pq2 p))); [ring|].
  rewrite <- par_add, E. unfold par. cbn. ring.
Qed.
Lemma mult_entry_T : forall ord dist, lawful p -> mult_entry kC ord dist p' = mult_entry kC ord dist p.
Proof. intros ord dist L. unfold mult_entry. f_equal. apply map_ext. intros o. rewrite mult_val_T by assumption. reflexivity. Qed.

Lemma green_T : forall isreal g x y z, green_entry kC tol isreal g x y z p' = rmap cconj (green_entry kC tol isreal g x y z p).
Proof.
  intros isreal g x y z. unfold green_entry. destruct (negb (gtb g)); [reflexivity|]. match goal with |- context [if ?b then Throw else _] => destruct b; [reflexivity|] end.
  match goal with |- (do! G <- ?a; _) = _ => destruct a as [G| |] end; [cbn [bind]|reflexivity|reflexivity].
  destruct (Nat.leb 5 (gord g)); [reflexivity|]. rewrite dd_entry_T, dq_entry_T, qd_entry_T.
  assert (Z0 : Ok (0, 0) = rmap cconj (Ok (0, 0))) by (cbn; f_equal; apply injective_projections; cbn; ring).
  destruct (Nat.leb 3 (gord g)), (Nat.leb 4 (gord g)); rewrite <- ?(cplus_lin _ _ lin_conj); rewrite <- ?Z0; reflexivity.
Qed.
Lemma entry_T : forall isreal g, lawful p -> interaction_entry kC tol isreal g p' = rmap cconj (interaction_entry kC tol isreal g p).
Proof.
  intros isreal g L. unfold interaction_entry. assert (Z0 : Ok (0, 0) = rmap cconj (Ok (0, 0))) by (cbn; f_equal; apply injective_projections; cbn; ring).
  destruct (Reqb (gdist g) dmax); [exact Z0|].
  assert (O : forall a : res cx, a = (if negb (gtb g) then Throw else match gsurf g with Some _ => Throw | None => if Nat.leb 5 (gord g) then Throw else Ok (0, 0) end) -> a = rmap cconj a).
  { intros a ->. destruct (negb (gtb g)); [reflexivity|]. destruct (gsurf g); [reflexivity|]. destruct (Nat.leb 5 (gord g)); [reflexivity|exact Z0]. }
  destruct (gvx g) as [x|]; [|apply O; reflexivity]. destruct (gvy g) as [y|]; [|apply O; reflexivity]. destruct (gvz g) as [z|]; [|apply O; reflexivity].
  destruct (needs_green g); [apply green_T|]. destruct (negb (Reqb x 0)).
  - rewrite angle_entry_T by assumption. cbn. f_equal. apply injective_projections; cbn; ring.
  - rewrite mult_entry_T by assumption. cbn. f_equal. apply injective_projections; cbn; ring.
Qed.
End T.

(** ** Exchange of the atoms *)
Section X.
Variables kC tol : R.
Lemma dd_X : forall p i j, (i < 3)%nat -> (j < 3)%nat -> dd_val kC (swapped p) i j = dd_val kC p j i.
Proof.
  intros p i j Hi Hj. unfold dd_val. cbn [swapped psel1 psel2 pM1 pM2 pq1 pq2]. rewrite (andb_comm (psel2 p 1)). destruct (psel1 p 1 && psel2 p 1); [|reflexivity].
  destruct (vecentry i _ _) as [v|], (vecentry j _ _) as [w|]; auto. rewrite (andb_comm (Nat.eqb i 1)).
  replace (Nat.odd (3 * i + j)) with (Nat.odd (3 * j + i)) by (destruct (idx3 _ Hi) as [->|[->| ->]], (idx3 _ Hj) as [->|[->| ->]]; reflexivity).
  do 2 f_equal. destruct (Nat.eqb j 1 && Nat.eqb i 1); ring.
Qed.
Lemma dq_X : forall p i j k, (i < 3)%nat -> (j < 3)%nat -> (k < 3)%nat -> dq_val kC tol (swapped p) i j k = qd_val kC tol p j k i.
Proof.
  intros p i j k Hi Hj Hk. unfold dq_val, qd_val. cbn [swapped psel1 psel2 pM1 pM2 pq1 pq2]. rewrite !(andb_comm (psel2 p 1)). destruct (psel1 p 2 && psel2 p 1 || psel1 p 0 && psel2 p 1); [|reflexivity].
  destruct (vecentry i _ _) as [v|]; auto. destruct (Rltb _ _); auto.
  replace (Nat.odd (9 * i + 3 * k + j)) with (Nat.odd (9 * k + 3 * j + i)) by (destruct (idx3 _ Hi) as [->|[->| ->]], (idx3 _ Hj) as [->|[->| ->]], (idx3 _ Hk) as [->|[->| ->]]; reflexivity).
  reflexivity.
Qed.
Lemma qd_X : forall p i j k, (i < 3)%nat -> (j < 3)%nat -> (k < 3)%nat -> qd_val kC tol (swapped p) i j k = dq_val kC tol p k i j.
Proof.
  intros p i j k Hi Hj Hk. unfold dq_val, qd_val. cbn [swapped psel1 psel2 pM1 pM2 pq1 pq2]. rewrite (andb_comm (psel2 p 2)), (andb_comm (psel2 p 0)). destruct (psel1 p 1 && psel2 p 2 || psel1 p 1 && psel2 p 0); [|reflexivity].
  destruct (vecentry k _ _) as [v|]; auto. destruct (Rltb _ _); auto.
  replace (Nat.odd (9 * j + 3 * i + k)) with (Nat.odd (9 * k + 3 * j + i)) by (destruct (idx3 _ Hi) as [->|[->| ->]], (idx3 _ Hj) as [->|[->| ->]], (idx3 _ Hk) as [->|[->| ->]]; reflexivity).
  reflexivity.
Qed.
Definition rot3 (t : nat * nat * nat) : nat * nat * nat := let '(i, j, k) := t in (j, k, i).
Lemma idx2_swap : Permutation (map (fun t => (snd t, fst t)) idx2) idx2.
Proof.
  apply NoDup_Permutation.
  - vm_compute. repeat constructor; cbn; intuition congruence.
  - vm_compute. repeat constructor; cbn; intuition congruence.
  - intros [a b]. vm_compute. intuition.
Qed.
Lemma idx3_rot : Permutation (map rot3 idx3s) idx3s.
Proof.
  apply NoDup_Permutation.
  - vm_compute. repeat constructor; cbn; intuition congruence.
  - vm_compute. repeat constructor; cbn; intuition congruence.
  - intros [[a b] c]. vm_compute. intuition.
Qed.
Lemma dd_entry_X : forall isreal G p, (forall i j, G i j = G j i) -> dd_entry kC tol isreal G (swapped p) = dd_entry kC tol isreal G p.
Proof.
  intros isreal G p S. unfold dd_entry. transitivity (sumres (map (fun ij => let '(i1, i2) := ij in gterm tol isreal (G i1 i2) (Nat.odd (3 * i2 + i1)) (dd_val kC p i1 i2)) (map (fun t => (snd t, fst t)) idx2))).
  - rewrite map_map. f_equal. apply map_ext_in. intros [i j] I. apply in_idx2 in I. cbn [fst snd] in *. destruct I as [Hi Hj]. rewrite dd_X, (S j i) by assumption.
    replace (Nat.odd (3 * i + j)) with (Nat.odd (3 * j + i)) by (destruct (idx3 _ Hi) as [->|[->| ->]], (idx3 _ Hj) as [->|[->| ->]]; reflexivity). reflexivity.
  - apply sumres_perm; [apply Permutation_map, idx2_swap|]. intros r I. apply in_map_iff in I. destruct I as ([a b] & <- & _). apply gterm_noUB.
Qed.
Lemma dq_entry_X : forall isreal D Q p, (forall i j k, D i j k = - Q j k i) -> dq_entry kC tol isreal D (swapped p) = rmap (times (-1)) (qd_entry kC tol isreal Q p).
Proof.
  intros isreal D Q p S. unfold dq_entry, qd_entry. rewrite <- (sumres_lin _ (lin_times (-1))), map_map.
  set (f := fun ijk : nat * nat * nat => rmap (times (-1)) (let '(i1, i2, i3) := ijk in gterm tol isreal (Q i1 i2 i3) (Nat.odd (9 * i3 + 3 * i2 + i1)) (qd_val kC tol p i1 i2 i3))).
  transitivity (sumres (map f (map rot3 idx3s))).
  - rewrite map_map. f_equal. apply map_ext_in. intros [[i j] k] I. apply in_idx3s in I. cbn [fst snd] in *. destruct I as (Hi & Hj & Hk). rewrite dq_X, S, gterm_opp by assumption. unfold f, rot3. do 2 f_equal.
    destruct (idx3 _ Hi) as [->|[->| ->]], (idx3 _ Hj) as [->|[->| ->]], (idx3 _ Hk) as [->|[->| ->]]; reflexivity.
  - apply sumres_perm; [apply Permutation_map, idx3_rot|]. intros r I. apply in_map_iff in I. destruct I as ([[a b] c] & <- & _). unfold f. pose proof (gterm_noUB tol isreal (Q a b c) (Nat.odd (9 * c + 3 * b + a)) (qd_val kC tol p a b c)) as N. destruct (gterm tol isreal (Q a b c) _ _); cbn; congruence.
Qed.
Lemma qd_entry_X : forall isreal D Q p, (forall i j k, Q i j k = - D k i j) -> qd_entry kC tol isreal Q (swapped p) = rmap (times (-1)) (dq_entry kC tol isreal D p).
Proof.
  intros isreal D Q p S. unfold dq_entry, qd_entry. rewrite <- (sumres_lin _ (lin_times (-1))), map_map. symmetry.
  set (f := fun ijk : nat * nat * nat => let '(i1, i2, i3) := ijk in gterm tol isreal (Q i1 i2 i3) (Nat.odd (9 * i3 + 3 * i2 + i1)) (qd_val kC tol (swapped p) i1 i2 i3)).
  transitivity (sumres (map f (map rot3 idx3s))).
  - rewrite map_map. f_equal. apply map_ext_in. intros [[i j] k] I. apply in_idx3s in I. cbn [fst snd] in *. destruct I as (Hi & Hj & Hk). unfold f, rot3. rewrite qd_X, S, gterm_opp by assumption. do 2 f_equal.
    destruct (idx3 _ Hi) as [->|[->| ->]], (idx3 _ Hj) as [->|[->| ->]], (idx3 _ Hk) as [->|[->| ->]]; reflexivity.
  - apply sumres_perm; [apply Permutation_map, idx3_rot|]. intros r I. apply in_map_iff in I. destruct I as ([[a b] c] & <- & _). apply gterm_noUB.
Qed.
Lemma angle_entry_X : forall angle dist p, angle_entry kC tol angle dist (swapped p) = angle_entry kC tol angle dist p.
Proof.
  intros angle dist p. unfold angle_entry. cbn [swapped psel1 psel2 pM1 pM2 pq1 pq2]. rewrite (andb_comm (psel2 p 1)). destruct (psel1 p 1 && psel2 p 1); [|reflexivity].
  replace (angle_key (pq2 p) (pq1 p)) with (angle_key (pq1 p) (pq2 p)); [ring|]. unfold angle_key. destruct (Z.ltb_spec (pq1 p) (pq2 p)), (Z.ltb_spec (pq2 p) (pq1 p)); try lia.
Qed.

Definition rsum (f : nat -> R) (l : list nat) : R := fold_right Rplus 0 (map f l).
Lemma rsum_rev : forall n f a, rsum f (seq a n) = rsum (fun k => f (2 * a + n - 1 - k)%nat) (seq a n).
Proof.
  intros n f a. unfold rsum. transitivity (fold_right Rplus 0 (rev (map f (seq a n)))).
  - generalize (map f (seq a n)). intros xs. assert (A : forall xs ys, fold_right Rplus 0 (xs ++ ys) = fold_right Rplus 0 xs + fold_right Rplus 0 ys) by (intros us ys; induction us as [|u us IH]; cbn; [ring|rewrite IH; ring]).
    induction xs as [|x xs IH]; cbn; [reflexivity|]. rewrite A, IH. cbn. ring.
  - f_equal. rewrite <- map_rev. revert a. induction n as [|n IH]; intros a; [reflexivity|].
    rewrite seq_S at 1. rewrite rev_app_distr. cbn [rev app map]. rewrite (IH a). replace (seq a (S n)) with (a :: seq (S a) n) by reflexivity. cbn [map]. f_equal; [f_equal; lia|].
    rewrite <- (seq_shift n a), map_map. apply map_ext. intros k. f_equal. lia.
Qed.
Lemma pow_par : forall k, (-1) ^ k = par (Z.of_nat k).
Proof.
  induction k as [|k IH]; [reflexivity|]. rewrite Nat2Z.inj_succ, <- Z.add_1_r, par_add, <- IH. cbn. unfold par. cbn. ring.
Qed.
Lemma par_even : forall z, Z.even z = true -> par z = 1. Proof. intros z E. unfold par. rewrite E. reflexivity. Qed.

Lemma mult_val_X : forall o p l1 l2, lawful p -> parity_law p l1 l2 -> mult_val kC o (swapped p) = par (l1 + l2) * mult_val kC o p.
Proof.
  intros o p l1 l2 (_ & _ & L1 & L2) (P1 & P2). unfold mult_val. cbn [swapped psel1 psel2 pM1 pM2 pq1 pq2]. rewrite (Z.add_comm (pq2 p)).
  destruct (Z.eqb_spec (pq1 p + pq2 p) 0) as [E|E]; [|ring].
  set (f := fun k1 => if psel2 p k1 && psel1 p (o - 1 - k1)%nat then kC * (-1) ^ (o - 1 - k1) * sqrt (binom_coef (k1 + (o - 1 - k1)) (Z.of_nat k1 + pq2 p) * binom_coef (k1 + (o - 1 - k1)) (Z.of_nat (o - 1 - k1) - pq1 p)) * pM2 p k1 * pM1 p (o - 1 - k1)%nat else 0).
  change (rsum f (seq 1 (o - 2)) = par (l1 + l2) * rsum (fun k1 => if psel1 p k1 && psel2 p (o - 1 - k1)%nat then kC * (-1) ^ (o - 1 - k1) * sqrt (binom_coef (k1 + (o - 1 - k1)) (Z.of_nat k1 + pq1 p) * binom_coef (k1 + (o - 1 - k1)) (Z.of_nat (o - 1 - k1) - pq2 p)) * pM1 p k1 * pM2 p (o - 1 - k1)%nat else 0) (seq 1 (o - 2))).
  rewrite rsum_rev. assert (SC : forall x h l, x * rsum h l = rsum (fun k => x * h k) l) by (intros x h xs; unfold rsum; induction xs as [|y xs IH]; cbn; [ring|rewrite <- IH; ring]). rewrite SC.
  unfold rsum. f_equal. apply map_ext_in. intros k I. apply in_seq in I. unfold f. replace (2 * 1 + (o - 2) - 1 - k)%nat with (o - 1 - k)%nat by lia. set (k2 := (o - 1 - k)%nat). replace (o - 1 - k2)%nat with k by (unfold k2; lia).
  rewrite andb_comm. destruct (psel1 p k && psel2 p k2) eqn:X; [|ring]. apply andb_true_iff in X. destruct X as [X1 X2]. pose proof (L1 _ X1). pose proof (L2 _ X2). apply P1 in X1. apply P2 in X2.
  assert (C1 : binom_coef (k2 + k) (Z.of_nat k - pq1 p) = binom_coef (k + k2) (Z.of_nat k2 - pq2 p)).
  { unfold binom_coef. rewrite (Nat.add_comm k2 k), (pascal_step1 (k + k2) (Z.to_nat (Z.of_nat k2 - pq2 p))) by lia. f_equal. lia. }
  assert (C2 : binom_coef (k2 + k) (Z.of_nat k2 + pq2 p) = binom_coef (k + k2) (Z.of_nat k + pq1 p)).
  { unfold binom_coef. rewrite (Nat.add_comm k2 k), (pascal_step1 (k + k2) (Z.to_nat (Z.of_nat k + pq1 p))) by lia. f_equal. lia. }
  rewrite C1, C2. rewrite !pow_par. apply par_even in X1, X2. rewrite par_add in X1, X2 |- *.
  assert (W : par (Z.of_nat k) = par l1) by (transitivity (par (Z.of_nat k) * (par l1 * par l1)); [rewrite par_sq; ring|rewrite <- Rmult_assoc, X1; ring]).
  assert (W2 : par (Z.of_nat k2) = par l2) by (transitivity (par (Z.of_nat k2) * (par l2 * par l2)); [rewrite par_sq; ring|rewrite <- Rmult_assoc, X2; ring]).
  rewrite W, W2. transitivity (par l1 * (par l2 * par l2) * (kC * sqrt (binom_coef (k + k2) (Z.of_nat k + pq1 p) * binom_coef (k + k2) (Z.of_nat k2 - pq2 p)) * pM1 p k * pM2 p k2)); [rewrite par_sq|]; ring.
Qed.
Lemma mult_entry_X : forall ord dist p l1 l2, lawful p -> parity_law p l1 l2 -> mult_entry kC ord dist (swapped p) = par (l1 + l2) * mult_entry kC ord dist p.
Proof.
  intros ord dist p l1 l2 L P. unfold mult_entry. induction (seq 3 (ord - 2)) as [|o xs IH]; cbn [map fold_right]; [ring|]. rewrite (@mult_val_X o p l1 l2 L P), IH. ring.
Qed.
End X.
