(** Proofs about the symmetries of one entry of the interaction matrix, continued: reflection of all geometries, rotation. *)
From Coq Require Import ZArith Lia Bool Reals Lra Permutation List.
Import ListNotations.
From Verif Require Import Base FieldModel GreenModel GreenSpec GreenProofs TwoModel TwoSpec TwoProofs TwoProofs2 TwoProofs3 TwoProofs4 TwoSymSpec TwoSymProofs TwoSymProofs2.
Set Implicit Arguments.
Local Open Scope R_scope.

Ltac bash3 := match goal with H : (?i < 3)%nat |- _ => destruct (idx3 _ H) as [->|[->| ->]]; clear H end.
Lemma DD_y : forall x z i j, (i < 3)%nat -> (j < 3)%nat -> ysgn i * ysgn j = -1 -> DDvac x 0 z i j = 0.
Proof. intros x z i j Hi Hj E. repeat bash3; cbn in E; try lra; unfold DDvac; cbn; unfold Rdiv; ring. Qed.
Lemma DQ_y : forall x z i j k, (i < 3)%nat -> (j < 3)%nat -> (k < 3)%nat -> ysgn i * ysgn j * ysgn k = -1 -> DQvac x 0 z i j k = 0.
Proof. intros x z i j k Hi Hj Hk E. repeat bash3; cbn in E; try lra; unfold DQvac; cbn; unfold Rdiv; ring. Qed.
Lemma DDp_y : forall x a b i j, (i < 3)%nat -> (j < 3)%nat -> ysgn i * ysgn j = -1 -> DDplate x a b i j = 0.
Proof. intros x a b i j Hi Hj E. repeat bash3; cbn in E; try lra; unfold DDplate; cbn; unfold Rdiv; ring. Qed.
Lemma DQp_y : forall x a b i j k, (i < 3)%nat -> (j < 3)%nat -> (k < 3)%nat -> ysgn i * ysgn j * ysgn k = -1 -> DQplate x a b i j k = 0.
Proof. intros x a b i j k Hi Hj Hk E. repeat bash3; cbn in E; try lra; unfold DQplate; cbn; unfold Rdiv; ring. Qed.
Lemma QDp_y : forall x a b i j k, (i < 3)%nat -> (j < 3)%nat -> (k < 3)%nat -> ysgn i * ysgn j * ysgn k = -1 -> QDplate x a b i j k = 0.
Proof. intros x a b i j k Hi Hj Hk E. repeat bash3; cbn in E; try lra; unfold QDplate; cbn; unfold Rdiv; ring. Qed.

Section R.
Variables kC tol : R.
Hypothesis T0 : 0 <= tol.
Variables p p' : pdata.
Variables f1 f2 : R.
Hypothesis F1 : f1 = 1 \/ f1 = -1.
Hypothesis F2 : f2 = 1 \/ f2 = -1.
Hypothesis RD : reflected_data p p' f1 f2.
Hypothesis L : lawful p.
Let s := f1 * f2 * par (pq1 p + pq2 p).

Lemma plate_y : forall x z d G, addSurface d (newGreen x 0 z) = (G, Ok tt) -> exists a b, G = Green x 0 z (Some (a, b)) None None None.
Proof.
  intros x z d G E. unfold addSurface in E. cbn [newGreen g_y g_x g_z g_dd g_dq g_qd] in E. destruct (Req_EM_T 0 0); [|discriminate E].
  destruct (Rlt_dec _ 0); [discriminate E|]. destruct (Rlt_dec _ 0); [discriminate E|]. injection E as <-. eauto.
Qed.
Lemma green_R : forall isreal g x z, green_entry kC tol isreal g x 0 z p' = rmap (times s) (green_entry kC tol isreal g x 0 z p).
Proof.
  intros isreal g x z. unfold green_entry. destruct (negb (gtb g)); [reflexivity|].
  match goal with |- context [if ?b then Throw else _] => destruct b; [reflexivity|] end.
  assert (L0 := lin_times s).
  assert (K : forall G, (exists pl, G = Green x 0 z pl None None None) ->
    cplus (if Nat.leb 3 (gord g) then dd_entry kC tol isreal (calcDD G) p' else Ok (0, 0)) (if Nat.leb 4 (gord g) then cplus (dq_entry kC tol isreal (calcDQ G) p') (qd_entry kC tol isreal (calcQD G) p') else Ok (0, 0)) =
    rmap (times s) (cplus (if Nat.leb 3 (gord g) then dd_entry kC tol isreal (calcDD G) p else Ok (0, 0)) (if Nat.leb 4 (gord g) then cplus (dq_entry kC tol isreal (calcDQ G) p) (qd_entry kC tol isreal (calcQD G) p) else Ok (0, 0)))).
  { intros G (pl & ->). unfold s.
    rewrite (@dd_entry_R kC tol T0 p p' f1 f2 RD), (@dq_entry_R kC tol T0 p p' f1 f2 F1 F2 RD), (@qd_entry_R kC tol T0 p p' f1 f2 F1 F2 RD).
    - fold s. destruct (Nat.leb 3 (gord g)), (Nat.leb 4 (gord g)); rewrite <- ?(cplus_lin _ _ L0), ?(rmap_zero L0); reflexivity.
    - intros i j k Hi Hj Hk E. unfold calcQD. cbn [g_plate g_x g_y g_z]. assert (V : QDvac x 0 z i j k = 0) by (assert (H := DQ_y x z Hi Hj Hk E); rewrite dq_is_minus_qd in H; lra).
      destruct pl as [[a b]|]; [|exact V]. unfold add3. rewrite V, (QDp_y x a b Hi Hj Hk E). ring.
    - intros i j k Hi Hj Hk E. unfold calcDQ. cbn [g_plate g_x g_y g_z]. destruct pl as [[a b]|]; [|apply DQ_y; assumption]. unfold add3. rewrite (DQ_y x z Hi Hj Hk E), (DQp_y x a b Hi Hj Hk E). ring.
    - intros i j Hi Hj E. unfold calcDD. cbn [g_plate g_x g_y g_z]. destruct pl as [[a b]|]; [|apply DD_y; assumption]. unfold add2. rewrite (DD_y x z Hi Hj E), (DDp_y x a b Hi Hj E). ring. }
  destruct (gsurf g) as [d|].
  - destruct (addSurface d (newGreen x 0 z)) as [G r] eqn:A. destruct r as [[]| |]; cbn [bind]; [|reflexivity|reflexivity]. destruct (Nat.leb 5 (gord g)); [reflexivity|]. apply K. destruct (plate_y _ _ _ A) as (a & b & ->). eauto.
  - cbn [bind]. destruct (Nat.leb 5 (gord g)); [reflexivity|]. apply K. exists None. reflexivity.
Qed.
Lemma angle_entry_R : forall angle dist, angle_entry kC tol angle dist p' = s * angle_entry kC tol angle dist p.
Proof.
  intros angle dist. destruct RD as (Q1 & Q2 & S1 & S2 & M1 & M2). destruct L as (_ & _ & L1 & L2). unfold angle_entry. rewrite S1, S2, M1, M2, Q1, Q2.
  destruct (psel1 p 1 && psel2 p 1) eqn:E; [|ring]. apply andb_true_iff in E. destruct E as [E1 E2].
  rewrite angle_key_T by (first [exact (L1 1%nat E1)|exact (L2 1%nat E2)]). unfold s. ring.
Qed.
Lemma mult_entry_R : forall ord dist, mult_entry kC ord dist p' = s * mult_entry kC ord dist p.
Proof.
  intros ord dist. unfold mult_entry. induction (seq 3 (ord - 2)) as [|o xs IH]; cbn [map fold_right]; [ring|]. rewrite IH, Rmult_plus_distr_l. f_equal. clear IH xs. rewrite <- Rmult_assoc. f_equal.
  (* mult_val: reflection is transposition with another factor *)
  pose (pt := PData (- pq1 p) (- pq2 p) (psel1 p) (psel2 p) (fun k => par (pq1 p) * pM1 p k) (fun k => par (pq2 p) * pM2 p k)).
  assert (TR : transposed p pt) by (repeat split).
  rewrite <- (@mult_val_T kC p pt TR o L). unfold mult_val, pt, s. cbn [pq1 pq2 psel1 psel2 pM1 pM2]. destruct RD as (Q1 & Q2 & S1 & S2 & M1 & M2). rewrite Q1, Q2.
  destruct (- pq1 p + - pq2 p =? 0)%Z; [|ring]. set (xs := seq 1 (o - 2)). clearbody xs. induction xs as [|k xs IH]; cbn [map fold_right]; [ring|]. rewrite IH, Rmult_plus_distr_l. f_equal. clear IH.
  rewrite S1, S2, M1, M2. destruct (psel1 p k && psel2 p (o - 1 - k)%nat); [|ring]. rewrite par_add.
  match goal with |- ?a = ?b => transitivity (a * ((par (pq1 p) * par (pq1 p)) * (par (pq2 p) * par (pq2 p)))); [rewrite !par_sq; ring|ring] end.
Qed.
Lemma entry_R : forall isreal g, gvy g = Some 0 ->
  interaction_entry kC tol isreal g p' = rmap (times s) (interaction_entry kC tol isreal g p).
Proof.
  intros isreal g Y. assert (L0 := lin_times s). unfold interaction_entry. rewrite Y.
  destruct (Reqb (gdist g) dmax); [symmetry; apply rmap_zero, L0|].
  assert (O : forall a : res cx, a = (if negb (gtb g) then Throw else match gsurf g with Some _ => Throw | None => if Nat.leb 5 (gord g) then Throw else Ok (0, 0) end) -> a = rmap (times s) a).
  { intros a ->. destruct (negb (gtb g)); [reflexivity|]. destruct (gsurf g); [reflexivity|]. destruct (Nat.leb 5 (gord g)); [reflexivity|]. symmetry; apply rmap_zero, L0. }
  destruct (gvx g) as [x|]; [|apply O; reflexivity]. destruct (gvz g) as [z|]; [|apply O; reflexivity].
  destruct (needs_green g); [apply green_R|]. destruct (negb (Reqb x 0)); [rewrite angle_entry_R|rewrite mult_entry_R]; cbn; f_equal; apply injective_projections; cbn; ring.
Qed.
End R.

(** ** Rotation about the z axis *)
Section Rot.
Variables kC tol : R.
Hypothesis T0 : 0 <= tol.
Variable p : pdata.
Hypothesis L : lawful p.
Hypothesis NM : (pq1 p + pq2 p <> 0)%Z.

Lemma sumres_cons0 : forall l, sumres (Ok (0, 0) :: l) = sumres l.
Proof. intros l. cbn. destruct (sumres l); auto. f_equal. apply injective_projections; cbn; ring. Qed.
(** two terms that cancel *)
Lemma gterm_cancel : forall isreal g v, exists a, gterm tol isreal g false (Some v) = Ok a /\ gterm tol isreal g false (Some (times (-1) v)) = Ok (times (-1) a).
Proof.
  intros isreal g v. unfold gterm. destruct (Rltb tol (Rabs g)); rewrite ?andb_false_r; eexists; (split; [reflexivity|]); f_equal; apply injective_projections; cbn; ring.
Qed.
Lemma gterm0 : forall isreal odd v, gterm tol isreal 0 odd v = Ok (0, 0).
Proof. intros. apply gterm_0. exact T0. Qed.

Lemma dd_rot : forall isreal (G : mat3), (forall i j, (i < 3)%nat -> (j < 3)%nat -> i <> j -> G i j = 0) -> G 0%nat 0%nat = G 1%nat 1%nat ->
  dd_entry kC tol isreal G p = Ok (0, 0).
Proof.
  intros isreal G D E. unfold dd_entry. change idx2 with [(0,0);(0,1);(0,2);(1,0);(1,1);(1,2);(2,0);(2,1);(2,2)]%nat. cbn [map].
  rewrite (D 0 1)%nat, (D 0 2)%nat, (D 1 0)%nat, (D 1 2)%nat, (D 2 0)%nat, (D 2 1)%nat, !gterm0 by (lia || discriminate). rewrite <- E.
  unfold dd_val. destruct (psel1 p 1 && psel2 p 1) eqn:X; [|rewrite !gterm_none; cbn; f_equal; apply injective_projections; cbn; ring].
  apply andb_true_iff in X. destruct X as [X1 X2]. destruct L as (_ & _ & L1 & L2). apply L1 in X1. apply L2 in X2. change (Z.of_nat 1) with 1%Z in *.
  assert (Z2 : (match vecentry 2 (pq1 p) (pM1 p 1) with Some v1 => match vecentry 2 (pq2 p) (pM2 p 1) with Some v2 => Some (phase (Nat.odd (3 * 2 + 2)) (let val := - kC * v1 * v2 in if Nat.eqb 2 1 && Nat.eqb 2 1 then val * -1 else val)) | None => None end | None => None end) = None).
  { cbn [vecentry]. destruct (Z.eqb_spec (pq1 p) 0), (Z.eqb_spec (pq2 p) 0); auto. lia. }
  cbn [vecentry]. destruct (Z.eqb_spec (pq1 p) 0) as [Q1|Q1].
  - destruct (Z.eqb_spec (pq2 p) 0) as [Q2|Q2]; [lia|]. rewrite Q1. cbn [Z.abs Z.eqb]. rewrite !gterm_none. cbn. f_equal. apply injective_projections; cbn; ring.
  - rewrite !gterm_none. destruct (Z.eqb_spec (Z.abs (pq1 p)) 1) as [A1|A1]; [|lia]. destruct (Z.eqb_spec (Z.abs (pq2 p)) 1) as [A2|A2]; [|rewrite !gterm_none; cbn; f_equal; apply injective_projections; cbn; ring].
    cbn [Nat.eqb andb Nat.odd Nat.mul Nat.add Nat.even negb]. change (Nat.odd (3 * 0 + 0)) with false. change (Nat.odd (3 * 1 + 1)) with false. unfold phase.
    match goal with |- context [gterm tol isreal (G 0 0)%nat false (Some ?u)] => destruct (gterm_cancel isreal (G 0 0)%nat u) as (a & A & B); rewrite A;
      match goal with |- context [gterm tol isreal (G 0 0)%nat false (Some ?w)] => replace w with (times (-1) u) by (apply injective_projections; cbn; destruct (Z.eqb_spec (pq1 p) 1), (Z.eqb_spec (pq2 p) 1); try lia; ring); rewrite B end end.
    cbn. f_equal. apply injective_projections; cbn; ring.
Qed.

Definition axial (G : ten3) : Prop :=
  (forall i j k, (i < 3)%nat -> (j < 3)%nat -> (k < 3)%nat -> ~ In (i, j, k) [(0,0,2);(0,2,0);(2,0,0);(1,1,2);(1,2,1);(2,1,1);(2,2,2)]%nat -> G i j k = 0) /\
  G 0%nat 0%nat 2%nat = G 1%nat 1%nat 2%nat /\ G 0%nat 2%nat 0%nat = G 1%nat 2%nat 1%nat /\ G 2%nat 0%nat 0%nat = G 2%nat 1%nat 1%nat.

Lemma cancel_opt : forall isreal g v w, w = option_map (times (-1)) v -> exists a, gterm tol isreal g false v = Ok a /\ gterm tol isreal g false w = Ok (times (-1) a).
Proof.
  intros isreal g [v|] w ->; [apply gterm_cancel|]. cbn [option_map]. rewrite gterm_none. exists (0, 0). split; [reflexivity|]. f_equal. apply injective_projections; cbn; ring.
Qed.
Lemma seven : forall isreal (f : nat -> nat -> nat -> option cx) (G : ten3), axial G ->
  (f 1 1 2)%nat = option_map (times (-1)) (f 0 0 2)%nat -> (f 1 2 1)%nat = option_map (times (-1)) (f 0 2 0)%nat -> (f 2 1 1)%nat = option_map (times (-1)) (f 2 0 0)%nat -> (f 2 2 2)%nat = None ->
  sumres (map (fun ijk => let '(i1, i2, i3) := ijk in gterm tol isreal (G i1 i2 i3) (Nat.odd (9 * i3 + 3 * i2 + i1)) (f i1 i2 i3)) idx3s) = Ok (0, 0).
Proof.
  intros isreal f G (Z & E1 & E2 & E3) A B C D.
  change idx3s with [(0,0,0);(0,0,1);(0,0,2);(0,1,0);(0,1,1);(0,1,2);(0,2,0);(0,2,1);(0,2,2);(1,0,0);(1,0,1);(1,0,2);(1,1,0);(1,1,1);(1,1,2);(1,2,0);(1,2,1);(1,2,2);(2,0,0);(2,0,1);(2,0,2);(2,1,0);(2,1,1);(2,1,2);(2,2,0);(2,2,1);(2,2,2)]%nat. cbn [map].
  rewrite (Z 0 0 0)%nat, (Z 0 0 1)%nat, (Z 0 1 0)%nat, (Z 0 1 1)%nat, (Z 0 1 2)%nat, (Z 0 2 1)%nat, (Z 0 2 2)%nat, (Z 1 0 0)%nat, (Z 1 0 1)%nat, (Z 1 0 2)%nat, (Z 1 1 0)%nat, (Z 1 1 1)%nat, (Z 1 2 0)%nat, (Z 1 2 2)%nat, (Z 2 0 1)%nat, (Z 2 0 2)%nat, (Z 2 1 0)%nat, (Z 2 1 2)%nat, (Z 2 2 0)%nat, (Z 2 2 1)%nat, !gterm0 by (try lia; cbn; intuition discriminate).
  rewrite <- E1, <- E2, <- E3, D, gterm_none. clear Z E1 E2 E3 D.
  change (Nat.odd (9 * 2 + 3 * 0 + 0)) with false. change (Nat.odd (9 * 2 + 3 * 1 + 1)) with false. change (Nat.odd (9 * 0 + 3 * 2 + 0)) with false. change (Nat.odd (9 * 1 + 3 * 2 + 1)) with false. change (Nat.odd (9 * 0 + 3 * 0 + 2)) with false. change (Nat.odd (9 * 1 + 3 * 1 + 2)) with false.
  destruct (cancel_opt isreal (G 0 0 2)%nat _ A) as (a & A1 & A2). destruct (cancel_opt isreal (G 0 2 0)%nat _ B) as (b & B1 & B2). destruct (cancel_opt isreal (G 2 0 0)%nat _ C) as (c & C1 & C2).
  rewrite A1, A2, B1, B2, C1, C2. cbn. f_equal. apply injective_projections; cbn; ring.
Qed.

Lemma cases12 : forall q r : Z, (Z.abs q <= 1 -> Z.abs r <= 2 -> q + r <> 0 ->
  (q = 0 /\ (r = 1 \/ r = -1 \/ r = 2 \/ r = -2)) \/ (q = 1 /\ (r = 0 \/ r = 1 \/ r = 2 \/ r = -2)) \/ (q = -1 /\ (r = 0 \/ r = -1 \/ r = 2 \/ r = -2)))%Z.
Proof. intros. lia. Qed.
Lemma no_zero : forall v, Rltb tol (Rabs (v * 0)) = false.
Proof. intros v. rewrite Rmult_0_r, Rabs_R0. apply Rltb_false. exact T0. Qed.
Lemma same_abs : forall a b, a = b \/ a = - b -> Rltb tol (Rabs a) = Rltb tol (Rabs b).
Proof. intros a b [->| ->]; rewrite ?Rabs_Ropp; reflexivity. Qed.

Ltac axcases := cbn [Z.eqb Z.abs Pos.eqb vecentry matentry Nat.eqb andb orb negb Nat.odd Nat.mul Nat.add Nat.even option_map]; rewrite ?no_zero;
  first [reflexivity |
  match goal with |- (if Rltb tol (Rabs ?a) then _ else _) = option_map _ (if Rltb tol (Rabs ?b) then _ else _) =>
    rewrite (@same_abs a b) by (first [left; ring|right; ring]); destruct (Rltb tol (Rabs b)); [cbn [option_map]; f_equal; apply injective_projections; cbn; unfold Rdiv; ring|reflexivity] end].

Lemma dq_rot : forall isreal G, axial G -> dq_entry kC tol isreal G p = Ok (0, 0).
Proof.
  intros isreal G AX. unfold dq_entry. destruct (psel1 p 1 && psel2 p 2 || psel1 p 1 && psel2 p 0) eqn:X.
  2:{ apply sumres_zero. intros r I. apply in_map_iff in I. destruct I as ([[i j] k] & <- & _). unfold dq_val. rewrite X. apply gterm_none. }
  assert (Q : (Z.abs (pq1 p) <= 1 /\ Z.abs (pq2 p) <= 2)%Z).
  { destruct L as (_ & _ & L1 & L2). apply orb_true_iff in X. rewrite !andb_true_iff in X. destruct X as [[A B]|[A B]]; apply L1 in A; apply L2 in B; lia. }
  apply seven; auto; unfold dq_val; rewrite X; destruct (cases12 _ _ (proj1 Q) (proj2 Q) NM) as [[-> R]|[[-> R]|[-> R]]]; destruct R as [->|[->|[->| ->]]]; axcases.
Qed.
Lemma qd_rot : forall isreal G, axial G -> qd_entry kC tol isreal G p = Ok (0, 0).
Proof.
  intros isreal G AX. unfold qd_entry. destruct (psel1 p 2 && psel2 p 1 || psel1 p 0 && psel2 p 1) eqn:X.
  2:{ apply sumres_zero. intros r I. apply in_map_iff in I. destruct I as ([[i j] k] & <- & _). unfold qd_val. rewrite X. apply gterm_none. }
  assert (Q : (Z.abs (pq2 p) <= 1 /\ Z.abs (pq1 p) <= 2 /\ pq2 p + pq1 p <> 0)%Z).
  { destruct L as (_ & _ & L1 & L2). apply orb_true_iff in X. rewrite !andb_true_iff in X. destruct X as [[A B]|[A B]]; apply L1 in A; apply L2 in B; lia. }
  apply seven; auto; unfold qd_val; rewrite X; destruct (cases12 _ _ (proj1 Q) (proj1 (proj2 Q)) (proj2 (proj2 Q))) as [[-> R]|[[-> R]|[-> R]]]; destruct R as [->|[->|[->| ->]]]; axcases.
Qed.
Lemma DQ_axial : forall z, axial (DQvac 0 0 z).
Proof.
  intros z. split; [|repeat split; unfold DQvac; cbn; unfold Rdiv; ring]. intros i j k Hi Hj Hk N. repeat bash3; try (exfalso; apply N; cbn; tauto); unfold DQvac; cbn; unfold Rdiv; ring.
Qed.
Lemma QD_axial : forall z, axial (QDvac 0 0 z).
Proof.
  intros z. split; [|repeat split; unfold QDvac; cbn; unfold Rdiv; ring]. intros i j k Hi Hj Hk N. repeat bash3; try (exfalso; apply N; cbn; tauto); unfold QDvac; cbn; unfold Rdiv; ring.
Qed.
Lemma mult_rot : forall ord dist, mult_entry kC ord dist p = 0.
Proof.
  intros ord dist. unfold mult_entry. induction (seq 3 (ord - 2)) as [|o xs IH]; cbn [map fold_right]; [reflexivity|]. rewrite IH. unfold mult_val. apply Z.eqb_neq in NM. rewrite NM. ring.
Qed.
(** atoms on the z axis; with a surface only dipole-dipole interaction *)
Lemma entry_rot : forall isreal g, gvx g = Some 0 -> gvy g = Some 0 -> gsurf g = None \/ (gord g <= 3)%nat ->
  interaction_entry kC tol isreal g p = Ok (0, 0) \/ interaction_entry kC tol isreal g p = Throw.
Proof.
  intros isreal g X Y S. unfold interaction_entry. rewrite X, Y. destruct (Reqb (gdist g) dmax); [auto|].
  destruct (gvz g) as [z|].
  2:{ destruct (negb (gtb g)); auto. destruct (gsurf g); auto. destruct (Nat.leb 5 (gord g)); auto. }
  destruct (needs_green g).
  - unfold green_entry. destruct (negb (gtb g)); [auto|]. match goal with |- context [if ?b then Throw else _] => destruct b; [auto|] end.
    assert (Z0 : cplus (Ok (0, 0)) (Ok (0, 0)) = Ok (0, 0)) by (cbn; f_equal; apply injective_projections; cbn; ring).
    assert (DV : forall i j, (i < 3)%nat -> (j < 3)%nat -> i <> j -> DDvac 0 0 z i j = 0) by (intros i j Hi Hj N; repeat bash3; try congruence; unfold DDvac; cbn; unfold Rdiv; ring).
    assert (DE : DDvac 0 0 z 0%nat 0%nat = DDvac 0 0 z 1%nat 1%nat) by (unfold DDvac; cbn; unfold Rdiv; ring).
    destruct (gsurf g) as [d|].
    + destruct S as [S|S]; [discriminate S|]. destruct (addSurface d (newGreen 0 0 z)) as [G r] eqn:A. destruct r as [[]| |]; cbn [bind]; [|auto|].
      2:{ exfalso. unfold addSurface in A. destruct (Req_EM_T _ _); [|discriminate A]. destruct (Rlt_dec _ _); [discriminate A|]. destruct (Rlt_dec _ _); discriminate A. }
      destruct (Nat.leb 5 (gord g)); [auto|]. left.
      destruct (plate_y _ _ _ A) as (a & b & ->). replace (Nat.leb 4 (gord g)) with false by (symmetry; apply Nat.leb_gt; lia).
      rewrite dd_rot; [destruct (Nat.leb 3 (gord g)); exact Z0| |].
      * intros i j Hi Hj N. unfold calcDD. cbn [g_plate g_x g_y g_z]. unfold add2. rewrite DV by assumption. repeat bash3; try congruence; unfold DDplate; cbn; unfold Rdiv; ring.
      * unfold calcDD. cbn [g_plate g_x g_y g_z]. unfold add2. rewrite DE. f_equal. unfold DDplate; cbn; unfold Rdiv; ring.
    + cbn [bind]. destruct (Nat.leb 5 (gord g)); [auto|]. left. cbv beta. change (calcDD (newGreen 0 0 z)) with (DDvac 0 0 z). change (calcDQ (newGreen 0 0 z)) with (DQvac 0 0 z). change (calcQD (newGreen 0 0 z)) with (QDvac 0 0 z). rewrite (@dd_rot isreal _ DV DE), (@dq_rot isreal _ (DQ_axial z)), (@qd_rot isreal _ (QD_axial z)), Z0.
      destruct (Nat.leb 3 (gord g)), (Nat.leb 4 (gord g)); exact Z0.
  - left. unfold Reqb. destruct (Req_EM_T 0 0); [|congruence]. cbn [negb]. rewrite mult_rot. reflexivity.
Qed.
End Rot.
