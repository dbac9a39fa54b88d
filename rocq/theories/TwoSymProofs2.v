(** Proofs about the symmetries of one entry of the interaction matrix, continued: exchange, reflection, rotation. *)
From Coq Require Import ZArith Lia Bool Reals Lra Permutation List.
Import ListNotations.
From Verif Require Import Base FieldModel GreenModel GreenSpec GreenProofs TwoModel TwoSpec TwoProofs TwoProofs2 TwoProofs3 TwoProofs4 TwoSymSpec TwoSymProofs.
Set Implicit Arguments.
Local Open Scope R_scope.

Lemma gterm_none : forall tol isreal g odd, gterm tol isreal g odd None = Ok (0, 0).
Proof. intros. unfold gterm. destruct (Rltb _ _); reflexivity. Qed.
Lemma rmap_zero : forall f, lin f -> rmap f (Ok (0, 0)) = Ok (0, 0).
Proof. intros f L. cbn. rewrite (lin0 L). reflexivity. Qed.
Lemma times_1 : forall r, rmap (times 1) r = r.
Proof. intros [v| |]; cbn; auto. f_equal. apply injective_projections; cbn; ring. Qed.
Lemma rmap_times2 : forall a b r, rmap (times a) (rmap (times b) r) = rmap (times (a * b)) r.
Proof. intros a b [v| |]; cbn; auto. f_equal. apply injective_projections; cbn; ring. Qed.

Section Par.
Variables kC tol : R.
Variable p : pdata.
Variables l1 l2 : Z.
Hypothesis P : parity_law p l1 l2.
Lemma dd_zero : forall isreal G, Z.even (l1 + l2) = false -> dd_entry kC tol isreal G p = Ok (0, 0).
Proof.
  intros isreal G E. unfold dd_entry. apply sumres_zero. intros r I. apply in_map_iff in I. destruct I as ([i j] & <- & _). unfold dd_val.
  destruct (psel1 p 1 && psel2 p 1) eqn:X; [|apply gterm_none]. apply andb_true_iff in X. destruct X as [X Y]. apply (proj1 P) in X. apply (proj2 P) in Y.
  rewrite !Z.even_add in *. cbn in X, Y. destruct (Z.even l1), (Z.even l2); discriminate.
Qed.
Lemma dq_zero : forall isreal G, Z.even (l1 + l2) = true -> dq_entry kC tol isreal G p = Ok (0, 0).
Proof.
  intros isreal G E. unfold dq_entry. apply sumres_zero. intros r I. apply in_map_iff in I. destruct I as ([[i j] k] & <- & _). unfold dq_val.
  destruct (psel1 p 1 && psel2 p 2 || psel1 p 1 && psel2 p 0) eqn:X; [|apply gterm_none]. exfalso. apply orb_true_iff in X. rewrite !andb_true_iff in X.
  destruct X as [[X Y]|[X Y]]; apply (proj1 P) in X; apply (proj2 P) in Y; rewrite !Z.even_add in *; cbn in X, Y; destruct (Z.even l1), (Z.even l2); discriminate.
Qed.
Lemma qd_zero : forall isreal G, Z.even (l1 + l2) = true -> qd_entry kC tol isreal G p = Ok (0, 0).
Proof.
  intros isreal G E. unfold qd_entry. apply sumres_zero. intros r I. apply in_map_iff in I. destruct I as ([[i j] k] & <- & _). unfold qd_val.
  destruct (psel1 p 2 && psel2 p 1 || psel1 p 0 && psel2 p 1) eqn:X; [|apply gterm_none]. exfalso. apply orb_true_iff in X. rewrite !andb_true_iff in X.
  destruct X as [[X Y]|[X Y]]; apply (proj1 P) in X; apply (proj2 P) in Y; rewrite !Z.even_add in *; cbn in X, Y; destruct (Z.even l1), (Z.even l2); discriminate.
Qed.
Lemma angle_zero : forall angle dist, Z.even (l1 + l2) = false -> angle_entry kC tol angle dist p = 0.
Proof.
  intros angle dist E. unfold angle_entry. destruct (psel1 p 1 && psel2 p 1) eqn:X; [|reflexivity]. apply andb_true_iff in X. destruct X as [X Y]. apply (proj1 P) in X. apply (proj2 P) in Y.
  rewrite !Z.even_add in *. cbn in X, Y. destruct (Z.even l1), (Z.even l2); discriminate.
Qed.
Lemma mult_zero : forall ord dist, Z.even (l1 + l2) = false -> (ord <= 3)%nat -> mult_entry kC ord dist p = 0.
Proof.
  intros ord dist E O. unfold mult_entry. assert (X : ord = 3%nat \/ (ord - 2 = 0)%nat) by lia. destruct X as [->|X]; [|rewrite X; reflexivity]. cbn [seq Nat.sub map fold_right]. unfold mult_val. cbn [seq Nat.sub map fold_right].
  destruct (pq1 p + pq2 p =? 0)%Z; [|ring]. destruct (psel1 p 1 && psel2 p 1) eqn:X; [|ring]. apply andb_true_iff in X. destruct X as [X Y]. apply (proj1 P) in X. apply (proj2 P) in Y.
  rewrite !Z.even_add in *. cbn in X, Y. destruct (Z.even l1), (Z.even l2); discriminate.
Qed.
End Par.

Lemma parity_swapped : forall p l1 l2, parity_law p l1 l2 -> parity_law (swapped p) l2 l1.
Proof. intros p l1 l2 [A B]. split; cbn; assumption. Qed.

Section X2.
Variables kC tol : R.
Variable p : pdata.
Variables l1 l2 : Z.
Hypothesis P : parity_law p l1 l2.
Hypothesis L : lawful p.

Lemma green_X : forall isreal g x y z, gsurf g = None ->
  green_entry kC tol isreal g x y z (swapped p) = rmap (times (par (l1 + l2))) (green_entry kC tol isreal g x y z p).
Proof.
  intros isreal g x y z NS. unfold green_entry. rewrite NS. destruct (negb (gtb g)); [reflexivity|]. cbn [bind]. destruct (Nat.leb 5 (gord g)); [reflexivity|].
  assert (L0 := lin_times (par (l1 + l2))). pose proof (parity_swapped P) as P'. cbn [calcDD calcDQ calcQD newGreen g_plate g_x g_y g_z].
  assert (DD : dd_entry kC tol isreal (DDvac x y z) (swapped p) = rmap (times (par (l1 + l2))) (dd_entry kC tol isreal (DDvac x y z) p)).
  { rewrite dd_entry_X by apply DD_sym. destruct (Z.even (l1 + l2)) eqn:E; [rewrite (par_even _ E), times_1; reflexivity|]. rewrite (dd_zero kC tol P _ _ E). symmetry. apply rmap_zero, L0. }
  assert (S3 : forall i j k, QDvac x y z j k i = QDvac x y z i j k).
  { intros i j k. destruct (QD_sym x y z j k i) as [A B]. destruct (QD_sym x y z j i k) as [C D]. congruence. }
  assert (DQ : cplus (dq_entry kC tol isreal (DQvac x y z) (swapped p)) (qd_entry kC tol isreal (QDvac x y z) (swapped p)) = rmap (times (par (l1 + l2))) (cplus (dq_entry kC tol isreal (DQvac x y z) p) (qd_entry kC tol isreal (QDvac x y z) p))).
  { destruct (Z.even (l1 + l2)) eqn:E.
    - rewrite (dq_zero kC tol P _ _ E), (qd_zero kC tol P _ _ E). rewrite Z.add_comm in E. rewrite (dq_zero kC tol P' _ _ E), (qd_zero kC tol P' _ _ E). symmetry. rewrite <- (cplus_lin _ _ L0), (rmap_zero L0). reflexivity.
    - rewrite (@dq_entry_X kC tol isreal (DQvac x y z) (QDvac x y z)) by (intros; rewrite S3; apply dq_is_minus_qd). rewrite (@qd_entry_X kC tol isreal (DQvac x y z) (QDvac x y z)) by (intros i j k; rewrite dq_is_minus_qd, <- (S3 k i j); ring).
      rewrite (cplus_lin _ _ (lin_times (-1))). replace (par (l1 + l2)) with (-1) by (unfold par; rewrite E; reflexivity). f_equal. apply cplus_comm.
      + apply sumres_noUB. intros r I. apply in_map_iff in I. destruct I as ([[a b] c] & <- & _). apply gterm_noUB.
      + apply sumres_noUB. intros r I. apply in_map_iff in I. destruct I as ([[a b] c] & <- & _). apply gterm_noUB. }
  rewrite DD, DQ. destruct (Nat.leb 3 (gord g)), (Nat.leb 4 (gord g)); rewrite <- ?(cplus_lin _ _ L0), ?(rmap_zero L0); reflexivity.
Qed.
Lemma entry_X : forall isreal g, gsurf g = None ->
  interaction_entry kC tol isreal g (swapped p) = rmap (times (par (l1 + l2))) (interaction_entry kC tol isreal g p).
Proof.
  intros isreal g NS. assert (L0 := lin_times (par (l1 + l2))). unfold interaction_entry. rewrite NS.
  destruct (Reqb (gdist g) dmax); [symmetry; apply rmap_zero, L0|].
  assert (O : forall a : res cx, a = (if negb (gtb g) then Throw else if Nat.leb 5 (gord g) then Throw else Ok (0, 0)) -> a = rmap (times (par (l1 + l2))) a).
  { intros a ->. destruct (negb (gtb g)); [reflexivity|]. destruct (Nat.leb 5 (gord g)); [reflexivity|]. symmetry; apply rmap_zero, L0. }
  destruct (gvx g) as [x|]; [|apply O; reflexivity]. destruct (gvy g) as [y|]; [|apply O; reflexivity]. destruct (gvz g) as [z|]; [|apply O; reflexivity].
  destruct (needs_green g); [apply green_X; exact NS|]. destruct (negb (Reqb x 0)).
  - rewrite angle_entry_X. destruct (Z.even (l1 + l2)) eqn:E; [rewrite (par_even _ E), times_1; reflexivity|]. rewrite (angle_zero kC tol P _ _ E). symmetry. apply rmap_zero, L0.
  - rewrite (@mult_entry_X kC _ _ p l1 l2 L P). cbn. f_equal. apply injective_projections; cbn; ring.
Qed.
(** dipole-dipole interaction only *)
Lemma entry_dipole : forall isreal g, gsurf g = None -> (gord g <= 3)%nat -> Z.even (l1 + l2) = false ->
  interaction_entry kC tol isreal g p = Ok (0, 0) \/ interaction_entry kC tol isreal g p = Throw.
Proof.
  intros isreal g NS O E. unfold interaction_entry. rewrite NS. destruct (Reqb (gdist g) dmax); [auto|].
  assert (Q : (if negb (gtb g) then Throw else if Nat.leb 5 (gord g) then Throw else Ok (0, 0)) = Ok (0, 0) \/ (if negb (gtb g) then Throw else if Nat.leb 5 (gord g) then Throw else Ok (0, 0)) = @Throw cx).
  { destruct (negb (gtb g)); auto. destruct (Nat.leb 5 (gord g)); auto. }
  destruct (gvx g) as [x|]; [|exact Q]. destruct (gvy g) as [y|]; [|exact Q]. destruct (gvz g) as [z|]; [|exact Q].
  destruct (needs_green g).
  - unfold green_entry. rewrite NS. destruct (negb (gtb g)); [auto|]. cbn [bind]. destruct (Nat.leb 5 (gord g)); [auto|]. left. replace (Nat.leb 4 (gord g)) with false by (symmetry; apply Nat.leb_gt; lia).
    cbn [calcDD newGreen g_plate g_x g_y g_z]. rewrite (dd_zero kC tol P _ _ E). destruct (Nat.leb 3 (gord g)); cbn; f_equal; apply injective_projections; cbn; ring.
  - left. destruct (negb (Reqb x 0)); [rewrite (angle_zero kC tol P _ _ E)|rewrite (mult_zero kC P _ E O)]; reflexivity.
Qed.
Lemma entry_perm : forall isreal g, gsurf g = None -> (gord g <= 3)%nat ->
  interaction_entry kC tol isreal g (swapped p) = interaction_entry kC tol isreal g p.
Proof.
  intros isreal g NS O. rewrite entry_X by assumption. destruct (Z.even (l1 + l2)) eqn:E; [rewrite (par_even _ E); apply times_1|].
  destruct (entry_dipole isreal g NS O E) as [->| ->]; [apply rmap_zero, lin_times|reflexivity].
Qed.
End X2.

(** ** Reflection *)
Lemma vec_R : forall i q d, (i < 3)%nat -> vecentry i (- q) d = option_map (Rmult (par q * ysgn i)) (vecentry i q d).
Proof.
  intros i q d Hi. transitivity (vecentry i (- q) (par q * (par q * d))); [f_equal; rewrite <- Rmult_assoc, par_sq; ring|]. rewrite vec_T by assumption.
  unfold vecentry. destruct i as [|[|i]]; destruct (Z.eqb _ _); cbn; try reflexivity; f_equal; destruct (q =? 1)%Z; ring.
Qed.
Lemma vec_scale : forall i q f d, vecentry i q (f * d) = option_map (Rmult f) (vecentry i q d).
Proof. intros i q f d. unfold vecentry. destruct i as [|[|i]]; destruct (Z.eqb _ _); cbn; try reflexivity; f_equal; destruct (q =? 1)%Z; ring. Qed.
Lemma mat_scale : forall j k q f a b, matentry j k q (f * a) (f * b) = f * matentry j k q a b.
Proof.
  intros j k q f a b. unfold matentry. destruct j as [|[|[|j]]], k as [|[|[|k]]]; repeat match goal with |- context [if ?b then _ else _] => destruct b end; ring.
Qed.
Lemma mat_R : forall j k q a b, (j < 3)%nat -> (k < 3)%nat -> matentry j k (- q) a b = par q * ysgn j * ysgn k * matentry j k q a b.
Proof.
  intros j k q a b Hj Hk. transitivity (matentry j k (- q) (par q * (par q * a)) (par q * (par q * b))); [f_equal; rewrite <- Rmult_assoc, par_sq; ring|].
  rewrite mat_T by assumption. rewrite mat_scale. ring.
Qed.

Section Refl.
Variables kC tol : R.
Hypothesis T0 : 0 <= tol.
Variables p p' : pdata.
Variables f1 f2 : R.
Hypothesis F1 : f1 = 1 \/ f1 = -1.
Hypothesis F2 : f2 = 1 \/ f2 = -1.
Hypothesis RD : reflected_data p p' f1 f2.
Let s := f1 * f2 * par (pq1 p + pq2 p).
Lemma Rabs_pm : forall f x, (f = 1 \/ f = -1) -> Rabs (f * x) = Rabs x.
Proof. intros f x [->| ->]; [rewrite Rmult_1_l; reflexivity|]. replace (-1 * x) with (- x) by ring. apply Rabs_Ropp. Qed.
Lemma par_pm : forall q, par q = 1 \/ par q = -1. Proof. intros q. unfold par. destruct (Z.even q); auto. Qed.

Lemma dd_R : forall i j, (i < 3)%nat -> (j < 3)%nat -> dd_val kC p' i j = option_map (times (s * (ysgn i * ysgn j))) (dd_val kC p i j).
Proof.
  intros i j Hi Hj. destruct RD as (Q1 & Q2 & S1 & S2 & M1 & M2). unfold dd_val. rewrite S1, S2, M1, M2, Q1, Q2, !vec_R, !vec_scale by assumption.
  destruct (psel1 p 1 && psel2 p 1); [|reflexivity]. destruct (vecentry i (pq1 p) (pM1 p 1)) as [v|]; [|reflexivity]. destruct (vecentry j (pq2 p) (pM2 p 1)) as [w|]; [|reflexivity].
  cbn [option_map]. rewrite times_phase. do 2 f_equal. unfold s. rewrite par_add. destruct (Nat.eqb i 1 && Nat.eqb j 1); ring.
Qed.
Lemma dq_R : forall i j k, (i < 3)%nat -> (j < 3)%nat -> (k < 3)%nat -> dq_val kC tol p' i j k = option_map (times (s * (ysgn i * ysgn j * ysgn k))) (dq_val kC tol p i j k).
Proof.
  intros i j k Hi Hj Hk. destruct RD as (Q1 & Q2 & S1 & S2 & M1 & M2). unfold dq_val. rewrite !S1, !S2, M1, !M2, Q1, Q2, vec_R, mat_R, vec_scale, mat_scale by assumption.
  destruct (psel1 p 1 && psel2 p 2 || psel1 p 1 && psel2 p 0); [|reflexivity]. destruct (vecentry i (pq1 p) (pM1 p 1)) as [v|]; [|reflexivity]. cbn [option_map].
  set (m := matentry j k (pq2 p) (pM2 p 2) (pM2 p 0)). match goal with |- context [Rltb tol (Rabs ?x)] => replace (Rabs x) with (Rabs (v * m)) end.
  2:{ symmetry. match goal with |- Rabs ?x = _ => replace x with (f1 * (f2 * (par (pq1 p) * (par (pq2 p) * (ysgn i * (ysgn j * (ysgn k * (v * m)))))))) by ring end. rewrite (@Rabs_pm f1), (@Rabs_pm f2), !(@Rabs_pm (par _)), !Rabs_ysgn by (apply F1 || apply F2 || apply par_pm). reflexivity. }
  destruct (Rltb tol (Rabs (v * m))); [|reflexivity]. cbn [option_map]. rewrite times_phase. do 2 f_equal. unfold s. rewrite par_add. match goal with |- context [if ?b then _ * -1 else _] => destruct b end; unfold Rdiv; ring.
Qed.
Lemma qd_R : forall i j k, (i < 3)%nat -> (j < 3)%nat -> (k < 3)%nat -> qd_val kC tol p' i j k = option_map (times (s * (ysgn i * ysgn j * ysgn k))) (qd_val kC tol p i j k).
Proof.
  intros i j k Hi Hj Hk. destruct RD as (Q1 & Q2 & S1 & S2 & M1 & M2). unfold qd_val. rewrite !S1, !S2, M2, !M1, Q1, Q2, vec_R, mat_R, vec_scale, mat_scale by assumption.
  destruct (psel1 p 2 && psel2 p 1 || psel1 p 0 && psel2 p 1); [|reflexivity]. destruct (vecentry k (pq2 p) (pM2 p 1)) as [v|]; [|reflexivity]. cbn [option_map].
  set (m := matentry i j (pq1 p) (pM1 p 2) (pM1 p 0)). match goal with |- context [Rltb tol (Rabs ?x)] => replace (Rabs x) with (Rabs (v * m)) end.
  2:{ symmetry. match goal with |- Rabs ?x = _ => replace x with (f1 * (f2 * (par (pq1 p) * (par (pq2 p) * (ysgn i * (ysgn j * (ysgn k * (v * m)))))))) by ring end. rewrite (@Rabs_pm f1), (@Rabs_pm f2), !(@Rabs_pm (par _)), !Rabs_ysgn by (apply F1 || apply F2 || apply par_pm). reflexivity. }
  destruct (Rltb tol (Rabs (v * m))); [|reflexivity]. cbn [option_map]. rewrite times_phase. do 2 f_equal. unfold s. rewrite par_add. match goal with |- context [if ?b then _ * -1 else _] => destruct b end; unfold Rdiv; ring.
Qed.
Lemma gterm_0 : forall isreal odd v, gterm tol isreal 0 odd v = Ok (0, 0).
Proof. intros. unfold gterm. rewrite Rabs_R0. replace (Rltb tol 0) with false; [reflexivity|]. symmetry. apply Rltb_false. exact T0. Qed.
Lemma dd_entry_R : forall isreal (G : mat3), (forall i j, (i < 3)%nat -> (j < 3)%nat -> ysgn i * ysgn j = -1 -> G i j = 0) ->
  dd_entry kC tol isreal G p' = rmap (times s) (dd_entry kC tol isreal G p).
Proof.
  intros isreal G Z. unfold dd_entry. rewrite <- (sumres_lin _ (lin_times s)), map_map. f_equal. apply map_ext_in. intros [i j] I. apply in_idx2 in I. cbn [fst snd] in I. destruct I as [Hi Hj]. rewrite dd_R by assumption.
  destruct (Req_EM_T (ysgn i * ysgn j) (-1)) as [E|E]; [rewrite (Z i j Hi Hj E), !gterm_0; symmetry; apply rmap_zero, lin_times|].
  replace (ysgn i * ysgn j) with 1; [rewrite Rmult_1_r; apply gterm_lin, lin_times|]. unfold ysgn in *. destruct (Nat.eqb i 1), (Nat.eqb j 1); lra.
Qed.
Lemma dq_entry_R : forall isreal (G : ten3), (forall i j k, (i < 3)%nat -> (j < 3)%nat -> (k < 3)%nat -> ysgn i * ysgn j * ysgn k = -1 -> G i j k = 0) ->
  dq_entry kC tol isreal G p' = rmap (times s) (dq_entry kC tol isreal G p).
Proof.
  intros isreal G Z. unfold dq_entry. rewrite <- (sumres_lin _ (lin_times s)), map_map. f_equal. apply map_ext_in. intros [[i j] k] I. apply in_idx3s in I. cbn [fst snd] in I. destruct I as (Hi & Hj & Hk). rewrite dq_R by assumption.
  destruct (Req_EM_T (ysgn i * ysgn j * ysgn k) (-1)) as [E|E]; [rewrite (Z i j k Hi Hj Hk E), !gterm_0; symmetry; apply rmap_zero, lin_times|].
  replace (ysgn i * ysgn j * ysgn k) with 1; [rewrite Rmult_1_r; apply gterm_lin, lin_times|]. unfold ysgn in *. destruct (Nat.eqb i 1), (Nat.eqb j 1), (Nat.eqb k 1); lra.
Qed.
Lemma qd_entry_R : forall isreal (G : ten3), (forall i j k, (i < 3)%nat -> (j < 3)%nat -> (k < 3)%nat -> ysgn i * ysgn j * ysgn k = -1 -> G i j k = 0) ->
  qd_entry kC tol isreal G p' = rmap (times s) (qd_entry kC tol isreal G p).
Proof.
  intros isreal G Z. unfold qd_entry. rewrite <- (sumres_lin _ (lin_times s)), map_map. f_equal. apply map_ext_in. intros [[i j] k] I. apply in_idx3s in I. cbn [fst snd] in I. destruct I as (Hi & Hj & Hk). rewrite qd_R by assumption.
  destruct (Req_EM_T (ysgn i * ysgn j * ysgn k) (-1)) as [E|E]; [rewrite (Z i j k Hi Hj Hk E), !gterm_0; symmetry; apply rmap_zero, lin_times|].
  replace (ysgn i * ysgn j * ysgn k) with 1; [rewrite Rmult_1_r; apply gterm_lin, lin_times|]. unfold ysgn in *. destruct (Nat.eqb i 1), (Nat.eqb j 1), (Nat.eqb k 1); lra.
Qed.
End Refl.
