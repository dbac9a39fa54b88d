(** Properties C72 (Wigner's rotation matrices), C73 (rotation of states), C74 (fields given in
    another coordinate system). *)
From Verif Require Import Base StateModel StateProofs LookupModel LookupProofs Matrix FieldModel WignerModel WignerSpec WignerPoly
  WignerProofs WignerProofs2 WignerProofs3 SystemProofs OverlapModel OverlapProofs RotTable PairProofs WignerRot WignerRot2 WignerRot3 WignerVec.
From Coq Require Import ZArith Lia Bool Arith Reals Lra String List.
Import ListNotations.
Local Open Scope R_scope.

(** ** C72 *)
Lemma zeeman_nat : forall j m, zeeman j m -> exists k a, j = Z.of_nat k /\ m = mq k a /\ (a <= k)%nat /\ a = Z.to_nat ((j + m) / 2) /\ k = Z.to_nat j.
Proof.
  intros j m [H E]. apply Z.even_spec in E. destruct E as [q E]. exists (Z.to_nat j), (Z.to_nat q). unfold mq.
  assert (Q : ((j + m) / 2 = q)%Z) by (rewrite E, Z.mul_comm; apply Z.div_mul; lia). rewrite Q. repeat split; lia.
Qed.
Lemma nat_zeeman : forall k a, (a <= k)%nat -> zeeman (Z.of_nat k) (mq k a).
Proof. intros k a H. unfold mq. split; [lia|]. apply Z.even_spec. exists (Z.of_nat a). lia. Qed.

(** The angle that is used: within 1e-16 of pi/2 the shortcut for pi/2 applies. *)
Definition used_angle (beta : R) : R := if Rlt_dec (Rabs (beta - PI / 2)) (/ IZR (10 ^ 16)) then PI / 2 else beta.

(** For all quantum numbers and angles, WignerD computes Wigner's formula (in exact arithmetic). *)
Theorem C72_formula : forall j m m' beta, zeeman j m -> zeeman j m' ->
  wignerd j m m' beta = wigner_small_d j m m' (used_angle beta).
Proof.
  intros j m m' beta H H'. destruct (zeeman_nat _ _ H) as (k & a & Ej & -> & La & Ea & Ek).
  destruct (zeeman_nat _ _ H') as (k' & b & Ej' & -> & Lb & Eb & Ek').
  assert (k' = k) by lia. clear Ek'. subst k'. unfold wigner_small_d. rewrite <- Ea, <- Eb, <- Ek, Ej. rewrite wignerd_closed by auto.
  apply dpoly_formula; auto.
Qed.

(** The three-angle matrix: e^{-i m alpha} d(beta) e^{-i m' gamma}. *)
Theorem C72_three_angles : forall j m m' alpha beta gamma, zeeman j m -> zeeman j m' ->
  let x := IZR m / 2 * alpha + IZR m' / 2 * gamma in
  let d := wigner_small_d j m m' (used_angle beta) in
  wignerD j m m' alpha beta gamma = (cos x * d, - sin x * d).
Proof.
  intros j m m' al be ga H H'. cbv zeta. rewrite <- C72_formula by auto. unfold wignerD, cis, ofR.
  rewrite cos_plus, sin_plus.
  replace (- (IZR m / 2) * al) with (- (IZR m / 2 * al)) by ring. replace (- (IZR m' / 2) * ga) with (- (IZR m' / 2 * ga)) by ring.
  rewrite !cos_neg, !sin_neg. apply injective_projections; cbn; ring.
Qed.

(** The Zeeman levels of j in increasing order. *)
Definition levels (j : Z) : list Z := map (fun i => (- j + 2 * Z.of_nat i)%Z) (seq 0 (S (Z.to_nat j))).
Lemma levels_nat : forall k, levels (Z.of_nat k) = map (mq k) (seq 0 (S k)).
Proof. exact mup_nat. Qed.
Theorem C72_levels : forall j m, (0 <= j)%Z -> (In m (levels j) <-> zeeman j m).
Proof.
  intros j m Hj. rewrite <- (Z2Nat.id j) by auto. rewrite levels_nat, in_map_iff. split.
  - intros (a & <- & Ia). apply in_seq in Ia. apply nat_zeeman. lia.
  - intro H. destruct (zeeman_nat _ _ H) as (k & a & Ej & -> & La & _ & _). exists a. assert (k = Z.to_nat j) by lia. subst. split; auto.
    apply in_seq. lia.
Qed.

(** The matrices are unitary. *)
Theorem C72_unitary : forall j m m' alpha beta gamma, zeeman j m -> zeeman j m' ->
  lsum (K := CR) (fun q => smul (sconj (wignerD j q m alpha beta gamma : CR)) (wignerD j q m' alpha beta gamma)) (levels j) =
  if (m =? m')%Z then @s1 CR else @s0 CR.
Proof.
  intros j m m' al be ga H H'. destruct (zeeman_nat _ _ H) as (k & a & -> & -> & La & _ & _).
  destruct (zeeman_nat _ _ H') as (k' & b & Ej & -> & Lb & _ & _). assert (k' = k) by lia. subst k'.
  rewrite levels_nat, lsum_map, <- bsum_lsum. etransitivity; [exact (@Dm_unitary k al be ga a b La Lb)|].
  replace (mq k a =? mq k b)%Z with (Nat.eqb a b); auto.
  apply eq_true_iff_eq. rewrite Nat.eqb_eq, Z.eqb_eq. unfold mq. lia.
Qed.

(** Rotations about the y axis: angles add. *)
Theorem C72_addition : forall j m m' x y, zeeman j m -> zeeman j m' ->
  used_angle x = x -> used_angle y = y -> used_angle (x + y) = x + y ->
  lsum (K := RR) (fun q => wignerd j m q x * wignerd j q m' y) (levels j) = wignerd j m m' (x + y).
Proof.
  intros j m m' x y H H' X Y XY. destruct (zeeman_nat _ _ H) as (k & a & -> & -> & La & _ & _).
  destruct (zeeman_nat _ _ H') as (k' & b & Ej & -> & Lb & _ & _). assert (k' = k) by lia. subst k'.
  rewrite levels_nat, lsum_map, <- bsum_lsum. rewrite wignerd_closed by auto. change snap with used_angle. rewrite XY, <- dpoly_add by auto.
  apply (@bsum_ext RR). intros i Hi. rewrite !wignerd_closed by lia. change snap with used_angle. rewrite X, Y. reflexivity.
Qed.

(** The inverse rotation has the transposed matrix; no rotation is the identity. *)
Theorem C72_inverse : forall j m m' beta, zeeman j m -> zeeman j m' -> used_angle beta = beta -> used_angle (- beta) = - beta ->
  wignerd j m m' (- beta) = wignerd j m' m beta.
Proof.
  intros j m m' x H H' X Y. destruct (zeeman_nat _ _ H) as (k & a & -> & -> & La & _ & _).
  destruct (zeeman_nat _ _ H') as (k' & b & Ej & -> & Lb & _ & _). assert (k' = k) by lia. subst k'.
  rewrite !wignerd_closed by auto. change snap with used_angle. rewrite X, Y. apply dpoly_transpose; auto.
Qed.
Theorem C72_identity : forall j m m', zeeman j m -> zeeman j m' -> wignerd j m m' 0 = if (m =? m')%Z then 1 else 0.
Proof.
  intros j m m' H H'. destruct (zeeman_nat _ _ H) as (k & a & -> & -> & La & _ & _).
  destruct (zeeman_nat _ _ H') as (k' & b & Ej & -> & Lb & _ & _). assert (k' = k) by lia. subst k'.
  rewrite wignerd_closed by auto. rewrite snap_0, dpoly_0.
  replace (mq k a =? mq k b)%Z with (Nat.eqb a b); auto.
  apply eq_true_iff_eq. rewrite Nat.eqb_eq, Z.eqb_eq. unfold mq. lia.
Qed.

Example C72_nonvacuous : zeeman 3 (-1) /\ zeeman 3 3 /\ levels 3 = [-3; -1; 1; 3]%Z /\
  wigner_small_d 1 1 1 PI = 0 /\ wigner_small_d 1 1 (-1) PI = -1 /\ used_angle 0 = 0.
Proof.
  split; [split; [lia|reflexivity]|]. split; [split; [lia|reflexivity]|]. split; [reflexivity|].
  assert (S1 : sqrt (1 * 1 * 1 * 1) = 1) by (replace (1 * 1 * 1 * 1) with 1 by ring; apply sqrt_1).
  unfold wigner_small_d. change (Z.to_nat 1) with 1%nat. change (Z.to_nat ((1 + 1) / 2)) with 1%nat. change (Z.to_nat ((1 + -1) / 2)) with 0%nat.
  unfold wigner_formula, sumR. cbn [seq map fold_right Nat.leb andb Nat.sub Nat.add Nat.mul pow fact INR]. rewrite !S1, cos_PI2, sin_PI2.
  split; [|split].
  - field.
  - field.
  - apply snap_0.
Qed.

(** ** C73: rotation of states *)

(** A state with physical quantum numbers. *)
Definition rydberg (s : state1) : Prop := n s <> 0%Z /\ species s <> EmptyString /\ zeeman (j2 s) (m2 s).
Lemma rydberg_physical : forall s, rydberg s <-> physical s.
Proof.
  intro s. split; intros (H1 & H2 & H3); split; auto; split; auto.
  - destruct (zeeman_nat _ _ H3) as (k & a & E & E' & L & _). eauto.
  - destruct H3 as (k & a & -> & -> & L). apply nat_zeeman; auto.
Qed.
(** All Zeeman levels of a state that is in the list are in the list. *)
Definition all_levels (l0 : list state1) : Prop :=
  forall s m, In s l0 -> zeeman (j2 s) m -> exists t, In t l0 /\ species t = species s /\ n t = n s /\ l t = l s /\ j2 t = j2 s /\ m2 t = m.
Lemma all_levels_complete : forall l0, all_levels l0 -> complete l0.
Proof.
  intros l0 H s k b I E L. destruct (H s (mq k b) I) as (t & It & E1 & E2 & E3 & E4 & E5). { rewrite E. apply nat_zeeman; auto. }
  exists t. split; auto. split; auto. unfold sameMult. rewrite E1, E2, E3, E4, String.eqb_refl, !Z.eqb_refl. reflexivity.
Qed.
(** The same for pairs. *)
Definition rydberg2 (s : state2) : Prop := rydberg (fst1 s) /\ rydberg (snd1 s).
Definition all_levels2 (l0 : list state2) : Prop :=
  forall s m m', In s l0 -> zeeman (j2 (fst1 s)) m -> zeeman (j2 (snd1 s)) m' -> exists t, In t l0 /\
    (species (fst1 t) = species (fst1 s) /\ n (fst1 t) = n (fst1 s) /\ l (fst1 t) = l (fst1 s) /\ j2 (fst1 t) = j2 (fst1 s) /\ m2 (fst1 t) = m) /\
    (species (snd1 t) = species (snd1 s) /\ n (snd1 t) = n (snd1 s) /\ l (snd1 t) = l (snd1 s) /\ j2 (snd1 t) = j2 (snd1 s) /\ m2 (snd1 t) = m').
Lemma all_levels2_complete : forall l0, all_levels2 l0 -> complete2 l0.
Proof.
  intros l0 H s k k' b b' I E E' L L'. destruct (H s (mq k b) (mq k' b') I) as (t & It & (E1 & E2 & E3 & E4 & E5) & (F1 & F2 & F3 & F4 & F5)).
  { rewrite E. apply nat_zeeman; auto. } { rewrite E'. apply nat_zeeman; auto. }
  exists t. split; auto. unfold sameMult. rewrite E1, E2, E3, E4, F1, F2, F3, F4, !String.eqb_refl, !Z.eqb_refl. auto.
Qed.
(** Real scalars need rotations about the z axis by multiples of 2 pi. *)
Definition allowed (isreal : bool) (a : angles) : Prop :=
  isreal = true -> exists p q : Z, fst (fst a) = 2 * PI * IZR p /\ snd a = 2 * PI * IZR q.
(** The angle beta is not within 1e-16 of pi/2 or -pi/2 without being exactly that. *)
Definition plain (beta : R) : Prop := used_angle beta = beta /\ used_angle (- beta) = - beta.

Lemma to_phys : forall tbl, Forall rydberg (map (@snd nat state1) tbl) -> Forall physical (map snd tbl).
Proof. intros tbl H. eapply Forall_impl; [|exact H]. intros s. apply rydberg_physical. Qed.
Lemma to_phys' : forall tbl, Forall rydberg (map (@snd nat state1) tbl) -> Forall (fun e => physical (snd e)) tbl.
Proof. intros tbl H. apply to_phys in H. rewrite Forall_map in H. exact H. Qed.
Lemma to_phys2 : forall tbl, Forall rydberg2 (map (@snd nat state2) tbl) -> Forall physical2 (map snd tbl).
Proof. intros tbl H. eapply Forall_impl; [|exact H]. intros s [A B]. split; apply rydberg_physical; auto. Qed.
Lemma to_phys2' : forall tbl, Forall rydberg2 (map (@snd nat state2) tbl) -> Forall (fun e => physical2 (snd e)) tbl.
Proof. intros tbl H. apply to_phys2 in H. rewrite Forall_map in H. exact H. Qed.

Section C73.
Variables (hs : string -> N) (hi : Z -> N) (hf : Z -> N).
Variable isreal : bool.
Notation rotator := (staterotator hs hi hf isreal).
Notation rotator2 := (staterotator2 hs hi hf isreal).

(** The entry of the rotator between two states is the matrix element of the inverse rotation, if they differ only in m. *)
Theorem C73_entries : forall tbl a W i k s t, table_ok eq1 tbl -> Forall rydberg (map snd tbl) -> allowed isreal a ->
  rotator tbl a = Ok W -> nth_error (map snd tbl) i = Some s -> nth_error (map snd tbl) k = Some t ->
  at_ W i k = if String.eqb (species s) (species t) && (n s =? n t)%Z && (l s =? l t)%Z && (j2 s =? j2 t)%Z
              then wignerD (j2 t) (m2 s) (m2 t) (- snd a) (- snd (fst a)) (- fst (fst a)) else @s0 CR.
Proof.
  intros tbl a W i k s t T P O H Hi Hk. rewrite staterotator1_eq in H; auto using to_phys'. injection H as <-.
  rewrite (@rot_at CR state1 eq1 eq1_refl eq1_sym eq1_trans tbl T _ i k s t Hi Hk).
  rewrite Forall_forall in P. assert (Ps : rydberg s) by (apply P; eapply nth_error_In; eauto). assert (Pt : rydberg t) by (apply P; eapply nth_error_In; eauto).
  apply rydberg_physical in Ps. apply rydberg_physical in Pt. pose proof Ps as (_ & _ & q & b & Hq & Hm & Lb). pose proof Pt as (_ & _ & q' & b' & Hq' & Hm' & Lb').
  destruct a as [[al be] ga]. unfold comps. cbn [fst snd].
  rewrite (@amp1_closed hs hi hf isreal al be ga O s t q' b b'); auto. 2:{ intro Q. assert (q' = q) by lia. subst. auto. }
  fold (sameMult s t). destruct (sameMult s t) eqn:E; auto. unfold sameMult in E. rewrite !andb_true_iff, !Z.eqb_eq in E.
  assert (q' = q) by lia. subst. unfold Dm. rewrite Hq', Hm, Hm'. reflexivity.
Qed.

(** Rotated states are orthonormal if all Zeeman levels are there. *)
Theorem C73_orthonormal : forall tbl a, table_ok eq1 tbl -> Forall rydberg (map snd tbl) -> all_levels (map snd tbl) -> allowed isreal a ->
  exists W, rotator tbl a = Ok W /\ nr W = length tbl /\ nc W = length tbl /\ meq (mmul (madj W) W) (mid (length tbl)).
Proof.
  intros tbl a T P C O. eexists. split; [apply staterotator1_eq; auto using to_phys'|]. split; [reflexivity|]. split; [reflexivity|].
  apply rot1_isometry; auto using to_phys, all_levels_complete.
Qed.
Theorem C73_orthonormal_pairs : forall tbl a, table_ok eq2 tbl -> Forall rydberg2 (map snd tbl) -> all_levels2 (map snd tbl) -> allowed isreal a ->
  exists W, rotator2 tbl a = Ok W /\ nr W = length tbl /\ nc W = length tbl /\ meq (mmul (madj W) W) (mid (length tbl)).
Proof.
  intros tbl a T P C O. eexists. split; [apply staterotator2_eq; auto using to_phys2'|]. split; [reflexivity|]. split; [reflexivity|].
  apply rot2_isometry; auto using to_phys2, all_levels2_complete.
Qed.

(** The rotator of the inverse rotation is the adjoint matrix (also if levels are missing). *)
Theorem C73_inverse : forall tbl alpha beta gamma, table_ok eq1 tbl -> Forall rydberg (map snd tbl) -> allowed isreal (alpha, beta, gamma) -> plain beta ->
  exists W V, rotator tbl (alpha, beta, gamma) = Ok W /\ rotator tbl (- gamma, - beta, - alpha) = Ok V /\ meq V (madj W).
Proof.
  intros tbl al be ga T P O R. do 2 eexists. split; [apply staterotator1_eq; auto using to_phys'|].
  split; [apply staterotator1_eq; auto using to_phys'; apply (@okangles_inv isreal al be ga O)|]. apply rot1_inverse; auto using to_phys.
Qed.
Theorem C73_inverse_pairs : forall tbl alpha beta gamma, table_ok eq2 tbl -> Forall rydberg2 (map snd tbl) -> allowed isreal (alpha, beta, gamma) -> plain beta ->
  exists W V, rotator2 tbl (alpha, beta, gamma) = Ok W /\ rotator2 tbl (- gamma, - beta, - alpha) = Ok V /\ meq V (madj W).
Proof.
  intros tbl al be ga T P O R. do 2 eexists. split; [apply staterotator2_eq; auto using to_phys2'|].
  split; [apply staterotator2_eq; auto using to_phys2'; apply (@okangles_inv isreal al be ga O)|]. apply (@rot2_inverse hs hi hf isreal tbl (al, be, ga)); auto using to_phys2.
Qed.

(** No rotation: the identity. *)
Lemma allowed_0 : allowed isreal (0, 0, 0).
Proof. intros _. exists 0%Z, 0%Z. cbn. split; ring. Qed.
Theorem C73_identity : forall tbl, table_ok eq1 tbl -> Forall rydberg (map snd tbl) ->
  exists W, rotator tbl (0, 0, 0) = Ok W /\ meq W (mid (length tbl)).
Proof. intros tbl T P. eexists. split; [apply staterotator1_eq; [apply allowed_0|apply to_phys'; auto]|]. apply rot1_zero; auto using to_phys. Qed.
Theorem C73_identity_pairs : forall tbl, table_ok eq2 tbl -> Forall rydberg2 (map snd tbl) ->
  exists W, rotator2 tbl (0, 0, 0) = Ok W /\ meq W (mid (length tbl)).
Proof. intros tbl T P. eexists. split; [apply staterotator2_eq; [apply allowed_0|apply to_phys2'; auto]|]. apply rot2_zero; auto using to_phys2. Qed.

(** Two rotations after each other.  [sequel a b c]: rotations about y add up; a rotation about z before or after
    any rotation adds to its first or last angle (every rotation is composed of these three: z, y, z). *)
Inductive sequel : angles -> angles -> angles -> Prop :=
  | seq_y : forall x y, plain x -> plain y -> plain (x + y) -> sequel (0, x, 0) (0, y, 0) (0, x + y, 0)
  | seq_before : forall x al be ga, sequel (0, 0, x) (al, be, ga) (al, be, ga + x)
  | seq_after : forall x al be ga, sequel (al, be, ga) (x, 0, 0) (al + x, be, ga).

Lemma sequel_multiply : forall a b c, sequel a b c -> multiply (back a) (back b) (back c).
Proof.
  intros a b c H. destruct H; unfold back; cbn [fst snd]; rewrite ?Ropp_0, ?Ropp_plus_distr.
  - destruct H as [_ H], H0 as [_ H0], H1 as [_ H1]. apply multiply_y; auto. rewrite <- Ropp_plus_distr. exact H1.
  - rewrite Rplus_comm. apply multiply_z.
  - rewrite (Rplus_comm (- al)). rewrite Rplus_comm. apply multiply_z'.
Qed.

Theorem C73_composition : forall tbl a b c, table_ok eq1 tbl -> Forall rydberg (map snd tbl) -> all_levels (map snd tbl) ->
  allowed isreal a -> allowed isreal b -> allowed isreal c -> sequel a b c ->
  exists A B C, rotator tbl a = Ok A /\ rotator tbl b = Ok B /\ rotator tbl c = Ok C /\ meq (mmul A B) C.
Proof.
  intros tbl a b c T P Co Oa Ob Oc S. do 3 eexists.
  split; [apply staterotator1_eq; auto using to_phys'|]. split; [apply staterotator1_eq; auto using to_phys'|]. split; [apply staterotator1_eq; auto using to_phys'|].
  apply rot1_mul; auto using to_phys, all_levels_complete, sequel_multiply.
Qed.
Theorem C73_composition_pairs : forall tbl a b c, table_ok eq2 tbl -> Forall rydberg2 (map snd tbl) -> all_levels2 (map snd tbl) ->
  allowed isreal a -> allowed isreal b -> allowed isreal c -> sequel a b c ->
  exists A B C, rotator2 tbl a = Ok A /\ rotator2 tbl b = Ok B /\ rotator2 tbl c = Ok C /\ meq (mmul A B) C.
Proof.
  intros tbl a b c T P Co Oa Ob Oc S. do 3 eexists.
  split; [apply staterotator2_eq; auto using to_phys2'|]. split; [apply staterotator2_eq; auto using to_phys2'|]. split; [apply staterotator2_eq; auto using to_phys2'|].
  apply rot2_mul; auto using to_phys2, all_levels2_complete, sequel_multiply.
Qed.

(** Whatever levels are there, the norm of a rotated state is at most one. *)
Theorem C73_norm : forall tbl a k, table_ok eq1 tbl -> Forall rydberg (map snd tbl) -> allowed isreal a -> (k < length tbl)%nat ->
  exists W, rotator tbl a = Ok W /\ fst (bsum (K := CR) (nr W) (fun i => sqabs (at_ W i k))) <= 1.
Proof. intros. eexists. split; [apply staterotator1_eq; auto using to_phys'|]. apply rot1_columns; auto using to_phys. Qed.
Theorem C73_norm_pairs : forall tbl a k, table_ok eq2 tbl -> Forall rydberg2 (map snd tbl) -> allowed isreal a -> (k < length tbl)%nat ->
  exists W, rotator2 tbl a = Ok W /\ fst (bsum (K := CR) (nr W) (fun i => sqabs (at_ W i k))) <= 1.
Proof. intros. eexists. split; [apply staterotator2_eq; auto using to_phys2'|]. apply rot2_columns; auto using to_phys2. Qed.

(** In a complete set of levels the columns have norm one: the condition of C34 for rotated states is met. *)
Theorem C73_unit : forall tbl a, table_ok eq1 tbl -> Forall rydberg (map snd tbl) -> all_levels (map snd tbl) -> allowed isreal a ->
  exists W, rotator tbl a = Ok W /\ unit_columns W.
Proof.
  intros tbl a T P C O. destruct (C73_orthonormal tbl a T P C O) as (W & H & R & Cn & _ & _ & E). exists W. split; auto.
  intros c Hc. specialize (E c c). cbn [mmul madj nr nc mid at_] in E. rewrite R, Cn in E. rewrite Cn in Hc. specialize (E Hc Hc).
  rewrite R. unfold delta in E. rewrite Nat.eqb_refl, Nat.min_id in E. exact E.
Qed.
Theorem C73_unit_pairs : forall tbl a, table_ok eq2 tbl -> Forall rydberg2 (map snd tbl) -> all_levels2 (map snd tbl) -> allowed isreal a ->
  exists W, rotator2 tbl a = Ok W /\ unit_columns W.
Proof.
  intros tbl a T P C O. destruct (C73_orthonormal_pairs tbl a T P C O) as (W & H & R & Cn & _ & _ & E). exists W. split; auto.
  intros c Hc. specialize (E c c). cbn [mmul madj nr nc mid at_] in E. rewrite R, Cn in E. rewrite Cn in Hc. specialize (E Hc Hc).
  rewrite R. unfold delta in E. rewrite Nat.eqb_refl, Nat.min_id in E. exact E.
Qed.

(** If levels are missing, a rotated state can vanish: no exception, the column of the rotator is zero. *)
Theorem C88_missing_refuted : forall s, rydberg s -> j2 s = 1%Z -> m2 s = 1%Z ->
  exists W, rotator [(0%nat, s)] (0, PI, 0) = Ok W /\ nr W = 1%nat /\ nc W = 1%nat /\ at_ W 0 0 = @s0 CR.
Proof.
  intros s P Hj Hm.
  assert (T : table_ok eq1 [(0%nat, s)]). { split; [reflexivity|]. constructor; constructor. }
  assert (O : allowed isreal (0, PI, 0)). { intros _. exists 0%Z, 0%Z. cbn. split; ring. }
  assert (Q : Forall rydberg (map (@snd nat state1) [(0%nat, s)])) by (constructor; auto).
  eexists. split; [apply staterotator1_eq; [exact O|apply to_phys'; exact Q]|]. split; [reflexivity|]. split; [reflexivity|].
  rewrite (C73_entries [(0%nat, s)] (0, PI, 0) _ 0 0 s s T Q O (@staterotator1_eq hs hi hf isreal _ _ O (to_phys' _ Q)) eq_refl eq_refl).
  rewrite String.eqb_refl, !Z.eqb_refl. cbn [andb fst snd]. rewrite Hj, Hm.
  assert (Z1 : zeeman 1 1) by (split; [lia|reflexivity]). rewrite C72_three_angles by auto. cbv zeta.
  replace (wigner_small_d 1 1 1 (used_angle (- PI))) with 0. { apply injective_projections; cbn; ring. }
  replace (used_angle (- PI)) with (- PI).
  2:{ unfold used_angle. destruct (Rlt_dec _ _) as [L|]; auto. exfalso. pose proof PI_RGT_0. pose proof PI2_1. pose proof tolW_lt_1. unfold tolW in *.
      rewrite Rabs_left in L by lra. lra. }
  unfold wigner_small_d. change (Z.to_nat 1) with 1%nat. change (Z.to_nat ((1 + 1) / 2)) with 1%nat.
  unfold wigner_formula, sumR. cbn [seq map fold_right Nat.leb andb Nat.sub Nat.add Nat.mul pow fact INR].
  replace (- PI / 2) with (- (PI / 2)) by field. rewrite cos_neg, cos_PI2. ring.
Qed.

(** Artificial states cannot be rotated: the call throws. *)
Lemma rotateAll_throw : forall (E : Type) (f : E -> res (list (nat * nat * CR))) l acc,
  (forall e, In e l -> f e <> UB) -> In Throw (map f l) -> acc <> UB ->
  fold_left (fun acc e => do! x <- acc ; do! y <- f e ; Ok (x ++ y)) l acc = Throw.
Proof.
  intros E f l0. induction l0 as [|e l0 IH]; intros acc U I A; [destruct I|].
  assert (Thr : forall l1, fold_left (fun acc e => do! x <- acc ; do! y <- f e ; Ok (x ++ y)) l1 Throw = Throw) by (induction l1; auto).
  cbn [fold_left]. destruct acc as [x| |]; [|apply Thr|contradiction]. cbn [bind]. destruct (f e) as [y| |] eqn:Fe.
  - cbn [bind]. apply IH; [|destruct I as [I|I]; auto; congruence|discriminate]. intros. apply U. right. auto.
  - cbn [bind]. apply Thr.
  - exfalso. apply (U e (or_introl eq_refl) Fe).
Qed.

Theorem C73_artificial : forall tbl a, allowed isreal a -> Forall (fun s => rydberg s \/ n s = 0%Z) (map snd tbl) ->
  Exists (fun s => n s = 0%Z) (map snd tbl) -> rotator tbl a = Throw.
Proof.
  intros tbl [[al be] ga] O P X. unfold staterotator, rotateAll.
  assert (Art : forall e, n (snd e) = 0%Z -> addRotated hs hi hf isreal tbl (al, be, ga) e = Throw).
  { intros e H. unfold addRotated. destruct (isreal && _); auto. unfold getJ2, shouldBeArtificial, isArtificial. rewrite H. reflexivity. }
  rewrite rotateAll_throw; [reflexivity| | |discriminate].
  - intros e I. rewrite Forall_forall in P. destruct (P (snd e)) as [Q|Q]. { apply in_map; auto. }
    + rewrite (@addRotated_eq hs hi hf isreal al be ga O) by (apply rydberg_physical; auto). discriminate.
    + rewrite Art by auto. discriminate.
  - apply Exists_exists in X. destruct X as (s & I & H). apply in_map_iff in I. destruct I as (e & <- & I).
    apply in_map_iff. exists e. auto.
Qed.

(** Real scalars: rotations about the z axis (by anything but full turns) are refused. *)
Theorem C73_real : forall tbl alpha beta gamma, isreal = true -> tbl <> [] ->
  (forall p : Z, / IZR (10 ^ 16) < Rabs (alpha - 2 * PI * IZR p)) \/ (forall p : Z, / IZR (10 ^ 16) < Rabs (gamma - 2 * PI * IZR p)) ->
  rotator tbl (alpha, beta, gamma) = Throw /\ forall tbl2, tbl2 <> [] -> rotator2 tbl2 (alpha, beta, gamma) = Throw.
Proof.
  intros tbl al be ga R N H.
  assert (Off : isreal && (offAxis al || offAxis ga) = true).
  { rewrite R. cbn [andb]. apply orb_true_iff. destruct H as [H|H]; [left|right]; unfold offAxis, remainder2pi.
    - destruct (Rlt_dec _ _) as [|F]; [reflexivity|]. exfalso. apply F. apply H.
    - destruct (Rlt_dec _ _) as [|F]; [reflexivity|]. exfalso. apply F. apply H. }
  split; [|intros t2 N2].
  - unfold staterotator, rotateAll. rewrite rotateAll_throw; [reflexivity| | |discriminate].
    + intros e _. unfold addRotated. rewrite Off. discriminate.
    + destruct tbl as [|e tbl]; [contradiction|]. left. unfold addRotated. rewrite Off. reflexivity.
  - unfold staterotator2, rotateAll2. rewrite rotateAll_throw; [reflexivity| | |discriminate].
    + intros e _. unfold addRotated2. rewrite Off. discriminate.
    + destruct t2 as [|e t2]; [contradiction|]. left. unfold addRotated2. rewrite Off. reflexivity.
Qed.
End C73.

(** A concrete system: the two levels of Rb 60 S1/2, and the pairs of them. *)
Definition rb (m : Z) : state1 := St1 "Rb" "Rb" 60 0 1 m 1 0.
Definition rb_tbl : list (nat * state1) := [(0%nat, rb (-1)); (1%nat, rb 1)].
Definition rb_tbl2 : list (nat * state2) :=
  [(0%nat, St2 (rb (-1)) (rb (-1)) 0); (1%nat, St2 (rb (-1)) (rb 1) 0); (2%nat, St2 (rb 1) (rb (-1)) 0); (3%nat, St2 (rb 1) (rb 1) 0)].
Lemma zeeman_1 : forall m, zeeman 1 m -> m = (-1)%Z \/ m = 1%Z.
Proof. intros m [H E]. assert (m = -1 \/ m = 0 \/ m = 1)%Z as [-> | [-> | ->]] by lia; auto. discriminate. Qed.
Example C73_nonvacuous : table_ok eq1 rb_tbl /\ Forall rydberg (map snd rb_tbl) /\ all_levels (map snd rb_tbl) /\
  table_ok eq2 rb_tbl2 /\ Forall rydberg2 (map snd rb_tbl2) /\ all_levels2 (map snd rb_tbl2) /\
  allowed true (2 * PI, 1, 0) /\ allowed false (1, 2, 3) /\ sequel (1, 2, 3) (4, 0, 0) (1 + 4, 2, 3).
Proof.
  assert (RY : forall m, zeeman 1 m -> rydberg (rb m)) by (intros m H; split; [discriminate|split; [discriminate|exact H]]).
  assert (Zm : zeeman 1 (-1)) by (split; [lia|reflexivity]). assert (Zp : zeeman 1 1) by (split; [lia|reflexivity]).
  split; [split; [reflexivity|repeat constructor]|]. split; [repeat (constructor; [apply RY; auto|]); constructor|].
  split. { intros s m [<- | [<- | []]] H; cbn in H; apply zeeman_1 in H; destruct H as [-> | ->];
    [exists (rb (-1))|exists (rb 1)|exists (rb (-1))|exists (rb 1)]; cbn; intuition. }
  split; [split; [reflexivity|repeat constructor]|]. split; [repeat (constructor; [split; apply RY; auto|]); constructor|].
  split. { intros s m m' I H H'. assert (E : j2 (fst1 s) = 1%Z /\ j2 (snd1 s) = 1%Z /\ n (fst1 s) = 60%Z /\ n (snd1 s) = 60%Z /\ l (fst1 s) = 0%Z /\ l (snd1 s) = 0%Z /\ species (fst1 s) = "Rb"%string /\ species (snd1 s) = "Rb"%string).
    { cbn in I. destruct I as [<- | [<- | [<- | [<- | []]]]]; cbn; intuition. }
    destruct E as (E1 & E2 & E3 & E4 & E5 & E6 & E7 & E8). rewrite E1 in H. rewrite E2 in H'. rewrite E1, E2, E3, E4, E5, E6, E7, E8.
    apply zeeman_1 in H. apply zeeman_1 in H'. clear I E1 E2 E3 E4 E5 E6 E7 E8.
    exists (St2 (rb m) (rb m') 0). split; [|split; cbn; auto 10]. destruct H as [-> | ->], H' as [-> | ->]; cbn; auto 10. }
  split. { intros _. exists 1%Z, 0%Z. cbn. split; ring. }
  split; [discriminate|]. constructor.
Qed.

(** ** C74: fields in another coordinate system *)

Lemma fieldInAngles_eq : forall v al be ga, fieldInAngles v (al, be, ga) = tmulv (buildRotatorE al be ga) v.
Proof.
  intros v al be ga. unfold fieldInAngles, rotateVectorE. cbn [fst snd]. destruct (Req_EM_T (norm3 v) 0) as [E|]; auto.
  apply norm3_zero in E. subst. destruct (buildRotatorE al be ga) as [[[[a b] c] [[d e] f]] [[g h] i]].
  unfold tmulv, col, row, dot, mk3, vx, vy, vz. cbn [fst snd]. apply injective_projections; [apply injective_projections|]; cbn; ring.
Qed.

(** The stored components are the components along the axes y x z, y, z (of length one); nothing is lost. *)
Theorem C74_axes : forall v to_z to_y,
  v <> (0, 0, 0) -> to_z <> (0, 0, 0) -> to_y <> (0, 0, 0) -> dot to_z to_y = 0 ->
  exists w, fieldInAxes v to_z to_y = Ok w /\ dot w w = dot v v /\
    let ez := scale3 (/ sqrt (dot to_z to_z)) to_z in let ey := scale3 (/ sqrt (dot to_y to_y)) to_y in
    vy w = dot v ey /\ vz w = dot v ez /\ vx w = dot v (cross ey ez) /\
    v = add3 (add3 (scale3 (vx w) (cross ey ez)) (scale3 (vy w) ey)) (scale3 (vz w) ez).
Proof. exact axes_components. Qed.

(** Axes that are not orthogonal (cosine of the angle above 1e-16) are refused, others are not. *)
Theorem C74_refused : forall v to_z to_y, v <> (0, 0, 0) -> to_z <> (0, 0, 0) -> to_y <> (0, 0, 0) ->
  (fieldInAxes v to_z to_y = Throw <-> / IZR (10 ^ 16) < Rabs (dot to_z to_y) / (sqrt (dot to_z to_z) * sqrt (dot to_y to_y))).
Proof. exact axes_refused. Qed.

(** Euler angles: the rotation keeps lengths and angles between fields, no rotation is the identity,
    the inverse angles undo it. *)
Theorem C74_angles : forall v w al be ga,
  dot (fieldInAngles v (al, be, ga)) (fieldInAngles w (al, be, ga)) = dot v w /\
  fieldInAngles (fieldInAngles v (al, be, ga)) (- ga, - be, - al) = v /\
  fieldInAngles v (0, 0, 0) = v.
Proof. intros. rewrite !fieldInAngles_eq. split; [apply euler_dot|]. split; [apply euler_back|apply euler_zero]. Qed.

(** Angles and axes agree: for the axes with polar angles (beta, alpha) of z, both give the same field. *)
Theorem C74_angles_axes : forall v al be ga,
  fieldInAxes v (cos al * sin be, sin al * sin be, cos be)
    (- cos al * cos be * sin ga - sin al * cos ga, - sin al * cos be * sin ga + cos al * cos ga, sin be * sin ga) =
  Ok (fieldInAngles v (al, be, ga)).
Proof. intros. destruct (euler_cols al be ga) as (_ & <- & <-). apply axes_angles. Qed.

(** Fields and states are rotated in the same way: the components of the rotated field with respect to the states with j = 1
    (m = -1, 0, 1: e_{-1} = (e_x - i e_y)/sqrt 2, e_0 = e_z, e_{+1} = -(e_x + i e_y)/sqrt 2)
    are obtained with the matrix that rotates the states (C73_entries). *)
Definition component (v : vec) (m2 : Z) : CR :=
  if (m2 =? 0)%Z then (vz v, 0) else if (m2 <? 0)%Z then (vx v / sqrt 2, vy v / sqrt 2) else (- vx v / sqrt 2, vy v / sqrt 2).
Theorem C74_states : forall v al be ga m, zeeman 2 m -> plain be ->
  component (fieldInAngles v (al, be, ga)) m =
  lsum (K := CR) (fun q => smul (s := CR) (wignerD 2 m q (- ga) (- be) (- al)) (component v q)) (levels 2).
Proof.
  intros v al be ga m H R. destruct (zeeman_nat _ _ H) as (k & a & E & -> & La & _). assert (k = 2%nat) by lia. subst k.
  assert (Co : forall u b, (b <= 2)%nat -> component u (mq 2 b) = spherical u b).
  { intros u b Hb. destruct b as [|[|[|b]]]; [reflexivity|reflexivity|reflexivity|lia]. }
  rewrite fieldInAngles_eq, Co, vector_rotation by auto. change (levels 2) with (levels (Z.of_nat 2)). rewrite levels_nat, lsum_map, <- bsum_lsum.
  apply (@bsum_ext CR). intros b Hb. rewrite Co by lia. reflexivity.
Qed.

(** The zero vector is accepted as the z axis: only the component along y survives, the rest of the field is lost without notice. *)
Theorem C85_axis_refuted : exists v to_z to_y w, v <> (0, 0, 0) /\ fieldInAxes v to_z to_y = Ok w /\ dot v v = 1 /\ dot w w = 0.
Proof.
  exists (0, 0, 1), (0, 0, 0), (0, 1, 0).
  assert (N : (0, 0, 1) <> (0, 0, 0)) by (intro E; injection E; lra). assert (N' : (0, 1, 0) <> (0, 0, 0)) by (intro E; injection E; lra).
  destruct (@axes_zero (0, 0, 1) (0, 1, 0) N N') as (w & H & X & Z).
  exists w. split; auto. split; auto. split; [unfold dot, vx, vy, vz; cbn; ring|].
  assert (Y : vy w = 0).
  { unfold rotateVectorA in H. destruct (Req_EM_T _ _) as [E|_]. { apply norm3_zero in E. contradiction. }
    unfold buildRotatorA in H. destruct (Rlt_dec tolW _); [discriminate|]. cbn [bind] in H. injection H as <-.
    destruct (@normalized_unit (0, 1, 0) N') as [-> _]. unfold tmulv, col, row, dot, scale3, mk3, vx, vy, vz. cbn [fst snd]. ring. }
  unfold dot. rewrite X, Y, Z. ring.
Qed.
(** A zero field is stored with any axes, orthogonal or not. *)
Theorem C74_zero_field : forall to_z to_y, fieldInAxes (0, 0, 0) to_z to_y = Ok (0, 0, 0).
Proof.
  intros. unfold fieldInAxes, rotateVectorA. destruct (Req_EM_T _ _) as [|E]; auto. exfalso. apply E. apply norm3_zero. reflexivity.
Qed.
Example C74_nonvacuous : (3, 4, 5) <> (0, 0, 0) /\ dot (1, 1, 0) (1, -1, 0) = 0 /\ dot (1, 1, 0) (1, 0, 0) = 1 /\ zeeman 2 (-2) /\ plain 0.
Proof.
  split; [intro E; injection E; lra|]. split; [unfold dot, vx, vy, vz; cbn; ring|]. split; [unfold dot, vx, vy, vz; cbn; ring|].
  split; [split; [lia|reflexivity]|]. split; rewrite ?Ropp_0; apply snap_0.
Qed.

Print Assumptions C72_formula. Print Assumptions C72_three_angles. Print Assumptions C72_levels. Print Assumptions C72_unitary.
Print Assumptions C72_addition. Print Assumptions C72_inverse. Print Assumptions C72_identity.
Print Assumptions C73_entries. Print Assumptions C73_orthonormal. Print Assumptions C73_orthonormal_pairs. Print Assumptions C73_inverse.
Print Assumptions C73_inverse_pairs. Print Assumptions C73_identity. Print Assumptions C73_identity_pairs. Print Assumptions C73_composition.
Print Assumptions C73_composition_pairs. Print Assumptions C73_norm. Print Assumptions C73_norm_pairs. Print Assumptions C73_unit.
Print Assumptions C73_unit_pairs. Print Assumptions C88_missing_refuted. Print Assumptions C73_artificial. Print Assumptions C73_real.
Print Assumptions C74_axes. Print Assumptions C74_refused. Print Assumptions C74_angles. Print Assumptions C74_angles_axes.
Print Assumptions C74_states. Print Assumptions C85_axis_refuted. Print Assumptions C74_zero_field.
