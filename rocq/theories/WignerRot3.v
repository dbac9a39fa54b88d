(** Rotators: column norms, products of rotators, rotators of pair systems. *)
From Verif Require Import Base StateModel StateProofs LookupModel LookupProofs Matrix FieldModel WignerModel WignerPoly
  WignerProofs WignerProofs2 WignerProofs3 SystemProofs OverlapModel OverlapProofs RotTable PairProofs WignerRot WignerRot2.
From Coq Require Import ZArith Lia Bool Arith Reals Lra String List.
Import ListNotations.
Set Implicit Arguments.
Local Open Scope R_scope.

(** Three sets of Euler angles whose D-matrices multiply. *)
Definition Dm3 (n : nat) (a : angles) (i c : nat) : CR := Dm n (fst (fst a)) (snd (fst a)) (snd a) i c.
Definition multiply (A B C : angles) : Prop := forall n a c, (a <= n)%nat -> (c <= n)%nat ->
  bsum (K := CR) (S n) (fun b => smul (Dm3 n A a b) (Dm3 n B b c)) = Dm3 n C a c.
(** The inverse rotation (the one addRotated uses). *)
Definition back (a : angles) : angles := (- snd a, - snd (fst a), - fst (fst a)).

Lemma multiply_y : forall x y, snap x = x -> snap y = y -> snap (x + y) = x + y ->
  multiply (0, x, 0) (0, y, 0) (0, x + y, 0).
Proof. intros x y X Y XY n a c Ha Hc. apply Dm_add; auto. Qed.

Lemma snap_0 : snap 0 = 0.
Proof.
  unfold snap. destruct (Rlt_dec _ _) as [L|]; auto. exfalso. rewrite Rminus_0_l, Rabs_Ropp, Rabs_right in L by (pose proof PI_RGT_0; lra).
  pose proof PI2_1. pose proof tolW_lt_1. lra.
Qed.

Lemma cis_mul : forall x y, smul (s := CR) (cis x) (cis y) = cis (x + y).
Proof. intros. unfold cis. cbn. unfold cmul. cbn. rewrite cos_plus, sin_plus. f_equal; ring. Qed.

Lemma Dm_z : forall n x a b, (a <= n)%nat -> (b <= n)%nat -> Dm n x 0 0 a b = smul (delta a b) (cis (- mh n a * x)).
Proof.
  intros n x a b Ha Hb. rewrite Dm_closed by auto. rewrite snap_0, dpoly_0, Rmult_0_r, cis_0. unfold delta.
  destruct (Nat.eqb a b); apply injective_projections; cbn; ring.
Qed.
Lemma Dm_z' : forall n x a b, (a <= n)%nat -> (b <= n)%nat -> Dm n 0 0 x a b = smul (cis (- mh n b * x)) (delta a b).
Proof.
  intros n x a b Ha Hb. rewrite Dm_closed by auto. rewrite snap_0, dpoly_0, Rmult_0_r, cis_0. unfold delta.
  destruct (Nat.eqb a b); apply injective_projections; cbn; ring.
Qed.

Lemma multiply_z : forall x al be ga, multiply (x, 0, 0) (al, be, ga) (x + al, be, ga).
Proof.
  intros x al be ga n a c Ha Hc. unfold Dm3. cbn [fst snd].
  transitivity (bsum (K := CR) (S n) (fun b => smul (delta a b) (smul (cis (- mh n a * x)) (Dm n al be ga b c)))).
  - apply (@bsum_ext CR). intros b Hb. rewrite Dm_z by lia. cring.
  - rewrite (@bsum_delta_l CR (S n) a (fun b => smul (cis (- mh n a * x)) (Dm n al be ga b c))) by lia.
    rewrite !Dm_closed by auto. replace (- mh n a * (x + al)) with (- mh n a * x + - mh n a * al) by ring. rewrite <- cis_mul. cring.
Qed.
Lemma multiply_z' : forall x al be ga, multiply (al, be, ga) (0, 0, x) (al, be, ga + x).
Proof.
  intros x al be ga n a c Ha Hc. unfold Dm3. cbn [fst snd].
  transitivity (bsum (K := CR) (S n) (fun b => smul (smul (Dm n al be ga a b) (cis (- mh n c * x))) (delta b c))).
  - apply (@bsum_ext CR). intros b Hb. rewrite Dm_z' by lia. cring.
  - rewrite (@bsum_delta_r CR (S n) c (fun b => smul (Dm n al be ga a b) (cis (- mh n c * x)))) by lia.
    rewrite !Dm_closed by auto. replace (- mh n c * (ga + x)) with (- mh n c * ga + - mh n c * x) by ring. rewrite <- cis_mul. cring.
Qed.

Section S1.
Variables (hs : string -> N) (hi : Z -> N) (hf : Z -> N).
Variable isreal : bool.
Notation comps := (comps hs hi hf isreal).

Theorem rot1_columns : forall tbl a, table_ok eq1 tbl -> Forall physical (map snd tbl) -> okangles isreal a -> forall c, (c < length tbl)%nat ->
  fst (bsum (K := CR) (length tbl) (fun i => sqabs (at_ (rot_mat eq1 tbl (comps a)) i c))) <= 1.
Proof.
  intros tbl [[al be] ga] T P O c Hc. rewrite Forall_forall in P. apply gen_columns; auto using eq1_refl, eq1_sym. { apply eq1_trans. }
  - intros s Is. unfold WignerRot2.comps. cbn [fst snd]. rewrite (@gram1 hs hi hf isreal al be ga O s s); auto. rewrite eq1_refl. reflexivity.
  - intros s p Is Hp. apply comps_self; auto.
Qed.

Lemma comps_cong : forall a s t, physical s -> same1 s t -> comps a s = comps a t.
Proof.
  intros a s t P (E1 & E2 & E3 & E4 & E5). unfold WignerRot2.comps, comps1. rewrite <- E4. apply map_ext. intro m.
  assert (Pt : physical t). { destruct P as (Hn & Hs & k & b & P). repeat split; try congruence. exists k, b. rewrite <- E4, <- E5. auto. }
  destruct (@newst_ok hs hi hf s m P) as (Q & _). destruct (@newst_ok hs hi hf t m Pt) as (Q' & _).
  rewrite <- E1, <- E2, <- E3, <- E4, Q in Q'. injection Q' as Q'. rewrite Q'. unfold val. rewrite <- E4, <- E5. reflexivity.
Qed.

Lemma amp_mul : forall A B C s t, okangles isreal A -> okangles isreal B -> okangles isreal C ->
  multiply (back A) (back B) (back C) -> physical s -> physical t ->
  lsum (K := CR) (fun p => smul (snd p) (amp eq1 (comps A) s (fst p))) (comps B t) = amp eq1 (comps C) s t.
Proof.
  intros [[a1 a2] a3] [[b1 b2] b3] [[c1 c2] c3] s t OA OB OC M Ps Pt.
  pose proof Ps as (_ & _ & k & a & Hk & Hm & La). pose proof Pt as (_ & _ & k' & c & Hk' & Hm' & Lc).
  unfold back in M. cbn [fst snd] in M. unfold WignerRot2.comps. cbn [fst snd].
  rewrite (@amp1_closed hs hi hf isreal c1 c2 c3 OC s t k' a c); auto.
  2:{ intro Q. assert (k' = k) by lia. subst. auto. }
  unfold comps1 at 2. rewrite Hk', mup_nat, !lsum_map, <- bsum_lsum.
  destruct (sameMult s t) eqn:E.
  - assert (k' = k). { unfold sameMult in E. rewrite !andb_true_iff, !Z.eqb_eq in E. lia. } subst k'.
    pose proof (M k a c La Lc) as H. unfold Dm3 in H. cbn [fst snd] in H. rewrite <- H. apply (@bsum_ext CR). intros b Hb. cbn [fst snd].
    destruct (@newst_ok hs hi hf t (mq k b) Pt) as (_ & F1 & F2 & F3 & F4 & F5).
    rewrite (@amp1_closed hs hi hf isreal a1 a2 a3 OA s (newst hs hi hf t (mq k b)) k a b); auto; try lia; try congruence.
    2:{ apply physical_new; auto; lia. }
    replace (sameMult s _) with true by (symmetry; unfold sameMult in *; rewrite F1, F2, F3, F4; exact E).
    rewrite (@val_complex isreal b1 b2 b3 OB), Hk', Hm'. fold (Dm k (- b3) (- b2) (- b1) b c). cring.
  - apply (@bsum_zero CR). intros b Hb. cbn [fst snd]. destruct (@newst_ok hs hi hf t (mq k' b) Pt) as (_ & F1 & F2 & F3 & F4 & F5).
    rewrite (@amp1_closed hs hi hf isreal a1 a2 a3 OA s (newst hs hi hf t (mq k' b)) k' a b); auto; try lia; try congruence.
    + replace (sameMult s _) with false by (symmetry; unfold sameMult in *; rewrite F1, F2, F3, F4; exact E). cring.
    + apply physical_new; auto; lia.
    + intro Q. assert (k' = k) by lia. subst. auto.
Qed.

Theorem rot1_mul : forall tbl A B C, table_ok eq1 tbl -> Forall physical (map snd tbl) -> complete (map snd tbl) ->
  okangles isreal A -> okangles isreal B -> okangles isreal C -> multiply (back A) (back B) (back C) ->
  meq (mmul (rot_mat eq1 tbl (comps A)) (rot_mat eq1 tbl (comps B))) (rot_mat eq1 tbl (comps C)).
Proof.
  intros tbl A B C T P Co OA OB OC M. pose proof P as P'. rewrite Forall_forall in P'. apply gen_mul; auto using eq1_refl, eq1_sym. { apply eq1_trans. }
  - intros s t Is It. apply amp_mul; auto.
  - intros s p Is Hp. eapply comps_found; eauto.
  - intros s p t t' Is Hp It E. unfold amp. rewrite (@comps_cong A t (fst p)); auto. apply eq1_iff. rewrite eq1_sym. exact E.
Qed.

(** ** Pairs *)
Definition comps2 (a : angles) (s : state2) : list (state2 * CR) :=
  flat_map (fun p => map (fun q => (mkTwo_pair (fst p) (fst q), smul (s := CR) (snd p) (snd q))) (comps a (snd1 s))) (comps a (fst1 s)).
Definition physical2 (s : state2) : Prop := physical (fst1 s) /\ physical (snd1 s).
Definition complete2 (l0 : list state2) : Prop :=
  forall s k k' b b', In s l0 -> j2 (fst1 s) = Z.of_nat k -> j2 (snd1 s) = Z.of_nat k' -> (b <= k)%nat -> (b' <= k')%nat ->
  exists t, In t l0 /\ sameMult (fst1 s) (fst1 t) = true /\ m2 (fst1 t) = mq k b /\
            sameMult (snd1 s) (snd1 t) = true /\ m2 (snd1 t) = mq k' b'.

Lemma lsum_comps2 : forall a s (f : state2 * CR -> CR),
  lsum f (comps2 a s) = lsum (fun p => lsum (fun q => f (mkTwo_pair (fst p) (fst q), smul (s := CR) (snd p) (snd q))) (comps a (snd1 s))) (comps a (fst1 s)).
Proof. intros. unfold comps2. rewrite lsum_flat. apply lsum_ext. intros p _. rewrite lsum_map. reflexivity. Qed.

(** Two factors. *)
Lemma lsum2_prod : forall A B (f : A -> CR) (g : B -> CR) l l',
  lsum (fun p => lsum (fun q => smul (s := CR) (f p) (g q)) l') l = smul (s := CR) (lsum f l) (lsum g l').
Proof.
  intros. rewrite lsum_mul_r. apply lsum_ext. intros p _. symmetry. apply lsum_mul_l.
Qed.

Lemma amp2 : forall a s t, amp eq2 (comps2 a) s t = smul (s := CR) (amp eq1 (comps a) (fst1 s) (fst1 t)) (amp eq1 (comps a) (snd1 s) (snd1 t)).
Proof.
  intros. unfold amp at 1. rewrite lsum_comps2. unfold amp. rewrite <- lsum2_prod.
  apply lsum_ext. intros p _. apply lsum_ext. intros q _. unfold eq2. cbn [fst snd fst1 snd1 mkTwo_pair].
  destruct (eq1 (fst p) (fst1 s)), (eq1 (fst q) (snd1 s)); cbn [andb]; cring.
Qed.

Lemma eq2_refl' : forall s, eq2 s s = true.
Proof. intro. unfold eq2. rewrite !eq1_refl. reflexivity. Qed.
Lemma eq2_sym' : forall s t, eq2 s t = eq2 t s.
Proof. intros. unfold eq2. rewrite (eq1_sym (fst1 s)), (eq1_sym (snd1 s)). reflexivity. Qed.
Lemma eq2_trans' : forall s t u, eq2 s t = true -> eq2 t u = true -> eq2 s u = true.
Proof. intros s t u. unfold eq2. rewrite !andb_true_iff. intros [A B] [C D]. split; eapply eq1_trans; eauto. Qed.

Lemma gram2 : forall a s t, okangles isreal a -> physical2 s -> physical2 t ->
  lsum (K := CR) (fun p => smul (sconj (snd p)) (amp eq2 (comps2 a) (fst p) t)) (comps2 a s) = if eq2 s t then @s1 CR else @s0 CR.
Proof.
  intros [[al be] ga] s t O [P1 P2] [Q1 Q2]. rewrite lsum_comps2. cbn [fst snd].
  rewrite (lsum_ext _ (fun p => lsum (fun q => smul (s := CR) (smul (sconj (snd p)) (amp eq1 (comps (al, be, ga)) (fst p) (fst1 t)))
     (smul (sconj (snd q)) (amp eq1 (comps (al, be, ga)) (fst q) (snd1 t)))) (comps (al, be, ga) (snd1 s)))).
  2:{ intros p _. apply lsum_ext. intros q _. rewrite amp2, s_conj_mul. cbn [fst1 snd1 mkTwo_pair]. cring. }
  rewrite lsum2_prod. unfold WignerRot2.comps. cbn [fst snd].
  rewrite (@gram1 hs hi hf isreal al be ga O (fst1 s) (fst1 t)), (@gram1 hs hi hf isreal al be ga O (snd1 s) (snd1 t)) by auto.
  unfold eq2. destruct (eq1 (fst1 s) (fst1 t)), (eq1 (snd1 s) (snd1 t)); cbn [andb]; cring.
Qed.

Lemma comps2_in : forall a s x, In x (comps2 a s) -> exists p q, In p (comps a (fst1 s)) /\ In q (comps a (snd1 s)) /\
  x = (mkTwo_pair (fst p) (fst q), smul (s := CR) (snd p) (snd q)).
Proof.
  intros a s x H. unfold comps2 in H. apply in_flat_map in H. destruct H as (p & Hp & H). apply in_map_iff in H. destruct H as (q & <- & Hq). eauto 6.
Qed.

Lemma comps2_found : forall tbl a s x, Forall physical2 (map snd tbl) -> complete2 (map snd tbl) -> In s (map (@snd nat state2) tbl) ->
  In x (comps2 a s) -> existsb (eq2 (fst x)) (map snd tbl) = true.
Proof.
  intros tbl a s x P C I Hx. apply comps2_in in Hx. destruct Hx as (p & q & Hp & Hq & ->). rewrite Forall_forall in P. destruct (P s I) as [P1 P2].
  pose proof P1 as (_ & _ & k & c & Hk & _). pose proof P2 as (_ & _ & k' & c' & Hk' & _).
  destruct (@comps_in hs hi hf isreal a _ p k P1 Hk Hp) as (b & Lb & Ep & _). destruct (@comps_in hs hi hf isreal a _ q k' P2 Hk' Hq) as (b' & Lb' & Eq & _).
  destruct (C s k k' b b' I Hk Hk' Lb Lb') as (t & It & S1 & M1 & S2 & M2).
  apply existsb_exists. exists t. split; auto. unfold eq2. cbn [fst fst1 snd1 mkTwo_pair]. rewrite andb_true_iff, !eq1_iff, Ep, Eq.
  destruct (@newst_ok hs hi hf (fst1 s) (mq k b) P1) as (_ & F1 & F2 & F3 & F4 & F5).
  destruct (@newst_ok hs hi hf (snd1 s) (mq k' b') P2) as (_ & G1 & G2 & G3 & G4 & G5).
  unfold sameMult in S1, S2. rewrite !andb_true_iff, !Z.eqb_eq, String.eqb_eq in S1, S2. unfold same1.
  rewrite F1, F2, F3, F4, F5, G1, G2, G3, G4, G5. intuition congruence.
Qed.

Theorem rot2_isometry : forall tbl a, table_ok eq2 tbl -> Forall physical2 (map snd tbl) -> complete2 (map snd tbl) -> okangles isreal a ->
  meq (mmul (madj (rot_mat eq2 tbl (comps2 a))) (rot_mat eq2 tbl (comps2 a))) (mid (length tbl)).
Proof.
  intros tbl a T P C O. apply gen_isometry; auto using eq2_refl', eq2_sym'. { apply eq2_trans'. }
  - intros s t Is It. rewrite Forall_forall in P. apply gram2; auto.
  - intros s p Is Hp. eapply comps2_found; eauto.
Qed.

Theorem rot2_columns : forall tbl a, table_ok eq2 tbl -> Forall physical2 (map snd tbl) -> okangles isreal a -> forall c, (c < length tbl)%nat ->
  fst (bsum (K := CR) (length tbl) (fun i => sqabs (at_ (rot_mat eq2 tbl (comps2 a)) i c))) <= 1.
Proof.
  intros tbl a T P O c Hc. rewrite Forall_forall in P. apply gen_columns; auto using eq2_refl', eq2_sym'. { apply eq2_trans'. }
  - intros s Is. rewrite gram2 by auto. rewrite eq2_refl'. reflexivity.
  - intros s x Is Hx. apply comps2_in in Hx. destruct Hx as (p & q & Hp & Hq & ->). destruct (P s Is) as [P1 P2].
    rewrite amp2. cbn [fst snd fst1 snd1 mkTwo_pair]. rewrite !comps_self by auto. reflexivity.
Qed.

Theorem rot2_mul : forall tbl A B C, table_ok eq2 tbl -> Forall physical2 (map snd tbl) -> complete2 (map snd tbl) ->
  okangles isreal A -> okangles isreal B -> okangles isreal C -> multiply (back A) (back B) (back C) ->
  meq (mmul (rot_mat eq2 tbl (comps2 A)) (rot_mat eq2 tbl (comps2 B))) (rot_mat eq2 tbl (comps2 C)).
Proof.
  intros tbl A B C T P Co OA OB OC M. pose proof P as P'. rewrite Forall_forall in P'. apply gen_mul; auto using eq2_refl', eq2_sym'. { apply eq2_trans'. }
  - intros s t Is It. destruct (P' s Is) as [P1 P2], (P' t It) as [Q1 Q2]. rewrite lsum_comps2. cbn [fst snd].
    rewrite (lsum_ext _ (fun p => lsum (fun q => smul (s := CR) (smul (snd p) (amp eq1 (comps A) (fst1 s) (fst p)))
       (smul (snd q) (amp eq1 (comps A) (snd1 s) (fst q)))) (comps B (snd1 t)))).
    2:{ intros p _. apply lsum_ext. intros q _. rewrite amp2. cbn [fst1 snd1 mkTwo_pair]. cring. }
    rewrite lsum2_prod, (@amp_mul A B C), (@amp_mul A B C), amp2 by auto. reflexivity.
  - intros s p Is Hp. eapply comps2_found; eauto.
  - intros s x t t' Is Hx It E. rewrite !amp2. unfold eq2 in E. rewrite andb_true_iff, !eq1_iff in E. destruct E as [E1 E2].
    destruct (P' t It) as [Q1 Q2]. unfold amp.
    rewrite (@comps_cong A (fst1 t) (fst1 (fst x))), (@comps_cong A (snd1 t) (snd1 (fst x))); auto; apply eq1_iff; rewrite eq1_sym; apply eq1_iff; auto.
Qed.

Theorem rot2_inverse : forall tbl a, table_ok eq2 tbl -> Forall physical2 (map snd tbl) -> okangles isreal a -> regular (snd (fst a)) ->
  meq (rot_mat eq2 tbl (comps2 (back a))) (madj (rot_mat eq2 tbl (comps2 a))).
Proof.
  intros tbl [[al be] ga] T P O R. split; [reflexivity|]. split; [reflexivity|]. intros i c Hi Hc. cbn [rot_mat mtrip nr nc] in Hi, Hc.
  destruct (nth_tbl tbl Hi) as (s & Es & Is). destruct (nth_tbl tbl Hc) as (t & Et & It). rewrite Forall_forall in P.
  destruct (P s Is) as [P1 P2], (P t It) as [Q1 Q2].
  cbn [madj at_]. rewrite !(@rot_at CR state2 eq2 eq2_refl' eq2_sym' eq2_trans' tbl T _ _ _ s t Es Et),
    !(@rot_at CR state2 eq2 eq2_refl' eq2_sym' eq2_trans' tbl T _ _ _ t s Et Es), !amp2. unfold back. cbn [fst snd].
  rewrite !amp_inverse by auto. rewrite s_conj_mul. cring.
Qed.

Lemma amp_zero : forall s t, physical s -> physical t -> amp eq1 (comps (0, 0, 0)) s t = if eq1 s t then @s1 CR else @s0 CR.
Proof.
  intros s t Ps Pt. pose proof Ps as (_ & _ & k & a & Hk & Hm & La). pose proof Pt as (_ & _ & k' & b & Hk' & Hm' & Lb).
  assert (O : isreal = true -> exists p q : Z, 0 = 2 * PI * IZR p /\ 0 = 2 * PI * IZR q) by (intros _; exists 0%Z, 0%Z; split; ring).
  unfold WignerRot2.comps. cbn [fst snd].
  rewrite (@amp1_closed hs hi hf isreal 0 0 0 O s t k' a b); auto.
  2:{ intro Q. assert (k' = k) by lia. subst. auto. }
  rewrite Ropp_0. destruct (sameMult s t) eqn:E.
  - unfold sameMult in E. rewrite !andb_true_iff, !Z.eqb_eq, String.eqb_eq in E. assert (k' = k) by lia. subst k'.
    rewrite Dm_0; auto using snap_0.
    replace (eq1 s t) with (Nat.eqb a b); auto. apply eq_true_iff_eq. rewrite Nat.eqb_eq, eq1_iff. unfold same1. rewrite Hm, Hm'. unfold mq. split.
    + intros ->. intuition.
    + intros (_ & _ & _ & _ & Q). lia.
  - replace (eq1 s t) with false; auto. symmetry. apply not_true_is_false. intro Q. apply eq1_iff in Q. destruct Q as (Q1 & Q2 & Q3 & Q4 & Q5).
    assert (sameMult s t = true); [|congruence]. unfold sameMult. rewrite !andb_true_iff, !Z.eqb_eq, String.eqb_eq. auto.
Qed.

Theorem rot2_zero : forall tbl, table_ok eq2 tbl -> Forall physical2 (map snd tbl) -> meq (rot_mat eq2 tbl (comps2 (0, 0, 0))) (mid (length tbl)).
Proof.
  intros tbl T P. split; [reflexivity|]. split; [reflexivity|]. intros i c Hi Hc. cbn [rot_mat mtrip nr nc] in Hi, Hc.
  destruct (nth_tbl tbl Hi) as (s & Es & Is). destruct (nth_tbl tbl Hc) as (t & Et & It). rewrite Forall_forall in P.
  destruct (P s Is) as [P1 P2], (P t It) as [Q1 Q2].
  rewrite (@rot_at CR state2 eq2 eq2_refl' eq2_sym' eq2_trans' tbl T _ _ _ s t Es Et), amp2, !amp_zero by auto. cbn [mid at_]. unfold delta.
  rewrite <- (@seqb_index state2 eq2 eq2_refl' eq2_sym' eq2_trans' tbl T i c s t Es Et). unfold eq2.
  destruct (eq1 (fst1 s) (fst1 t)), (eq1 (snd1 s) (snd1 t)); cbn [andb]; cring.
Qed.

(** The model's rotator of a pair system. *)
Lemma addRotated2_eq : forall tbl a e, okangles isreal a -> physical2 (snd e) ->
  addRotated2 hs hi hf isreal tbl a e =
  Ok (flat_map (fun p => match tfind eq2 tbl (fst p) with Some i => [(i, fst e, snd p)] | None => [] end) (comps2 a (snd e))).
Proof.
  intros tbl [[al be] ga] [c s] O [P1 P2]. cbn [fst snd] in *. unfold addRotated2. rewrite (@angles_pass isreal al ga) by auto. cbn [fst snd].
  destruct (getters P1) as (-> & -> & -> & -> & ->). destruct (getters P2) as (-> & -> & -> & -> & ->). cbn [bind].
  unfold comps2, WignerRot2.comps, comps1. cbn [fst snd].
  pose proof P2 as (_ & _ & k' & c' & Hk' & _).
  assert (V : forall m, In m (mup (j2 (snd1 s))) ->
    nth_error (map (fun m => convert isreal (wignerD (j2 (snd1 s)) m (m2 (snd1 s)) (- ga) (- be) (- al))) (mup (j2 (snd1 s)))) (Z.to_nat (half (m + j2 (snd1 s)))) =
    Some (val isreal al be ga (snd1 s) m)).
  { intros m Hm. rewrite Hk' in *. rewrite mup_nat in *. apply in_map_iff in Hm. destruct Hm as (b & <- & Hb). apply in_seq in Hb.
    replace (Z.to_nat (half (mq k' b + Z.of_nat k'))) with b.
    2:{ unfold half, mq. replace (2 * Z.of_nat b - Z.of_nat k' + Z.of_nat k')%Z with (Z.of_nat b * 2)%Z by ring. rewrite Z.quot_mul by discriminate. lia. }
    rewrite !nth_error_map, (nth_error_nth' _ 0%nat) by (rewrite seq_length; lia). rewrite seq_nth by lia. cbn [option_map plus]. unfold val. rewrite Hk'. reflexivity. }
  set (val2 := map _ _) in *. clearbody val2.
  assert (G : forall m1 ms acc, (forall m, In m ms -> In m (mup (j2 (snd1 s)))) ->
    fold_left (fun acc m => do! l0 <- acc; do! x <- mkTwo hs hi hf (species (fst1 s)) (species (snd1 s)) (n (fst1 s)) (n (snd1 s)) (l (fst1 s)) (l (snd1 s)) (j2 (fst1 s)) (j2 (snd1 s)) m1 m;
      match tfind eq2 tbl x with
      | Some i => match nth_error val2 (Z.to_nat (half (m + j2 (snd1 s)))) with
          | Some v => Ok (l0 ++ [(i, c, cmul (convert isreal (wignerD (j2 (fst1 s)) m1 (m2 (fst1 s)) (- ga) (- be) (- al))) v)]) | None => UB end
      | None => Ok l0 end) ms (Ok acc) =
    Ok (acc ++ flat_map (fun p => match tfind eq2 tbl (fst p) with Some i => [(i, c, snd p)] | None => [] end)
      (map (fun q => (mkTwo_pair (newst hs hi hf (fst1 s) m1) (fst q), smul (s := CR) (val isreal al be ga (fst1 s) m1) (snd q)))
         (map (fun m => (newst hs hi hf (snd1 s) m, val isreal al be ga (snd1 s) m)) ms)))).
  { intro m1. induction ms as [|m ms IH]; intros acc Hms; cbn [fold_left map flat_map]. { rewrite app_nil_r. reflexivity. }
    destruct (@newst_ok hs hi hf (fst1 s) m1 P1) as (E & _). destruct (@newst_ok hs hi hf (snd1 s) m P2) as (E' & _).
    cbn [bind]. unfold mkTwo at 2. rewrite E, E'. cbn [bind fst snd].
    destruct (tfind eq2 tbl _).
    - rewrite V by (apply Hms; left; auto). rewrite IH, <- app_assoc by (intros; apply Hms; right; auto). reflexivity.
    - rewrite IH by (intros; apply Hms; right; auto). reflexivity. }
  assert (G2 : forall ms acc,
    fold_left (fun acc m1 => fold_left (fun acc m => do! l0 <- acc; do! x <- mkTwo hs hi hf (species (fst1 s)) (species (snd1 s)) (n (fst1 s)) (n (snd1 s)) (l (fst1 s)) (l (snd1 s)) (j2 (fst1 s)) (j2 (snd1 s)) m1 m;
      match tfind eq2 tbl x with
      | Some i => match nth_error val2 (Z.to_nat (half (m + j2 (snd1 s)))) with
          | Some v => Ok (l0 ++ [(i, c, cmul (convert isreal (wignerD (j2 (fst1 s)) m1 (m2 (fst1 s)) (- ga) (- be) (- al))) v)]) | None => UB end
      | None => Ok l0 end) (mup (j2 (snd1 s))) acc) ms (Ok acc) =
    Ok (acc ++ flat_map (fun p => match tfind eq2 tbl (fst p) with Some i => [(i, c, snd p)] | None => [] end)
      (flat_map (fun p => map (fun q => (mkTwo_pair (fst p) (fst q), smul (s := CR) (snd p) (snd q)))
         (map (fun m => (newst hs hi hf (snd1 s) m, val isreal al be ga (snd1 s) m)) (mup (j2 (snd1 s)))))
        (map (fun m => (newst hs hi hf (fst1 s) m, val isreal al be ga (fst1 s) m)) ms)))).
  { induction ms as [|m ms IH]; intro acc; cbn [fold_left map flat_map]. { rewrite app_nil_r. reflexivity. }
    rewrite G by auto. rewrite IH, flat_map_app, <- app_assoc. reflexivity. }
  apply (G2 _ []).
Qed.

Theorem staterotator2_eq : forall tbl a, okangles isreal a -> Forall (fun e => physical2 (snd e)) tbl ->
  staterotator2 hs hi hf isreal tbl a = Ok (rot_mat eq2 tbl (comps2 a)).
Proof.
  intros tbl a O P. unfold staterotator2, rotateAll2, rot_mat, triplets.
  assert (G : forall l acc, Forall (fun e => physical2 (snd e)) l ->
    fold_left (fun acc e => do! l0 <- acc; do! l' <- addRotated2 hs hi hf isreal tbl a e; Ok (l0 ++ l')) l (Ok acc) =
    Ok (acc ++ flat_map (fun e => flat_map (fun p => match tfind eq2 tbl (fst p) with Some i => [(i, fst e, snd p)] | None => [] end) (comps2 a (snd e))) l)).
  { intro es; induction es as [|e es IH]; intros acc F; cbn [fold_left flat_map]. { rewrite app_nil_r. reflexivity. }
    inversion F; subst. cbn [bind]. rewrite addRotated2_eq by auto. cbn [bind]. rewrite IH by auto. rewrite <- app_assoc. reflexivity. }
  rewrite (G tbl [] P). reflexivity.
Qed.

Theorem staterotator1_eq : forall tbl a, okangles isreal a -> Forall (fun e => physical (snd e)) tbl ->
  staterotator hs hi hf isreal tbl a = Ok (rot_mat eq1 tbl (comps a)).
Proof. intros tbl [[al be] ga] O P. rewrite staterotator_eq; auto. Qed.
End S1.
