(** Rotators of one- and two-atom systems as matrices. *)
From Verif Require Import Base StateModel StateProofs LookupModel LookupProofs Matrix FieldModel WignerModel WignerPoly
  WignerProofs WignerProofs2 WignerProofs3 SystemProofs OverlapModel OverlapProofs RotTable PairProofs WignerRot.
From Coq Require Import ZArith Lia Bool Arith Reals Lra String List.
Import ListNotations.
Set Implicit Arguments.
Local Open Scope R_scope.

(** ** Generic part *)
Section Gen.
Context {K : StarRing} {State : Type}.
Add Ring Kr3 : (s_ring K).
Variable seqb : State -> State -> bool.
Hypothesis seq_refl : forall a, seqb a a = true.
Hypothesis seq_sym : forall a b, seqb a b = seqb b a.
Hypothesis seq_trans : forall a b c, seqb a b = true -> seqb b c = true -> seqb a c = true.
Variable tbl : list (nat * State).
Hypothesis Htbl : table_ok seqb tbl.

Lemma nth_tbl : forall i, (i < length tbl)%nat -> exists s, nth_error (map snd tbl) i = Some s /\ In s (map snd tbl).
Proof.
  intros i H. destruct (nth_error (map snd tbl) i) as [s|] eqn:E.
  - exists s. split; auto. eapply nth_error_In; eauto.
  - apply nth_error_None in E. rewrite map_length in E. lia.
Qed.
Lemma seqb_index : forall b c s t, nth_error (map snd tbl) b = Some s -> nth_error (map snd tbl) c = Some t -> seqb s t = Nat.eqb b c.
Proof.
  intros b c s t Hb Hc. rewrite <- (@find_at State seqb seq_refl seq_sym seq_trans tbl Htbl s c t Hc).
  rewrite (@AddProofs.tfind_aligned State seqb seq_refl seq_sym tbl b s Htbl Hb). reflexivity.
Qed.

Section One.
Variable comps : State -> list (State * K).
Definition rot_mat : mat K := mtrip (length tbl) (length tbl) (triplets seqb tbl comps).

Lemma rot_at : forall i c s t, nth_error (map snd tbl) i = Some s -> nth_error (map snd tbl) c = Some t ->
  at_ rot_mat i c = amp seqb comps s t.
Proof. intros. apply triplets_at; auto. Qed.

Hypothesis orth : forall s t, In s (map snd tbl) -> In t (map snd tbl) ->
  lsum (K := K) (fun p => smul (sconj (snd p)) (amp seqb comps (fst p) t)) (comps s) = if seqb s t then s1 else s0.

Theorem gen_isometry : (forall s p, In s (map snd tbl) -> In p (comps s) -> existsb (seqb (fst p)) (map snd tbl) = true) ->
  meq (mmul (madj rot_mat) rot_mat) (mid (length tbl)).
Proof.
  intros C. split; [reflexivity|]. split; [reflexivity|]. intros b c Hb Hc. cbn [mmul madj rot_mat mtrip nr nc] in Hb, Hc.
  destruct (nth_tbl Hb) as (s & Es & Is). destruct (nth_tbl Hc) as (t & Et & It).
  cbn [mmul madj rot_mat mtrip at_ nr nc mid]. rewrite Nat.min_id.
  rewrite (@gram K State seqb seq_refl seq_sym seq_trans tbl Htbl comps b c s t Es Et).
  transitivity (lsum (K := K) (fun p => smul (sconj (snd p)) (amp seqb comps (fst p) t)) (comps s)).
  - apply lsum_ext. intros p Hp. rewrite (C s p Is Hp). reflexivity.
  - rewrite orth by auto. rewrite (seqb_index _ _ Es Et). reflexivity.
Qed.
End One.

(** Products of rotators. *)
Theorem gen_mul : forall (c1 c2 c3 : State -> list (State * K)),
  (forall s t, In s (map snd tbl) -> In t (map snd tbl) ->
     lsum (K := K) (fun p => smul (snd p) (amp seqb c1 s (fst p))) (c2 t) = amp seqb c3 s t) ->
  (forall s p, In s (map snd tbl) -> In p (c2 s) -> existsb (seqb (fst p)) (map snd tbl) = true) ->
  (forall s p t t', In s (map snd tbl) -> In p (c2 s) -> In t (map snd tbl) -> seqb (fst p) t = true -> amp seqb c1 t' t = amp seqb c1 t' (fst p)) ->
  meq (mmul (rot_mat c1) (rot_mat c2)) (rot_mat c3).
Proof.
  intros c1 c2 c3 H C A. split; [reflexivity|]. split; [reflexivity|]. intros b c Hb Hc. cbn [mmul madj rot_mat mtrip nr nc] in Hb, Hc.
  destruct (nth_tbl Hb) as (s & Es & Is). destruct (nth_tbl Hc) as (t & Et & It).
  cbn [mmul at_ nr nc rot_mat mtrip]. rewrite Nat.min_id. fold (rot_mat c3).
  rewrite (@triplets_at K State seqb seq_refl seq_sym seq_trans tbl Htbl c3 b c s t Es Et), <- H by auto.
  rewrite <- (map_length snd tbl) at 1.
  rewrite (@bsum_lsum_nth K State (map snd tbl) _ (fun x => smul (amp seqb c1 s x) (amp seqb c2 x t))).
  2:{ intros i x Hx. rewrite (@triplets_at K State seqb seq_refl seq_sym seq_trans tbl Htbl c1 b i s x Es Hx),
        (@triplets_at K State seqb seq_refl seq_sym seq_trans tbl Htbl c2 i c x t Hx Et). reflexivity. }
  transitivity (lsum (K := K) (fun x => lsum (fun p => smul (snd p) (if seqb (fst p) x then amp seqb c1 s (fst p) else s0)) (c2 t)) (map snd tbl)).
  - apply lsum_ext. intros x Hx. unfold amp at 2. rewrite lsum_mul_l. apply lsum_ext. intros p Hp.
    destruct (seqb (fst p) x) eqn:E; [|ring]. rewrite (A t p x s It Hp Hx E). ring.
  - rewrite lsum_comm. apply lsum_ext. intros p Hp. rewrite <- lsum_mul_l.
    rewrite (@distinct_one K State seqb seq_sym seq_trans (map snd tbl) (fst p) (fun _ => amp seqb c1 s (fst p))).
    + rewrite (C t p It Hp). reflexivity.
    + apply Htbl.
    + reflexivity.
Qed.
End Gen.

(** Squared absolute values are real and not negative. *)
Definition nneg (z : CR) : Prop := 0 <= fst z /\ snd z = 0.
Lemma sq_nneg : forall z : CR, nneg (smul (sconj z) z).
Proof. intros [x y]. split; cbn; [nra|ring]. Qed.
Lemma lsum_le : forall A (f g : A -> CR) l, (forall x, In x l -> fst (f x) <= fst (g x)) -> fst (lsum f l) <= fst (lsum g l).
Proof.
  intros A f g l. induction l as [|x l IH]; intro H; [cbn; lra|]. rewrite !lsum_cons. cbn [sadd CR cadd fst].
  pose proof (H x (or_introl eq_refl)). pose proof (IH (fun y Hy => H y (or_intror Hy))). unfold cadd. cbn [fst]. lra.
Qed.

(** Columns lose norm at most. *)
Theorem gen_columns : forall (State : Type) (seqb : State -> State -> bool),
  (forall a, seqb a a = true) -> (forall a b, seqb a b = seqb b a) ->
  (forall a b c, seqb a b = true -> seqb b c = true -> seqb a c = true) ->
  forall tbl, table_ok seqb tbl -> forall comps : State -> list (State * CR),
  (forall s, In s (map snd tbl) -> lsum (K := CR) (fun p => smul (sconj (snd p)) (amp seqb comps (fst p) s)) (comps s) = @s1 CR) ->
  (forall s p, In s (map snd tbl) -> In p (comps s) -> amp seqb comps (fst p) s = snd p) ->
  forall c, (c < length tbl)%nat -> fst (bsum (K := CR) (length tbl) (fun i => sqabs (at_ (rot_mat seqb tbl comps) i c))) <= 1.
Proof.
  intros State seqb r sy tr tbl T comps O A c Hc. destruct (nth_tbl tbl Hc) as (t & Et & It).
  unfold sqabs. cbn [rot_mat mtrip at_].
  rewrite (@gram CR State seqb r sy tr tbl T comps c c t t Et Et).
  change 1 with (fst (@s1 CR)). rewrite <- (O t It). apply lsum_le. intros p Hp. rewrite (A t p It Hp).
  destruct (sq_nneg (snd p)) as [P _]. destruct (existsb _ _); [lra|]. exact P.
Qed.

(** ** One atom *)
Lemma tolW_lt_1 : tolW < 1.
Proof.
  unfold tolW. apply Rmult_lt_reg_r with (IZR (10 ^ 16)); [apply IZR_lt; reflexivity|].
  rewrite Rinv_l by (apply IZR_neq; discriminate). rewrite Rmult_1_l. apply IZR_lt. reflexivity.
Qed.

Section S1.
Variables (hs : string -> N) (hi : Z -> N) (hf : Z -> N).
Variable isreal : bool.

Definition okangles (a : angles) : Prop :=
  isreal = true -> exists p q : Z, fst (fst a) = 2 * PI * IZR p /\ snd a = 2 * PI * IZR q.
Definition comps (a : angles) : state1 -> list (state1 * CR) := comps1 hs hi hf isreal (fst (fst a)) (snd (fst a)) (snd a).

(** All Zeeman levels of every multiplet are there. *)
Definition complete (l0 : list state1) : Prop :=
  forall s k b, In s l0 -> j2 s = Z.of_nat k -> (b <= k)%nat -> exists t, In t l0 /\ sameMult s t = true /\ m2 t = mq k b.

Lemma okangles_inv : forall al be ga, okangles (al, be, ga) -> okangles (- ga, - be, - al).
Proof.
  intros al be ga H E. destruct (H E) as (p & q & Hp & Hq). cbn [fst snd] in *. exists (- q)%Z, (- p)%Z. rewrite !opp_IZR, Hp, Hq. split; ring.
Qed.

Lemma comps_in : forall a s p k, physical s -> j2 s = Z.of_nat k -> In p (comps a s) ->
  exists b, (b <= k)%nat /\ fst p = newst hs hi hf s (mq k b) /\ snd p = val isreal (fst (fst a)) (snd (fst a)) (snd a) s (mq k b).
Proof.
  intros a s p k P H I. unfold comps, comps1 in I. rewrite H, mup_nat in I. apply in_map_iff in I. destruct I as (m & <- & I).
  apply in_map_iff in I. destruct I as (b & <- & I). apply in_seq in I. exists b. split; [lia|]. auto.
Qed.

Lemma comps_found : forall tbl a s p, Forall physical (map snd tbl) -> complete (map snd tbl) -> In s (map (@snd nat state1) tbl) ->
  In p (comps a s) -> existsb (eq1 (fst p)) (map snd tbl) = true.
Proof.
  intros tbl a s p P C I Hp. rewrite Forall_forall in P. pose proof (P s I) as Q. pose proof Q as (_ & _ & k & b0 & Hk & _).
  destruct (@comps_in a s p k Q Hk Hp) as (b & Lb & -> & _). destruct (C s k b I Hk Lb) as (t & It & S & M).
  apply existsb_exists. exists t. split; auto. apply eq1_iff. destruct (@newst_ok hs hi hf s (mq k b) Q) as (_ & F1 & F2 & F3 & F4 & F5).
  unfold sameMult in S. rewrite !andb_true_iff, !Z.eqb_eq, String.eqb_eq in S. unfold same1. rewrite F1, F2, F3, F4, F5. intuition congruence.
Qed.

Lemma comps_self : forall a s p, okangles a -> physical s -> In p (comps a s) -> amp eq1 (comps a) (fst p) s = snd p.
Proof.
  intros [[al be] ga] s p O P I. pose proof P as (_ & _ & k & c & Hk & Hm & Lc).
  destruct (@comps_in _ s p k P Hk I) as (b & Lb & -> & ->). cbn [fst snd].
  destruct (@newst_ok hs hi hf s (mq k b) P) as (_ & F1 & F2 & F3 & F4 & F5).
  unfold comps. cbn [fst snd].
  rewrite (@amp1_closed hs hi hf isreal al be ga O (newst hs hi hf s (mq k b)) s k b c); auto.
  - replace (sameMult _ _) with true. 2:{ symmetry. unfold sameMult. rewrite F1, F2, F3, F4, !Z.eqb_refl, String.eqb_refl. reflexivity. }
    rewrite (@val_complex isreal al be ga O), Hk, Hm. reflexivity.
  - apply physical_new; auto.
Qed.

Theorem rot1_isometry : forall tbl a, table_ok eq1 tbl -> Forall physical (map snd tbl) -> complete (map snd tbl) -> okangles a ->
  meq (mmul (madj (rot_mat eq1 tbl (comps a))) (rot_mat eq1 tbl (comps a))) (mid (length tbl)).
Proof.
  intros tbl [[al be] ga] T P C O. apply gen_isometry; auto using eq1_refl, eq1_sym. { apply eq1_trans. }
  - intros s t Is It. rewrite Forall_forall in P. apply gram1; auto.
  - intros s p Is Hp. eapply comps_found; eauto.
Qed.

Lemma amp_inverse : forall al be ga s t, okangles (al, be, ga) -> regular be -> physical s -> physical t ->
  amp eq1 (comps (- ga, - be, - al)) s t = sconj (amp eq1 (comps (al, be, ga)) t s).
Proof.
  intros al be ga s t O R Ps Pt. pose proof Ps as (_ & _ & k & a & Hk & Hm & La). pose proof Pt as (_ & _ & k' & b & Hk' & Hm' & Lb).
  pose proof (okangles_inv O) as O'. unfold comps. cbn [fst snd].
  assert (Sy : sameMult s t = sameMult t s).
  { unfold sameMult. rewrite (String.eqb_sym (species s)), (Z.eqb_sym (n s)), (Z.eqb_sym (l s)), (Z.eqb_sym (j2 s)). reflexivity. }
  rewrite (@amp1_closed hs hi hf isreal (- ga) (- be) (- al) O' s t k' a b); auto.
  2:{ intro Q. assert (k' = k) by lia. subst. auto. }
  rewrite (@amp1_closed hs hi hf isreal al be ga O t s k b a); auto.
  2:{ intro Q. assert (k' = k) by lia. subst. auto. }
  rewrite <- Sy. destruct (sameMult s t) eqn:E; [|symmetry; apply sconj_0].
  assert (k' = k). { unfold sameMult in E. rewrite !andb_true_iff, !Z.eqb_eq in E. lia. } subst k'.
  rewrite !Ropp_involutive. rewrite <- (Ropp_involutive al) at 1. rewrite <- (Ropp_involutive be) at 1. rewrite <- (Ropp_involutive ga) at 1.
  apply Dm_inverse; auto. destruct R as [R1 R2]. split; rewrite ?Ropp_involutive; auto.
Qed.

Theorem rot1_inverse : forall tbl al be ga, table_ok eq1 tbl -> Forall physical (map snd tbl) -> okangles (al, be, ga) -> regular be ->
  meq (rot_mat eq1 tbl (comps (- ga, - be, - al))) (madj (rot_mat eq1 tbl (comps (al, be, ga)))).
Proof.
  intros tbl al be ga T P O R. split; [reflexivity|]. split; [reflexivity|]. intros i c Hi Hc. cbn [rot_mat mtrip nr nc] in Hi, Hc.
  destruct (nth_tbl tbl Hi) as (s & Es & Is). destruct (nth_tbl tbl Hc) as (t & Et & It). rewrite Forall_forall in P.
  cbn [madj at_]. rewrite !(@rot_at CR state1 eq1 eq1_refl eq1_sym eq1_trans tbl T _ _ _ s t Es Et),
    !(@rot_at CR state1 eq1 eq1_refl eq1_sym eq1_trans tbl T _ _ _ t s Et Es). apply amp_inverse; auto.
Qed.

Theorem rot1_zero : forall tbl, table_ok eq1 tbl -> Forall physical (map snd tbl) -> meq (rot_mat eq1 tbl (comps (0, 0, 0))) (mid (length tbl)).
Proof.
  intros tbl T P. split; [reflexivity|]. split; [reflexivity|]. intros i c Hi Hc. cbn [rot_mat mtrip nr nc] in Hi, Hc.
  destruct (nth_tbl tbl Hi) as (s & Es & Is). destruct (nth_tbl tbl Hc) as (t & Et & It). rewrite Forall_forall in P.
  rewrite (@rot_at CR state1 eq1 eq1_refl eq1_sym eq1_trans tbl T _ _ _ s t Es Et). cbn [mid at_].
  pose proof (P s Is) as Ps. pose proof (P t It) as Pt. pose proof Ps as (_ & _ & k & a & Hk & Hm & La). pose proof Pt as (_ & _ & k' & b & Hk' & Hm' & Lb).
  assert (O : isreal = true -> exists p q : Z, 0 = 2 * PI * IZR p /\ 0 = 2 * PI * IZR q) by (intros _; exists 0%Z, 0%Z; split; ring).
  unfold comps. cbn [fst snd].
  rewrite (@amp1_closed hs hi hf isreal 0 0 0 O s t k' a b); auto.
  2:{ intro Q. assert (k' = k) by lia. subst. auto. }
  rewrite Ropp_0. unfold delta. rewrite <- (@seqb_index state1 eq1 eq1_refl eq1_sym eq1_trans tbl T i c s t Es Et).
  destruct (sameMult s t) eqn:E.
  - rewrite Dm_0; auto.
    + unfold sameMult in E. rewrite !andb_true_iff, !Z.eqb_eq, String.eqb_eq in E. assert (k' = k) by lia. subst k'.
      replace (eq1 s t) with (Nat.eqb a b); auto. apply eq_true_iff_eq. rewrite Nat.eqb_eq, eq1_iff. unfold same1. rewrite Hm, Hm'. unfold mq. split.
      * intros ->. intuition.
      * intros (_ & _ & _ & _ & Q). lia.
    + assert (k' = k). { unfold sameMult in E. rewrite !andb_true_iff, !Z.eqb_eq in E. lia. } subst; auto.
    + unfold snap. destruct (Rlt_dec _ _) as [L|]; auto. exfalso. rewrite Rminus_0_l, Rabs_Ropp, Rabs_right in L by (pose proof PI_RGT_0; lra).
      pose proof PI2_1. assert (tolW < 1); [|lra]. apply tolW_lt_1.
  - replace (eq1 s t) with false; auto. symmetry. apply not_true_is_false. intro Q. apply eq1_iff in Q. destruct Q as (Q1 & Q2 & Q3 & Q4 & Q5).
    assert (sameMult s t = true); [|congruence]. unfold sameMult. rewrite !andb_true_iff, !Z.eqb_eq, String.eqb_eq. auto.
Qed.
End S1.
