(** C110: combining two systems combines their parameters and symmetries.  C111: the sizes a system reports.

    [incorporate_one]/[incorporate_two] (IncorporateModel.v) are what add() does with the parameters of the two systems; [add] is add() itself
    (SystemModel.v).  [F] are the floating-point numbers and [feqb] their operator==. *)
From Coq Require Import ZArith Lia Bool String Arith List Sorting.Sorted.
Import ListNotations.
From Verif Require Import Base StateModel Matrix LookupModel LookupProofs SystemModel RangeModel SystemProofs SystemInv SettingsModel
  SystemDemo IncorporateModel.
Set Implicit Arguments.

(** *** Symmetries *)

(** states of momentum m are allowed *)
Definition permits (r : option (list Z)) (m : Z) : Prop := match r with None => True | Some l => In m l end.
(** std::set: increasing *)
Definition is_set (r : option (list Z)) : Prop := match r with None => True | Some l => StronglySorted Z.lt l end.
(** with a parity under reflection, the momenta come in pairs m, -m (or all are allowed) *)
Definition reflects (p : parity) (r : option (list Z)) : Prop := p <> NA -> forall m, permits r m -> permits r (- m)%Z.

Lemma in_insert : forall x l m, In m (set_insert x l) <-> m = x \/ In m l.
Proof.
  induction l as [|y l IH]; intros m; cbn; [intuition|].
  destruct (x <? y)%Z; cbn; [intuition|]. destruct (x =? y)%Z eqn:E; cbn; [apply Z.eqb_eq in E; subst; intuition|].
  rewrite IH. intuition.
Qed.
Lemma insert_sorted : forall x l, StronglySorted Z.lt l -> StronglySorted Z.lt (set_insert x l).
Proof.
  induction l as [|y l IH]; intros H; cbn; [repeat constructor|]. inversion H as [|? ? Hs Hf]; subst.
  destruct (Z.ltb_spec x y) as [L|L].
  - constructor; auto. constructor; auto. eapply Forall_impl; [|exact Hf]. cbn; intros; lia.
  - destruct (Z.eqb_spec x y) as [E|E]; auto. constructor; auto.
    apply Forall_forall. intros m Hm. apply in_insert in Hm. destruct Hm as [->|Hm]; [lia|].
    rewrite Forall_forall in Hf. auto.
Qed.
Lemma in_union : forall l2 l m, In m (set_union l l2) <-> In m l \/ In m l2.
Proof.
  induction l2 as [|x l2 IH]; intros l m; cbn; [intuition|]. unfold set_union in *. rewrite IH, in_insert. intuition.
Qed.
Lemma union_sorted : forall l2 l, StronglySorted Z.lt l -> StronglySorted Z.lt (set_union l l2).
Proof. induction l2 as [|x l2 IH]; intros l H; cbn; auto. apply IH, insert_sorted, H. Qed.
Lemma same_set_iff : forall l l2, same_set l l2 = true <-> l = l2.
Proof.
  induction l as [|x l IH]; destruct l2 as [|y l2]; cbn; split; intros H; try congruence; auto.
  - apply andb_true_iff in H. destruct H as [E H]. apply Z.eqb_eq in E. apply IH in H. congruence.
  - inversion H; subst. rewrite Z.eqb_refl. cbn. apply IH. reflexivity.
Qed.
Lemma sorted_ext : forall l l2, StronglySorted Z.lt l -> StronglySorted Z.lt l2 -> (forall m, In m l <-> In m l2) -> l = l2.
Proof.
  induction l as [|x l IH]; destruct l2 as [|y l2]; intros H H2 E; auto.
  - exfalso. apply (proj2 (E y)). left; reflexivity.
  - exfalso. apply (proj1 (E x)). left; reflexivity.
  - inversion H as [|? ? Hs Hf]; inversion H2 as [|? ? Hs2 Hf2]; subst. rewrite Forall_forall in Hf, Hf2.
    assert (x = y).
    { destruct (proj1 (E x) (or_introl eq_refl)) as [|A]; auto. destruct (proj2 (E y) (or_introl eq_refl)) as [|B]; auto.
      specialize (Hf _ B). specialize (Hf2 _ A). lia. }
    subst y. f_equal. apply IH; auto. intros m. split; intros A.
    + destruct (proj1 (E m) (or_intror A)) as [->|]; auto. specialize (Hf _ A). lia.
    + destruct (proj2 (E m) (or_intror A)) as [->|]; auto. specialize (Hf2 _ A). lia.
Qed.
Lemma permits_merge : forall a b m, permits (merge_rotation a b) m <-> permits a m \/ permits b m.
Proof.
  intros [l|] [l2|] m; cbn; try tauto. destruct (same_set l l2) eqn:E; cbn.
  - apply same_set_iff in E. subst. tauto.
  - apply in_union.
Qed.
Lemma merge_is_set : forall a b, is_set a -> is_set b -> is_set (merge_rotation a b).
Proof. intros [l|] [l2|] H H2; cbn in *; auto. destruct (same_set l l2); cbn; auto. apply union_sorted, H. Qed.
Lemma merge_rotation_comm : forall a b, is_set a -> is_set b -> merge_rotation a b = merge_rotation b a.
Proof.
  intros [l|] [l2|] H H2; cbn in *; auto. destruct (same_set l l2) eqn:E.
  - apply same_set_iff in E. subst. rewrite (proj2 (same_set_iff l2 l2) eq_refl). reflexivity.
  - destruct (same_set l2 l) eqn:E2; [apply same_set_iff in E2; subst; rewrite (proj2 (same_set_iff l l) eq_refl) in E; discriminate|].
    f_equal. apply sorted_ext; try (apply union_sorted; assumption). intros m. rewrite !in_union. tauto.
Qed.
Lemma parity_merge : forall a b p, p <> NA -> (merge_parity a b = p <-> a = p /\ b = p).
Proof. intros [| |] [| |] [| |]; cbn; intuition congruence. Qed.
Lemma parity_comm : forall a b, merge_parity a b = merge_parity b a.
Proof. intros [| |] [| |]; reflexivity. Qed.
Lemma reflects_merge : forall pa pb a b, reflects pa a -> reflects pb b -> reflects (merge_parity pa pb) (merge_rotation a b).
Proof.
  unfold reflects. intros pa pb a b A B N m P. apply permits_merge in P. apply permits_merge.
  destruct P; [left; apply A|right; apply B]; auto; destruct pa, pb; cbn in *; congruence.
Qed.

Section I.
Variable F A : Type.
Variable feqb : F -> F -> bool.
Notation one := (one_par F).
Notation two := (two_par F A).

Ltac checks H := repeat match type of H with (if negb ?c then _ else _) = _ => destruct c eqn:?; cbn [negb] in H; [|discriminate H] end.
Definition one_agrees (a b : one) : Prop :=
  o_species a = o_species b /\ veqb feqb (o_efield a) (o_efield b) = true /\ veqb feqb (o_bfield a) (o_bfield b) = true /\
  o_diamagnetism a = o_diamagnetism b.
Definition two_agrees (a b : two) : Prop :=
  t_species a = t_species b /\ feqb (t_dx a) (t_dx b) = true /\ feqb (t_dy a) (t_dy b) = true /\ feqb (t_dz a) (t_dz b) = true /\
  t_order a = t_order b.

(** Two systems of one atom are combined if, and only if, species, electric field, magnetic field and diamagnetism agree; otherwise the
    user gets an exception. *)
Theorem C110_one_accepted : forall a b : one,
  (one_agrees a b -> exists c, incorporate_one feqb a b = Ok c) /\ (~ one_agrees a b -> incorporate_one feqb a b = Throw).
Proof.
  intros a b. unfold one_agrees, incorporate_one. split.
  - intros (S & E & B & D). rewrite S, E, B, D, String.eqb_refl, eqb_reflx. cbn. eauto.
  - intros N. destruct (String.eqb_spec (o_species a) (o_species b)); cbn; auto.
    destruct (veqb feqb (o_efield a) (o_efield b)); cbn; auto. destruct (veqb feqb (o_bfield a) (o_bfield b)); cbn; auto.
    destruct (Bool.eqb (o_diamagnetism a) (o_diamagnetism b)) eqn:D; cbn; auto. apply eqb_prop in D. exfalso. tauto.
Qed.
(** ... and of two atoms: species, distance vector and order. *)
Theorem C110_two_accepted : forall a b : two,
  (two_agrees a b -> exists c, incorporate_two feqb a b = Ok c) /\ (~ two_agrees a b -> incorporate_two feqb a b = Throw).
Proof.
  intros a b. unfold two_agrees, incorporate_two. split.
  - intros (S & X & Y & Z & O). rewrite S, X, Y, Z, O, !String.eqb_refl, Nat.eqb_refl. cbn. eauto.
  - intros N. destruct (String.eqb_spec (fst (t_species a)) (fst (t_species b))) as [S1|]; cbn; auto.
    destruct (String.eqb_spec (snd (t_species a)) (snd (t_species b))) as [S2|]; cbn; auto.
    destruct (feqb (t_dx a) (t_dx b)); cbn; auto. destruct (feqb (t_dy a) (t_dy b)); cbn; auto. destruct (feqb (t_dz a) (t_dz b)); cbn; auto.
    destruct (Nat.eqb_spec (t_order a) (t_order b)); cbn; auto. exfalso. apply N. repeat split; auto.
    destruct (t_species a), (t_species b); cbn in *; congruence.
Qed.

Lemma one_result : forall a b c : one, incorporate_one feqb a b = Ok c -> one_agrees a b /\
  c = OnePar (o_species a) (o_efield a) (o_bfield a) (o_diamagnetism a) (o_charge a) (o_order a) (o_distance a)
        (merge_parity (o_refl a) (o_refl b)) (merge_rotation (o_rot a) (o_rot b)).
Proof.
  intros a b c H. unfold incorporate_one in H. checks H. inversion H; subst. split; auto. repeat split; auto.
  - apply String.eqb_eq; assumption.
  - apply eqb_prop; assumption.
Qed.
Lemma two_result : forall a b c : two, incorporate_two feqb a b = Ok c -> two_agrees a b /\
  c = TwoPar (t_atoms a) (t_species a) (t_dx a) (t_dy a) (t_dz a) (t_green a) (t_surface a) (t_order a)
        (merge_parity (t_perm a) (t_perm b)) (merge_parity (t_inv a) (t_inv b)) (merge_parity (t_refl a) (t_refl b))
        (merge_rotation (t_rot a) (t_rot b)).
Proof.
  intros a b c H. unfold incorporate_two in H. checks H. inversion H; subst. split; auto. repeat split; auto.
  - destruct (t_species a), (t_species b); cbn in *.
    repeat match goal with E : String.eqb _ _ = true |- _ => apply String.eqb_eq in E end. congruence.
  - apply Nat.eqb_eq; assumption.
Qed.

(** The combined system of one atom has the parameters both systems had.
    Missing for the full claim: charge, distance and order of the ion, which are not compared (refuted below). *)
Theorem C110_one_partial : (forall x y, feqb x y = true -> x = y) -> forall a b c : one, incorporate_one feqb a b = Ok c ->
  forall d, d = a \/ d = b ->
  o_species c = o_species d /\ o_efield c = o_efield d /\ o_bfield c = o_bfield d /\ o_diamagnetism c = o_diamagnetism d.
Proof.
  intros Q a b c H d D. destruct (one_result _ _ H) as ((S & E & B & M) & ->). cbn.
  assert (V : forall u v : vec F, veqb feqb u v = true -> u = v).
  { intros [[u1 u2] u3] [[v1 v2] v3] W. cbn in W. rewrite !andb_true_iff in W. destruct W as [[W1 W2] W3]. apply Q in W1, W2, W3. congruence. }
  apply V in E, B. destruct D as [-> | ->]; auto.
Qed.
(** ... and of two atoms.  Missing: whether the Green tensor is used, the distance of the surface, and the fields and bases of the one-atom
    systems (refuted below). *)
Theorem C110_two_partial : (forall x y, feqb x y = true -> x = y) -> forall a b c : two, incorporate_two feqb a b = Ok c ->
  forall d, d = a \/ d = b ->
  t_species c = t_species d /\ (t_dx c, t_dy c, t_dz c) = (t_dx d, t_dy d, t_dz d) /\ t_order c = t_order d.
Proof.
  intros Q a b c H d D. destruct (two_result _ _ H) as ((S & X & Y & Z & O) & ->). cbn. apply Q in X, Y, Z.
  destruct D as [-> | ->]; repeat split; congruence.
Qed.

(** The combined system conserves a parity if, and only if, both systems conserve this parity; its momenta are those of the one together
    with those of the other. *)
Theorem C110_one_symmetries : forall a b c : one, incorporate_one feqb a b = Ok c ->
  (forall p, p <> NA -> (o_refl c = p <-> o_refl a = p /\ o_refl b = p)) /\
  (forall m, permits (o_rot c) m <-> permits (o_rot a) m \/ permits (o_rot b) m) /\
  (is_set (o_rot a) -> is_set (o_rot b) -> is_set (o_rot c)).
Proof.
  intros a b c H. destruct (one_result _ _ H) as (_ & ->). cbn.
  split; [intros; apply parity_merge; auto|]. split; [apply permits_merge|apply merge_is_set].
Qed.
Theorem C110_two_symmetries : forall a b c : two, incorporate_two feqb a b = Ok c ->
  (forall p, p <> NA -> (t_perm c = p <-> t_perm a = p /\ t_perm b = p) /\ (t_inv c = p <-> t_inv a = p /\ t_inv b = p) /\
     (t_refl c = p <-> t_refl a = p /\ t_refl b = p)) /\
  (forall m, permits (t_rot c) m <-> permits (t_rot a) m \/ permits (t_rot b) m) /\
  (is_set (t_rot a) -> is_set (t_rot b) -> is_set (t_rot c)).
Proof.
  intros a b c H. destruct (two_result _ _ H) as (_ & ->). cbn.
  split; [intros p N; rewrite !parity_merge by assumption; tauto|]. split; [apply permits_merge|apply merge_is_set].
Qed.
(** If in both systems the momenta are compatible with the parity under reflection, they are in the combined one: what the setters
    enforce (C108) holds after add() too. *)
Theorem C110_reflection : (forall a b c : one, incorporate_one feqb a b = Ok c ->
    reflects (o_refl a) (o_rot a) -> reflects (o_refl b) (o_rot b) -> reflects (o_refl c) (o_rot c)) /\
  (forall a b c : two, incorporate_two feqb a b = Ok c ->
    reflects (t_refl a) (t_rot a) -> reflects (t_refl b) (t_rot b) -> reflects (t_refl c) (t_rot c)).
Proof.
  split; intros a b c H.
  - destruct (one_result _ _ H) as (_ & ->). cbn. apply reflects_merge.
  - destruct (two_result _ _ H) as (_ & ->). cbn. apply reflects_merge.
Qed.
(** [reflects] is what the setters check. *)
Theorem C110_reflection_checked : forall p r, mirror_compatible p r = true <-> reflects p r.
Proof.
  intros p [l|]; unfold mirror_compatible, reflects; cbn; [|tauto].
  assert (W : forallb (fun m => existsb (Z.eqb (- m)%Z) l) l = true <-> (forall m, In m l -> In (- m)%Z l)).
  { rewrite forallb_forall. split; intros H m Hm; specialize (H m Hm).
    - apply existsb_exists in H. destruct H as (x & Hx & Ex). apply Z.eqb_eq in Ex. subst x. exact Hx.
    - apply existsb_exists. exists (- m)%Z. split; [exact H|apply Z.eqb_refl]. }
  destruct p; rewrite ?W; intuition congruence.
Qed.
(** Which of the two systems add() is called for matters for nothing that is compared, nor for the symmetries. *)
Theorem C110_either_order : (forall x y, feqb x y = true -> x = y) -> (forall x, feqb x x = true) ->
  (forall a b c : one, is_set (o_rot a) -> is_set (o_rot b) -> incorporate_one feqb a b = Ok c -> exists d, incorporate_one feqb b a = Ok d /\
    o_species d = o_species c /\ o_efield d = o_efield c /\ o_bfield d = o_bfield c /\ o_diamagnetism d = o_diamagnetism c /\
    o_refl d = o_refl c /\ o_rot d = o_rot c) /\
  (forall a b c : two, is_set (t_rot a) -> is_set (t_rot b) -> incorporate_two feqb a b = Ok c -> exists d, incorporate_two feqb b a = Ok d /\
    t_species d = t_species c /\ (t_dx d, t_dy d, t_dz d) = (t_dx c, t_dy c, t_dz c) /\ t_order d = t_order c /\
    t_perm d = t_perm c /\ t_inv d = t_inv c /\ t_refl d = t_refl c /\ t_rot d = t_rot c).
Proof.
  intros Q Q2. split; intros a b c Sa Sb H.
  - pose proof (fun d => @C110_one_partial Q _ _ _ H d) as P. pose proof (P a (or_introl eq_refl)) as (A1 & A2 & A3 & A4).
    pose proof (P b (or_intror eq_refl)) as (B1 & B2 & B3 & B4).
    assert (V : forall u : vec F, veqb feqb u u = true) by (intros [[u1 u2] u3]; cbn; rewrite !Q2; reflexivity).
    destruct (proj1 (C110_one_accepted b a)) as [d Hd].
    { repeat split; congruence. }
    exists d. split; [exact Hd|]. pose proof (fun e => @C110_one_partial Q _ _ _ Hd e) as P2. pose proof (P2 a (or_intror eq_refl)) as (D1 & D2 & D3 & D4).
    destruct (one_result _ _ Hd) as (_ & ->). destruct (one_result _ _ H) as (_ & ->). cbn in *.
    repeat split; try congruence; [apply parity_comm|apply merge_rotation_comm; assumption].
  - pose proof (fun d => @C110_two_partial Q _ _ _ H d) as P. pose proof (P a (or_introl eq_refl)) as (A1 & A2 & A3).
    pose proof (P b (or_intror eq_refl)) as (B1 & B2 & B3).
    destruct (proj1 (C110_two_accepted b a)) as [d Hd].
    { inversion A2; inversion B2. repeat split; congruence. }
    exists d. split; [exact Hd|]. pose proof (fun e => @C110_two_partial Q _ _ _ Hd e) as P2. pose proof (P2 a (or_intror eq_refl)) as (D1 & D2 & D3).
    destruct (two_result _ _ Hd) as (_ & ->). destruct (two_result _ _ H) as (_ & ->). cbn in *.
    repeat split; try congruence; try apply parity_comm. apply merge_rotation_comm; assumption.
Qed.
End I.

(** *** add() *)
Section Add.
Context {K : StarRing} {State Param Key Angle : Type}.
Variable seqb : State -> State -> bool.
Variable sgen : State -> bool.
Variable keqb : Key -> Key -> bool.
Variable qvalid : ranges -> State -> bool.
Variable v_init : Param -> @request K State -> list (nat * State) * res (mat K * mat K).
Variable v_keys : Param -> list (Key * K).
Variable v_op : Key -> State -> State -> K.
Variable v_rot : Angle -> list (nat * State) -> list (nat * nat * K).
Variable v_compat : Param -> Param -> res Param.
Variable v_label : list State -> (nat -> K) -> nat -> State.
Notation sysT := (@sys K State Param Key).
Notation XbuildBasis := (buildBasis seqb qvalid v_init).
Notation Xadd := (add seqb qvalid v_init v_compat).

(** If the parameters of the two systems do not agree, add() throws and the system is what it was: the basis the user would have got
    otherwise, with the same parameters, states, basis vectors, Hamiltonian and interaction. *)
Theorem C110_refused : forall (s s1 o : sysT) orth, XbuildBasis s = (s1, Ok tt) -> v_compat (par s1) (par o) = Throw ->
  Xadd o orth s = (s1, Throw).
Proof. intros s s1 o orth E C. unfold add, andThen. rewrite E, C. reflexivity. Qed.

(** If add() succeeds, the parameters agreed and the new system has the combined ones; memory saving, and what the Hamiltonians contain,
    agreed too; operators of the interaction are calculated anew for the enlarged basis. *)
Theorem C110_combined : forall (s s1 o s' : sysT) orth, XbuildBasis s = (s1, Ok tt) -> Xadd o orth s = (s', Ok tt) ->
  v_compat (par s1) (par o) = Ok (par s') /\ memsave s1 = memsave o /\ contained s1 = contained o /\ required s1 = required o /\
  memsave s' = memsave o /\ contained s' = contained o /\ required s' = required o /\ ops s' = [] /\ orth = true.
Proof.
  intros s s1 o s' orth E H. unfold add, andThen in H. rewrite E in H. destruct (v_compat (par s1) (par o)) as [p| |]; try discriminate.
  cbn zeta in H. cbn [memsave contained required deleteInteraction set_par set_ops states] in H.
  destruct (Bool.eqb (memsave s1) (memsave o)) eqn:E1; cbn [negb] in H; [|discriminate].
  destruct (Bool.eqb (contained s1) (contained o)) eqn:E2; cbn [negb] in H; [|discriminate].
  destruct (Bool.eqb (required s1) (required o)) eqn:E3; cbn [negb] in H; [|discriminate].
  apply eqb_prop in E1, E2, E3.
  destruct (merge_states seqb (states s1) (states o)) as [tbl tr].
  match type of H with (if ?c then _ else _) = _ => destruct c; [discriminate|] end.
  destruct orth; cbn [negb] in H; [|discriminate].
  match type of H with (if ?c then _ else _) = _ => destruct c; [discriminate|] end.
  match type of H with (if ?c then _ else _) = _ => destruct c end.
  - match type of H with (if ?c then _ else _) = _ => destruct c; [discriminate|] end.
    inversion H; subst s'; clear H.
    match goal with |- context [if ?c then _ else _] => destruct c end; cbn; repeat split; auto.
  - inversion H; subst s'; clear H.
    match goal with |- context [if ?c then _ else _] => destruct c end; cbn; repeat split; auto.
Qed.

(** *** C111 *)
Notation Xhistory := (SystemInv.history (Angle := Angle) seqb sgen keqb qvalid v_init v_keys v_op v_rot v_compat v_label).
Notation Xrun := (run (Angle := Angle) seqb sgen keqb qvalid v_init v_keys v_op v_rot v_compat v_label).
Notation NumB := (getNumBasisvectors seqb qvalid v_init).
Notation NumS := (getNumStates seqb qvalid v_init).

(** After any history of calls, getNumStates and getNumBasisvectors return - whenever the basis exists - the number of states getStates
    returns, which is the number of rows of getBasisvectors, and the number of its columns, which is the number of rows and of columns of
    getHamiltonian.  They never complain about inconsistent variables.
    Missing for the full claim: histories in which add() or unitarize() threw (refuted below). *)
Theorem C111_numbers_partial : init_ok seqb v_init ->
  forall p ms th l, Xhistory l (new_sys p ms th) ->
  forall s, XbuildBasis (fst (Xrun l (new_sys p ms th))) = (s, Ok tt) ->
  exists ns nb, NumS (fst (Xrun l (new_sys p ms th))) = (s, Ok ns) /\ NumB (fst (Xrun l (new_sys p ms th))) = (s, Ok nb) /\
    ns = length (states s) /\ ns = nr (bv s) /\ nb = nc (bv s) /\ nb = nr (ham s) /\ nb = nc (ham s) /\ ns <> 0 /\ nb <> 0.
Proof.
  intros HI p ms th l Hl s E.
  assert (I : inv seqb (fst (Xrun l (new_sys p ms th)))).
  { apply run_inv; auto. left. apply wfs_new. }
  destruct (inv_visible qvalid HI I E) as [(_ & R & H1 & H2 & _) (_ & _ & Z & _)].
  exists (length (states s)), (nc (bv s)). unfold getNumStates, getNumBasisvectors. rewrite E, R, H1, H2, !Nat.eqb_refl. cbn.
  unfold msize in Z. rewrite R in Z. repeat split; auto; intros Q; rewrite Q in Z; nia.
Qed.

(** In whatever state the system is: a number that is returned is the right one. *)
Theorem C111_returned : forall (s s' : sysT) n,
  (NumS s = (s', Ok n) -> XbuildBasis s = (s', Ok tt) /\ n = length (states s') /\ n = nr (bv s')) /\
  (NumB s = (s', Ok n) -> XbuildBasis s = (s', Ok tt) /\ n = nc (bv s') /\ n = nr (ham s') /\ n = nc (ham s')).
Proof.
  intros s s' n. unfold getNumStates, getNumBasisvectors. destruct (XbuildBasis s) as [s1 [[]| |]] eqn:E; (split; intros H); try discriminate.
  - destruct (nr (bv s1) =? length (states s1))%nat eqn:Q; rewrite Nat.eqb_refl in H; cbn in H; [|discriminate].
    apply Nat.eqb_eq in Q. inversion H; subst. auto.
  - rewrite Nat.eqb_refl in H. cbn in H.
    destruct (nc (bv s1) =? nr (ham s1))%nat eqn:Q; cbn in H; [|discriminate].
    destruct (nc (bv s1) =? nc (ham s1))%nat eqn:Q2; cbn in H; [|discriminate].
    apply Nat.eqb_eq in Q, Q2. inversion H; subst. auto.
Qed.
End Add.

(** *** Counterexamples, in the small system of SystemDemo.v whose coupling is proportional to the charge of the ion *)
Notation zone := (one_par Z).
Definition z_keys (p : zone) : list (nat * ZR) := [(1%nat, o_charge p : ZR)].
Notation zsys := (@sys ZR nat zone nat).
Notation zcall := (@call ZR nat zone nat unit).
Definition zinit (p : zone) := d_init [].
Definition zexec (c : zcall) (s : zsys) := exec Nat.eqb (fun _ => false) Nat.eqb d_valid zinit z_keys d_op d_rot (incorporate_one Z.eqb) d_label c s.
Definition zrun (l : list zcall) (s : zsys) := run Nat.eqb (fun _ => false) Nat.eqb d_valid zinit z_keys d_op d_rot (incorporate_one Z.eqb) d_label l s.
Definition znew (ms : bool) (p : zone) : zsys := new_sys p ms (0%Z : ZR).
Definition zview (s : zsys) := (map snd (states s), mrows (bv s), mrows (ham s)).
(** an atom near an ion *)
Definition near (charge distance : Z) (p : parity) : zone :=
  OnePar "Rb" (0, 0, 0)%Z (0, 0, 0)%Z true charge 3 distance p None.

(** The parameters of the ion are not compared: a system calculated with a charge 1 at distance 5 and one with a charge 2 at distance 8
    are combined without complaint into one whose Hamiltonian belongs to no position of an ion.  The result claims charge 1, distance 5. *)
Theorem C110_ion_refuted : exists s o s' : zsys,
  s = fst (zrun [CAddStates [10; 11]; CSet (near 1 5 NA); CBuild] (znew false (near 1 5 NA))) /\
  o = fst (zrun [CAddStates [20; 21]; CSet (near 2 8 NA); CBuild] (znew false (near 2 8 NA))) /\
  zexec (CAdd o true) s = (s', Ok tt) /\
  zexec CBuild s' = (s', Ok tt) /\
  zview s' = ([10; 11; 20; 21], [[1; 0; 0; 0]; [0; 1; 0; 0]; [0; 0; 1; 0]; [0; 0; 0; 1]]%Z,
              [[10; 1; 0; 0]; [1; 11; 0; 0]; [0; 0; 20; 2]; [0; 0; 2; 21]]%Z) /\
  (o_charge (par s'), o_distance (par s')) = (1, 5)%Z.
Proof. do 3 eexists. split; [reflexivity|]. split; [reflexivity|]. split; [vm_compute; reflexivity|]. vm_compute. auto. Qed.

(** Nor are the distance of the surface, the use of the Green tensor, and the one-atom systems of two systems of two atoms. *)
Theorem C110_surface_refuted : exists a b c : two_par Z bool,
  t_surface a <> t_surface b /\ t_green a <> t_green b /\ t_atoms a <> t_atoms b /\
  incorporate_two Z.eqb a b = Ok c /\ t_surface c = t_surface a /\ t_green c = t_green a /\ t_atoms c = t_atoms a.
Proof.
  exists (TwoPar true ("Rb", "Rb")%string 0%Z 0%Z 10%Z true 3%Z 3 EVEN NA NA None),
    (TwoPar false ("Rb", "Rb")%string 0%Z 0%Z 10%Z false 9%Z 3 ODD NA NA None). eexists.
  repeat split; cbn; congruence.
Qed.

(** An add() that throws has changed the system nevertheless: memory_saving is compared only after the symmetries were combined and the
    operators of the interaction were thrown away. *)
Theorem C110_failed_refuted : exists s o s' : zsys,
  s = fst (zrun [CAddStates [10; 11]; CSet (near 1 5 EVEN); CBuildInt] (znew false (near 1 5 EVEN))) /\
  o = fst (zrun [CAddStates [20; 21]; CSet (near 1 5 ODD); CBuildInt] (znew true (near 1 5 ODD))) /\
  zexec (CAdd o true) s = (s', Throw) /\
  o_refl (par s) = EVEN /\ o_refl (par s') = NA /\ List.length (ops s) = 1 /\ ops s' = [].
Proof. do 3 eexists. split; [reflexivity|]. split; [reflexivity|]. split; [vm_compute; reflexivity|]. vm_compute. auto. Qed.

(** Non-vacuity: systems of opposite parity and different momenta are combined. *)
Example C110_example : 
  incorporate_one Z.eqb (OnePar "Rb" (1, 0, 2)%Z (0, 0, 0)%Z true 0%Z 0 9%Z EVEN (Some [-1; 1]%Z))
                        (OnePar "Rb" (1, 0, 2)%Z (0, 0, 0)%Z true 0%Z 0 9%Z ODD (Some [-3; 1; 3]%Z)) =
  Ok (OnePar "Rb" (1, 0, 2)%Z (0, 0, 0)%Z true 0%Z 0 9%Z NA (Some [-3; -1; 1; 3]%Z)) /\
  incorporate_two Z.eqb (TwoPar tt ("Rb", "Cs")%string 0%Z 0%Z 10%Z true 3%Z 3 EVEN ODD ODD (Some [0]%Z))
                        (TwoPar tt ("Rb", "Cs")%string 0%Z 0%Z 10%Z true 3%Z 3 ODD ODD NA (Some [1; 2]%Z)) =
  Ok (TwoPar tt ("Rb", "Cs")%string 0%Z 0%Z 10%Z true 3%Z 3 NA ODD NA (Some [0; 1; 2]%Z)) /\
  incorporate_one Z.eqb (near 1 5 EVEN) (OnePar "Cs" (0, 0, 0)%Z (0, 0, 0)%Z true 1%Z 3 5%Z EVEN None) = Throw /\
  reflects EVEN (Some [-1; 1]%Z) /\ is_set (Some [-3; -1; 1; 3]%Z).
Proof.
  split; [reflexivity|]. split; [reflexivity|]. split; [reflexivity|]. split.
  - intros _ m [<-|[<-|[]]]; cbn; auto.
  - cbn. repeat constructor.
Qed.
(** Non-vacuity of C110_refused and C110_combined *)
Example C110_add_example :
  let s := fst (zrun [CAddStates [10; 11]; CSet (near 1 5 EVEN); CBuild] (znew false (near 1 5 EVEN))) in
  let o := fst (zrun [CAddStates [20; 21]; CSet (near 1 5 ODD); CBuild] (znew false (near 1 5 ODD))) in
  buildBasis Nat.eqb d_valid zinit s = (s, Ok tt) /\ snd (zexec (CAdd o true) s) = Ok tt /\
  incorporate_one Z.eqb (par s) (OnePar "Rb" (0, 0, 1)%Z (0, 0, 0)%Z true 1%Z 3 5%Z EVEN None) = Throw.
Proof. cbv zeta. split; [vm_compute; reflexivity|]. split; vm_compute; reflexivity. Qed.

(** C111 after an exception of add(): getNumBasisvectors throws, now and at every later call, although getBasisvectors and getStates
    go on to return something. *)
Theorem C111_failed_add_refuted : exists (s o s' : dsys),
  s = fst (drun [CAddStates [10; 11]; CBasis] (dnew [])) /\
  o = fst (drun [CAddStates [11; 12]; CBasis] (dnew [])) /\
  dexec (CAdd o false) s = (s', Throw) /\
  dexec CBasis s' = (s', Ok tt) /\ getNumBasisvectors Nat.eqb d_valid d_init s' = (s', Throw) /\
  getNumStates Nat.eqb d_valid d_init s' = (s', Ok 3) /\ nc (bv s') = 4 /\ nc (ham s') = 2.
Proof. do 3 eexists. split; [reflexivity|]. split; [reflexivity|]. split; [vm_compute; reflexivity|]. vm_compute. auto. Qed.
(** After an exception of unitarize() getNumStates throws instead. *)
Theorem C111_failed_unitarize_refuted : exists s' : dsys,
  dexec CUnitarize (fst (drun [CAddStates [10; 11; 12]] (dnew []))) = (s', Throw) /\
  dexec CBasis s' = (s', Ok tt) /\ getNumStates Nat.eqb d_valid d_init s' = (s', Throw) /\
  getNumBasisvectors Nat.eqb d_valid d_init s' = (s', Ok 3) /\ List.length (states s') = 2.
Proof. eexists. split; [vm_compute; reflexivity|]. vm_compute. auto. Qed.
(** Non-vacuity of C111_numbers_partial: after states were added, built, restricted and constrained *)
Example C111_example :
  let l := [CAddStates [10; 11; 12]; CSet [(1%nat, 5%Z)]; CBuild; CRestrict no_ranges None (Some (12%Z : ZR)); CBasis; CConstrain [1%nat]]%nat in
  SystemInv.history Nat.eqb (fun _ => false) Nat.eqb d_valid d_init d_keys d_op d_rot d_compat d_label l (dnew []) /\
  (match getNumStates Nat.eqb d_valid d_init (fst (drun l (dnew []))) with (_, Ok n) => n | _ => 0 end,
   match getNumBasisvectors Nat.eqb d_valid d_init (fst (drun l (dnew []))) with (_, Ok n) => n | _ => 0 end) = (2, 1).
Proof. cbv zeta. split; vm_compute; intuition (try reflexivity; discriminate). Qed.

Print Assumptions C110_one_accepted. Print Assumptions C110_two_accepted. Print Assumptions C110_one_partial. Print Assumptions C110_two_partial.
Print Assumptions C110_one_symmetries. Print Assumptions C110_two_symmetries. Print Assumptions C110_reflection. Print Assumptions C110_reflection_checked.
Print Assumptions C110_either_order. Print Assumptions C110_refused. Print Assumptions C110_combined. Print Assumptions C110_ion_refuted.
Print Assumptions C110_surface_refuted. Print Assumptions C110_failed_refuted.
Print Assumptions C111_numbers_partial. Print Assumptions C111_returned. Print Assumptions C111_failed_add_refuted. Print Assumptions C111_failed_unitarize_refuted.
