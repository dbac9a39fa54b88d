(** C108: the settings that determine the basis of a pair.

    [step]: one event (a setter, a restriction, addStates, getting the basis, or any other method) and what it returns; [history]: the object
    after a list of events (SettingsModel).  [settings]: the conserved symmetries and the chosen pairs of one-atom basis vectors.
    [initBasis2]: the basis SystemTwo::initializeBasis builds (PropPair, PropUser) for these settings and a request; [now s]: the settings of the object. *)
From Coq Require Import ZArith Lia Bool String Arith List.
Import ListNotations.
From Verif Require Import Base StateModel StateProofs Matrix LookupModel SystemModel RangeModel PairModel PairDemo PropPair PropUser SettingsModel.
Set Implicit Arguments.
Local Open Scope nat_scope.
Local Open Scope list_scope.

Section P.
Context {K : StarRing} {P Key : Type}.
Variables (hs : string -> N) (hi hf : Z -> N) (rt : K) (energy : state1 -> res K) (sys1 sys2 : @onesys K) (species1 species2 : string).
Variable qvalid : ranges -> state2 -> bool.
Variable sq_thr : K.
Notation psys := (@sys K state2 (@param P) Key).
Notation ev := (@event K P Key).
Notation step := (@step K P Key hs hi hf rt energy sys1 sys2 species1 species2 qvalid sq_thr).
Notation history := (@history K P Key hs hi hf rt energy sys1 sys2 species1 species2 qvalid sq_thr).
Notation init_pair := (@init_pair K P hs hi hf rt energy sys1 sys2 species1 species2 sq_thr).

(** the settings of an object, the request waiting for the next build, and the basis *)
Definition now (s : psys) : settings := fst (par s).
Definition symmetries (s : psys) := (g_perm (now s), g_inv (now s), g_refl (now s), g_rot (now s)).
Definition waiting (s : psys) : @request K state2 := Request (rg s) (emin s) (emax s) (toadd s).
Definition the_basis (s : psys) := (states s, bv s, ham s).

(** the basis exists before and after each of the events *)
Fixpoint basis_exists (es : list ev) (s : psys) : Prop :=
  states s <> [] /\ match es with [] => True | e :: es => basis_exists es (fst (step e s)) end.

Lemma unique_nodup : forall ps : list (nat * nat), NoDup ps -> idx_unique ps = true.
Proof using. intros ps N. destruct (idx_unique ps) eqn:E; auto. destruct (C41_accepted ps []) as [[Q _]|[_ Q]]; [|contradiction].
  unfold setOneAtomBasisvectors in Q. rewrite E in Q. discriminate. Qed.
Lemma is_nil_ne : forall A (l : list A), l <> [] -> is_nil l = false.
Proof using. intros A [|x l]; [congruence|reflexivity]. Qed.
Lemma par_remove : forall f (s : psys), par (removeStates eq2 f s) = par s.
Proof using. reflexivity. Qed.
Lemma par_update : forall (s : psys), par (fst (updateEverything eq2 qvalid s)) = par s.
Proof using.
  intro s. unfold updateEverything.
  assert (A : forall g (t : psys), par (if ranges_empty g then t else removeStates eq2 (fun e => qvalid g (snd e)) t) = par t)
    by (intros g t; destruct (ranges_empty g); [reflexivity|apply par_remove]).
  set (s1 := if ranges_empty (rg s) then s else _). assert (B : par s1 = par s) by apply A. clearbody s1.
  destruct (_ && _).
  - destruct (is_nil (toadd s1)); cbn; exact B.
  - destruct (negb _); [exact B|].
    match goal with |- context [removeStates _ ?f ?t] => set (u := removeStates eq2 f t); assert (C : par u = par s) by (unfold u; rewrite par_remove; exact B) end.
    clearbody u. destruct (is_nil (toadd u)); cbn; exact C.
Qed.
Lemma par_build : forall (s : psys) i, par (fst (buildBasis eq2 qvalid i s)) = par s.
Proof using.
  intros s i. unfold buildBasis. destruct (negb _); [reflexivity|]. destruct (_ && _ && _ && _ && _); [reflexivity|].
  destruct (is_nil (states s)).
  - destruct (i _ _) as [tbl [[b h]| |]]; cbn; try reflexivity. repeat match goal with |- context [if ?c then _ else _] => destruct c end; reflexivity.
  - pose proof (par_update s) as U. destruct (updateEverything eq2 qvalid s) as [s1 [[]| |]]; cbn in U |- *; auto.
    repeat match goal with |- context [if ?c then _ else _] => destruct c end; exact U.
Qed.

(** As long as the basis exists, the setters of the symmetries are refused and change nothing. *)
Theorem C108_locked : forall (s : psys) e, states s <> [] ->
  (match e with SetPermutation _ | SetInversion _ | SetReflection _ | SetRotation _ _ => True | _ => False end) ->
  step e s = (s, Throw).
Proof using.
  intros s e H E. destruct e; try destruct E; cbn [SettingsModel.step]; unfold onSymmetryChange; rewrite (is_nil_ne H); auto.
  destruct (arb && _); reflexivity.
Qed.

(** The symmetries in force stay those the basis was built with, whatever is called while it exists. *)
Theorem C108_kept : forall es (s : psys), basis_exists es s -> symmetries (history es s) = symmetries s.
Proof using.
  induction es as [|e es IH]; intros s H; [reflexivity|]. destruct H as [H1 H2]. cbn [SettingsModel.history]. rewrite (IH _ H2). clear IH H2.
  assert (L := @C108_locked s e H1).
  destruct e as [| | | | | | | |f k]; try (rewrite (L I); reflexivity).
  - cbn [SettingsModel.step]. unfold setOneAtomBasisvectors. destruct (idx_unique ps); reflexivity.
  - reflexivity.
  - reflexivity.
  - cbn [SettingsModel.step]. unfold symmetries, now. rewrite par_build. reflexivity.
  - cbn [SettingsModel.step]. unfold symmetries, now. rewrite k. reflexivity.
Qed.

(** A basis that is built is the one of the settings and restrictions in force at that moment, and these restrictions are then used up. *)
Theorem C108_build : forall (s s' : psys), states s = [] -> step BuildBasis s = (s', Ok tt) -> let g := now s in
  initBasis2 hs hi hf rt energy sys1 sys2 species1 species2 (g_inv g) (g_refl g) (g_perm g) (g_rot g) (g_pairs g) sq_thr (waiting s) = (states s', Ok (bv s', ham s')) /\ par s' = par s /\ waiting s' = Request no_ranges None None [].
Proof using.
  intros s s' H E g. change (init_pair (par s) (waiting s) = (states s', Ok (bv s', ham s')) /\ par s' = par s /\ waiting s' = Request no_ranges None None []). clear g.
  assert (Q := par_build s init_pair). cbn [SettingsModel.step] in E. rewrite E in Q. cbn in Q. unfold buildBasis in E.
  destruct (negb _); [discriminate|]. rewrite H in E. cbn [is_nil negb andb] in E. unfold waiting.
  destruct (init_pair (par s) _) as [tbl [[b h]| |]] eqn:I; try discriminate.
  repeat match type of E with (if ?c then _ else _) = _ => destruct c; [discriminate|] end. injection E as <-. cbn. auto.
Qed.

(** Both together: after a first build, the basis was made with the symmetries that are in force at any later time while it exists. *)
Corollary C108_consistent : forall (s s' : psys) es, states s = [] -> step BuildBasis s = (s', Ok tt) -> basis_exists es s' ->
  exists g, now s = g /\ initBasis2 hs hi hf rt energy sys1 sys2 species1 species2 (g_inv g) (g_refl g) (g_perm g) (g_rot g) (g_pairs g) sq_thr (waiting s) = (states s', Ok (bv s', ham s')) /\
    symmetries (history es s') = (g_perm g, g_inv g, g_refl g, g_rot g).
Proof using.
  intros s s' es H E B. destruct (@C108_build _ _ H E) as (I & Q & _). exists (fst (par s)). split; [reflexivity|]. split; [exact I|].
  rewrite (@C108_kept es _ B). unfold symmetries, now. rewrite Q. reflexivity.
Qed.

(** What an accepted setter does: its own setting gets the value, the others and the basis stay. *)
Definition after (e : ev) (g : settings) : option settings :=
  match e with
  | SetPermutation p => Some (Settings p (g_inv g) (g_refl g) (g_rot g) (g_pairs g))
  | SetInversion p => Some (Settings (g_perm g) p (g_refl g) (g_rot g) (g_pairs g))
  | SetReflection p => Some (Settings (g_perm g) (g_inv g) p (g_rot g) (g_pairs g))
  | SetRotation arb l => Some (Settings (g_perm g) (g_inv g) (g_refl g) (if arb then None else Some l) (g_pairs g))
  | SetPairs ps => Some (Settings (g_perm g) (g_inv g) (g_refl g) (g_rot g) ps)
  | _ => None
  end.
Theorem C108_accepted : forall (s s' : psys) e g, after e (now s) = Some g -> step e s = (s', Ok tt) ->
  now s' = g /\ the_basis s' = the_basis s /\ waiting s' = waiting s /\ snd (par s') = snd (par s).
Proof using.
  intros s s' e g A E. unfold now in *. destruct e; try discriminate; injection A as <-; cbn [SettingsModel.step] in E.
  1-2: destruct (onSymmetryChange s) as [[]| |]; try discriminate; injection E as <-; cbn; auto.
  - destruct (onSymmetryChange s) as [[]| |]; try discriminate. destruct (mirror_compatible _ _); [|discriminate]. injection E as <-; cbn; auto.
  - destruct (arb && _); [discriminate|]. destruct (onSymmetryChange s) as [[]| |]; try discriminate. destruct (mirror_compatible _ _); [|discriminate]. injection E as <-; cbn; auto.
  - unfold setOneAtomBasisvectors in E. destruct (idx_unique ps); [|discriminate]. injection E as <-; cbn; auto.
Qed.

(** When the setters accept: no basis yet, and reflection fits to the momenta: with a reflection symmetry, the momenta must come in pairs M, -M. *)
Definition mirrored (p : parity) (r : option (list Z)) : Prop := p = NA \/ forall l m, r = Some l -> In m l -> In (- m)%Z l.
Lemma mirrored_iff : forall p r, mirror_compatible p r = true <-> mirrored p r.
Proof using.
  intros p [l|]; unfold mirrored; cbn.
  - assert (Q : forallb (fun m => existsb (Z.eqb (- m)%Z) l) l = true <-> (forall m, In m l -> In (- m)%Z l)).
    { rewrite forallb_forall. split; intros H m Hm; specialize (H m Hm).
      - apply existsb_exists in H. destruct H as (x & Hx & Ex). apply Z.eqb_eq in Ex. subst x. exact Hx.
      - apply existsb_exists. exists (- m)%Z. split; [exact H|apply Z.eqb_refl]. }
    destruct p; [split; auto| |]; rewrite Q; (split; [intros H; right; intros l' m El; injection El as <-; auto|intros [H|H] m Hm; [discriminate|eapply H; eauto]]).
  - split; auto. intros _. right. discriminate.
Qed.
Theorem C108_when : forall (s : psys), states s = [] ->
  (forall p, snd (step (SetPermutation p) s) = Ok tt) /\ (forall p, snd (step (SetInversion p) s) = Ok tt) /\
  (forall p, snd (step (SetReflection p) s) = Ok tt <-> mirrored p (g_rot (now s))) /\
  (forall l, snd (step (SetRotation false l) s) = Ok tt <-> mirrored (g_refl (now s)) (Some l)) /\
  snd (step (SetRotation true []) s) = Ok tt /\ (forall m l, snd (step (SetRotation true (m :: l)) s) = Throw).
Proof using.
  intros s H. cbn [SettingsModel.step]. unfold onSymmetryChange. rewrite H. cbn [is_nil].
  split; [reflexivity|]. split; [reflexivity|]. split; [|split; [|split; [|reflexivity]]].
  - intro p. rewrite <- mirrored_iff. cbn [snd]. unfold now. destruct (mirror_compatible _ _); split; congruence.
  - intro l. rewrite <- mirrored_iff. cbn [andb snd]. unfold now. destruct (mirror_compatible _ _); split; congruence.
  - cbn [andb negb is_nil snd]. destruct (g_refl (fst (par s))); reflexivity.
Qed.

(** REFUTED: "a setter that throws changes nothing".  The reflection and the momenta are assigned before they are compared; after the exception the
    refused value is in force, and the next basis is built with it. *)
Theorem C108_refused_refuted : forall (s : psys), states s = [] ->
  (forall p, ~ mirrored p (g_rot (now s)) -> let (s', r) := step (SetReflection p) s in r = Throw /\ g_refl (now s') = p) /\
  (forall l, ~ mirrored (g_refl (now s)) (Some l) -> let (s', r) := step (SetRotation false l) s in r = Throw /\ g_rot (now s') = Some l).
Proof using.
  intros s H. split; intros x N; rewrite <- mirrored_iff in N; cbn [SettingsModel.step andb]; unfold onSymmetryChange; rewrite H; cbn [is_nil]; unfold now in *;
    (destruct (mirror_compatible _ _); [congruence|]); cbn; auto.
Qed.

(** Without a new request, getting the basis returns the present one. *)
Theorem C108_still : forall s : psys, states s <> [] -> msize (ham s) <> 0 -> msize (bv s) <> 0 -> waiting s = Request no_ranges None None [] ->
  step BuildBasis s = (s, Ok tt).
Proof using.
  intros s A B C W. cbn [SettingsModel.step]. unfold waiting in W. injection W as W1 W2 W3 W4. unfold buildBasis.
  rewrite (is_nil_ne A), W1, W2, W3, W4. rewrite (proj2 (Nat.eqb_neq _ _) B), (proj2 (Nat.eqb_neq _ _) C). reflexivity.
Qed.

(** REFUTED: "the basis is the one of the chosen pairs".  setOneAtomBasisvectors is accepted also when the basis exists, and then has no effect: getting the
    basis returns the old one. *)
Theorem C108_choice_refuted : forall (s : psys) ps, states s <> [] -> msize (ham s) <> 0 -> msize (bv s) <> 0 -> waiting s = Request no_ranges None None [] ->
  NoDup ps -> let (s1, r1) := step (SetPairs ps) s in r1 = Ok tt /\ g_pairs (now s1) = ps /\
    step BuildBasis s1 = (s1, Ok tt) /\ the_basis s1 = the_basis s.
Proof using.
  intros s ps A B C W N. cbn [SettingsModel.step]. unfold setOneAtomBasisvectors. rewrite (unique_nodup N). split; [reflexivity|]. split; [reflexivity|]. split; [|reflexivity].
  apply C108_still; auto.
Qed.

Definition broken (s : psys) : Prop := states s <> [] /\ msize (ham s) = 0.
(** REFUTED: "after a failed build one can correct the settings and build again".  If initializeBasis throws after it has filled the table of states, the
    object cannot be used any more: every later build throws, and so does every setter of a symmetry. *)
Theorem C108_failed_refuted : forall es (s : psys), broken s -> (forall e, In e es -> match e with Other _ _ => False | _ => True end) ->
  broken (history es s) /\ snd (step BuildBasis (history es s)) = Throw /\
  forall e, (match e with SetPermutation _ | SetInversion _ | SetReflection _ | SetRotation _ _ => True | _ => False end) -> snd (step e (history es s)) = Throw.
Proof using.
  intros es s B H.
  assert (T : forall t : psys, broken t -> step BuildBasis t = (t, Throw)).
  { intros t [B1 B2]. cbn [SettingsModel.step]. unfold buildBasis. rewrite B2, (is_nil_ne B1). reflexivity. }
  assert (Q : broken (history es s)).
  { revert s B H. induction es as [|e es IH]; intros s B H; [exact B|]. cbn [SettingsModel.history]. apply IH; [|intros; apply H; right; auto].
    specialize (H e (or_introl eq_refl)). pose proof B as [B1 B2]. destruct e as [| | | | | | | |f k]; try (rewrite C108_locked; auto; fail); auto; try (rewrite T; auto; fail).
    - cbn [SettingsModel.step]. unfold setOneAtomBasisvectors. destruct (idx_unique ps); exact B. }
  split; [exact Q|]. split; [rewrite (T _ Q); reflexivity|]. intros e E. rewrite C108_locked; auto. exact (proj1 Q).
Qed.
(** and this is the state in which a failing build leaves the object *)
Lemma C108_failed_reachable : forall (s : psys) tbl, states s = [] -> msize (ham s) = 0 -> msize (bv s) = 0 -> tbl <> [] ->
  init_pair (par s) (waiting s) = (tbl, Throw) -> broken (fst (step BuildBasis s)) /\ snd (step BuildBasis s) = Throw.
Proof using.
  intros s tbl A B C T I. cbn [SettingsModel.step]. unfold buildBasis. unfold waiting in I. rewrite A, B, C. cbn [is_nil negb andb Bool.eqb Nat.eqb]. rewrite I. cbn. split; [|reflexivity].
  split; [exact T|exact B].
Qed.
End P.

(** ** Examples: two atoms with the state S each *)
Notation demo_step := (@step R2 unit unit h0 h0 h0 half_sqrt eSP (pure [sS]) (pure [sS]) "Rb"%string "Rb"%string (fun _ _ => true) thr2).
Notation demo_history := (@history R2 unit unit h0 h0 h0 half_sqrt eSP (pure [sS]) (pure [sS]) "Rb"%string "Rb"%string (fun _ _ => true) thr2).
Definition fresh : @sys R2 state2 (@param unit) unit := new_sys (no_settings, tt) false thr2.
Definition is_ok (r : res unit) : bool := match r with Ok _ => true | _ => false end.
Definition is_throw (r : res unit) : bool := match r with Throw => true | _ => false end.
Lemma tt_ok : forall r : res unit, is_ok r = true -> r = Ok tt. Proof. intros [[]| |]; cbn; congruence. Qed.

(** The basis is built with odd parity under permutation; then an even parity is asked for (refused), a choice of pairs (accepted), and the basis. *)
Example C108_nonvacuous :
  let s := fst (demo_step (SetPermutation ODD) fresh) in let s' := fst (demo_step BuildBasis s) in
  let es := [SetPermutation EVEN; SetPairs [(0, 0)]; BuildBasis] in
  demo_step BuildBasis s = (s', Ok tt) /\ states s = [] /\ List.length (states s') = 1 /\
  basis_exists h0 h0 h0 half_sqrt eSP (pure [sS]) (pure [sS]) "Rb" "Rb" (fun _ _ => true) thr2 es s' /\
  msize (ham s') = 1 /\ msize (bv s') = 1 /\ g_perm (now (demo_history es s')) = ODD /\ g_pairs (now (demo_history es s')) = [(0, 0)].
Proof.
  cbv zeta. split.
  { match goal with |- ?a = _ => rewrite (surjective_pairing a) at 1; f_equal; apply tt_ok; vm_compute; reflexivity end. }
  split; [reflexivity|]. split; [vm_compute; reflexivity|]. split.
  { cbn [basis_exists]. repeat split; intro Q; apply (f_equal (@List.length _)) in Q; revert Q; match goal with |- ?a = _ -> _ => assert (L : a = 1) by (vm_compute; reflexivity); rewrite L; discriminate end. }
  repeat split; vm_compute; reflexivity.
Qed.
(** Momenta {1} and then reflection: refused, but in force; momenta {1,-1}: accepted. *)
Example C108_refused_nonvacuous : let s := fst (demo_step (SetRotation false [1%Z]) fresh) in
  states s = [] /\ ~ mirrored EVEN (g_rot (now s)) /\ is_throw (snd (demo_step (SetReflection EVEN) s)) = true /\
  mirrored EVEN (Some [1%Z; (-1)%Z]).
Proof.
  cbv zeta. split; [reflexivity|]. split.
  - intro Q. apply mirrored_iff in Q. vm_compute in Q. discriminate.
  - split; [vm_compute; reflexivity|]. apply mirrored_iff. reflexivity.
Qed.
(** The pair |S,S> is added although it is in the basis: the build throws with a filled table, and the object is broken. *)
Example C108_failed_nonvacuous : let s := fst (demo_step (AddStates [mkTwo_pair sS sS]) fresh) in
  broken (fst (demo_step BuildBasis s)) /\ snd (demo_step BuildBasis s) = Throw.
Proof.
  cbv zeta. set (s := fst (demo_step _ fresh)).
  set (r := @init_pair R2 unit h0 h0 h0 half_sqrt eSP (pure [sS]) (pure [sS]) "Rb"%string "Rb"%string thr2 (par s) (waiting s)).
  assert (Q1 : List.length (fst r) = 1) by (vm_compute; reflexivity).
  assert (Q2 : match snd r with Throw => true | _ => false end = true) by (vm_compute; reflexivity).
  destruct r as [tbl x] eqn:E. cbn in Q1, Q2. destruct x; try discriminate.
  apply C108_failed_reachable with (tbl := tbl); auto. intros ->. discriminate.
Qed.

Print Assumptions C108_locked. Print Assumptions C108_kept. Print Assumptions C108_build. Print Assumptions C108_consistent. Print Assumptions C108_accepted.
Print Assumptions C108_when. Print Assumptions C108_still. Print Assumptions C108_refused_refuted. Print Assumptions C108_choice_refuted. Print Assumptions C108_failed_refuted.
