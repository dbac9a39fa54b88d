(** The Hamiltonian as an operator on the space of states, along histories (C26 - C29). *)
From Verif Require Import Base Matrix LookupModel LookupProofs SystemModel SystemProofs SystemExact SystemInv.
From Coq Require Import ZArith Lia Bool Arith Setoid Morphisms List.
Import ListNotations.
Set Implicit Arguments.

Section Alg.
Context {K : StarRing}.
Local Open Scope mat_scope.

(** The operator on the space of states whose matrix in the basis B is X. *)
Definition lift (B X : mat K) : mat K := (B * X) * B^+.

Global Instance lift_proper : Proper (meq ==> meq ==> meq) lift.
Proof. intros A B H X Y E. unfold lift. rewrite H, E. reflexivity. Qed.

Lemma lift_add : forall B X Y, nr X = nr Y -> nc X = nc Y -> lift B (X + Y) == lift B X + lift B Y.
Proof.
  intros B X Y R C. unfold lift. rewrite (@mmul_add_r K B X Y), mmul_add_l; auto; reflexivity.
Qed.
Lemma lift_scale : forall B c X, lift B (mscale c X) == mscale c (lift B X).
Proof. intros. unfold lift. rewrite mmul_scale_r, mmul_scale_l. reflexivity. Qed.
Lemma lift_mul : forall B U D, lift (B * U) D == lift B (lift U D).
Proof. intros. unfold lift. rewrite madj_mul, !mmul_assoc. reflexivity. Qed.
Lemma lift_mconj : forall B M, lift B (mconj B M) == (B * B^+) * M * (B * B^+).
Proof. intros. unfold lift, mconj. rewrite !mmul_assoc. reflexivity. Qed.

(** X + c1 f(k1) + c2 f(k2) + ... *)
Definition Hsum {Key} (X : mat K) (f : Key -> mat K) (l : list (Key * K)) : mat K :=
  fold_left (fun h e => madd h (mscale (snd e) (f (fst e)))) l X.

Lemma Hsum_ext : forall Key (f g : Key -> mat K) l X Y, X == Y ->
  (forall e, In e l -> f (fst e) == g (fst e)) -> Hsum X f l == Hsum Y g l.
Proof.
  induction l as [|e l IH]; intros X Y E H; simpl; auto.
  apply IH. - rewrite E, (H e); [reflexivity|left; auto]. - intros; apply H; right; auto.
Qed.

Lemma Hsum_dims : forall Key (f : Key -> mat K) l X n m, nr X = n -> nc X = m ->
  (forall e, In e l -> nr (f (fst e)) = n /\ nc (f (fst e)) = m) ->
  nr (Hsum X f l) = n /\ nc (Hsum X f l) = m.
Proof.
  induction l as [|e l IH]; intros X n m R C H; simpl; auto.
  destruct (H e (or_introl eq_refl)) as [R1 C1].
  apply IH; simpl; try (rewrite ?R, ?C, ?R1, ?C1; apply Nat.min_id). intros; apply H; right; auto.
Qed.

Lemma lift_Hsum : forall Key B (f : Key -> mat K) l X n m, nr X = n -> nc X = m ->
  (forall e, In e l -> nr (f (fst e)) = n /\ nc (f (fst e)) = m) ->
  lift B (Hsum X f l) == Hsum (lift B X) (fun k => lift B (f k)) l.
Proof.
  induction l as [|e l IH]; intros X n m R C H; simpl. { reflexivity. }
  destruct (H e (or_introl eq_refl)) as [R1 C1].
  rewrite (IH _ n m); simpl; try (rewrite ?R, ?C, ?R1, ?C1; apply Nat.min_id).
  - apply Hsum_ext; [|reflexivity]. rewrite lift_add by (simpl; congruence). rewrite lift_scale. reflexivity.
  - intros; apply H; right; auto.
Qed.

Lemma Hsum_proj : forall Key P (f : Key -> mat K) l X n, nr P = n -> nc P = n -> P * P == P -> P^+ == P ->
  nr X = n -> nc X = n -> lift P X == X -> (forall e, In e l -> nr (f (fst e)) = n /\ nc (f (fst e)) = n) ->
  lift P (Hsum X (fun k => P * f k * P) l) == Hsum X (fun k => P * f k * P) l.
Proof.
  intros Key P f l X n R C PP PA RX CX LX H.
  rewrite (@lift_Hsum Key P _ l X n n); auto.
  apply Hsum_ext; auto. intros e He. unfold lift. rewrite PA, !mmul_assoc, PP.
  rewrite <- (mmul_assoc P P), PP. reflexivity.
Qed.
End Alg.

Section Ham.
Context {K : StarRing} {State Param Key Angle : Type}.
Variable seqb : State -> State -> bool.
Variable sgen : State -> bool.
Variable keqb : Key -> Key -> bool.
Variable qvalid : ranges -> State -> bool.
Variable v_init : Param -> @request K State -> list (nat * State) * res (mat K * mat K).
Variable v_keys : Param -> list (Key * K).
Variable v_op : Key -> State -> State -> K.
Variable v_rot : Angle -> list (nat * State) -> list (nat * nat * K).
Variable v_compat : Param -> Param -> res Param.
Variable v_label : list State -> (nat -> K) -> nat -> State.
Notation sysT := (@sys K State Param Key).
Notation callT := (@call K State Param Key Angle).
Notation Xexec := (exec (Angle := Angle) seqb sgen keqb qvalid v_init v_keys v_op v_rot v_compat v_label).
Notation Xrun := (run (Angle := Angle) seqb sgen keqb qvalid v_init v_keys v_op v_rot v_compat v_label).
Notation XbuildHam := (buildHamiltonian seqb keqb qvalid v_init v_keys v_op).
Notation XinitInt := (initializeInteraction keqb v_keys v_op).
Local Open Scope mat_scope.

Hypothesis keqb_eq : forall k k', keqb k k' = true <-> k = k'.

(** The start: states st0, orthonormal basis B0, unperturbed H0 in that basis. *)
Variable st0 : list (nat * State).
Variables B0 H0 : mat K.
Let n := length st0.
Let M (k : Key) : mat K := op_matrix v_op k st0.
Definition proj : mat K := B0 * B0^+.
Definition A0 : mat K := lift B0 H0.
(** The full Hamiltonian on the space of states for parameters p. *)
Definition Htot (p : Param) : mat K := Hsum A0 (fun k => proj * M k * proj) (v_keys p).

Definition start_ok : Prop :=
  nr B0 = n /\ nr H0 = nc B0 /\ nc H0 = nc B0 /\ isometry B0 /\ n <> 0 /\ nc B0 <> 0.

Definition relops (B : mat K) (l : list (Key * mat K)) : Prop := forall e, In e l -> snd e == mconj B (M (fst e)).

(** One description (basis, matrix): a basis of the space and the matrix of the operator A in it. *)
Definition rep (B X A : mat K) : Prop :=
  nr B = n /\ nr X = nc B /\ nc X = nc B /\ B * B^+ == proj /\ lift B X == A.

Definition hinv (s : sysT) : Prop :=
  states s = st0 /\ settled s /\
  (required s = false -> rep (bv s) (ham s) (Htot (par s))) /\
  (contained s = false -> rep (bv s) (ham s) A0 /\ relops (bv s) (ops s) /\ (required s = false -> v_keys (par s) = [] /\ ops s = [])) /\
  (contained s = true -> nr (bv s) = n /\ nr (ham s) = nc (bv s) /\ nc (ham s) = nc (bv s) /\ bv s * (bv s)^+ == proj) /\
  (contained s = true -> nonempty (bv_up s) = true -> rep (bv_up s) (ham_up s) A0 /\ relops (bv_up s) (ops s)) /\
  (contained s = true -> nonempty (bv_up s) = false -> required s = false) /\
  nonempty (ham_up s) = nonempty (bv_up s) /\
  (memsave s = true -> nonempty (bv_up s) = false) /\
  (contained s = false -> nonempty (bv_up s) = false).

Hypothesis SO : start_ok.

Lemma proj_facts : nr proj = n /\ nc proj = n /\ proj * proj == proj /\ proj^+ == proj.
Proof.
  destruct SO as (R & R1 & C1 & I & N). unfold isometry in I. unfold proj. split; [simpl; auto|]. split; [simpl; auto|].
  split.
  - rewrite mmul_assoc, <- (mmul_assoc B0^+ B0), I. rewrite mmul_id_l by reflexivity. reflexivity.
  - rewrite madj_mul, madj_adj. reflexivity.
Qed.

Lemma A0_facts : nr A0 = n /\ nc A0 = n /\ lift proj A0 == A0.
Proof.
  destruct SO as (R & R1 & C1 & I & N). unfold isometry in I. split; [simpl; auto|]. split; [simpl; auto|].
  unfold A0, proj, lift. rewrite madj_mul, madj_adj. rewrite !mmul_assoc.
  rewrite <- (mmul_assoc B0^+ B0 (H0 * _)), I, mmul_id_l by (simpl; auto).
  rewrite <- (mmul_assoc B0^+ B0 B0^+), I, mmul_id_l by (simpl; auto). reflexivity.
Qed.

Lemma M_dims : forall k, nr (M k) = n /\ nc (M k) = n.
Proof. intro. split; reflexivity. Qed.

Lemma Htot_facts : forall p, nr (Htot p) = n /\ nc (Htot p) = n /\ lift proj (Htot p) == Htot p.
Proof.
  intro p. destruct proj_facts as (R & C & PP & PA). destruct A0_facts as (RA & CA & LA).
  assert (X := @Hsum_dims K Key (fun k => proj * M k * proj) (v_keys p) A0 n n RA CA).
  destruct X as [X1 X2]. { intros. split; simpl; auto. }
  split; auto. split; auto. apply (@Hsum_proj K Key proj M (v_keys p) A0 n); auto.
Qed.

Lemma get_op_rel : forall B l k, relops B l -> has_op keqb k l = true -> get_op keqb k l == mconj B (M k).
Proof.
  intros B l k Hr Hh. unfold get_op, has_op in *. apply existsb_exists in Hh. destruct Hh as (e & He & Ek).
  destruct (find (fun e => keqb (fst e) k) l) as [e'|] eqn:Ef.
  - apply find_some in Ef. destruct Ef as [Hin E']. apply keqb_eq in E'. subst k. apply Hr; auto.
  - rewrite (find_none _ _ Ef _ He) in Ek. discriminate.
Qed.

Lemma init_ops_rel : forall B st ks l, st = st0 -> relops B l ->
  let l' := fold_left (fun acc k => if has_op keqb k acc then acc else acc ++ [(k, mconj B (op_matrix v_op k st))]) ks l in
  relops B l' /\ (forall k, In k ks \/ has_op keqb k l = true -> has_op keqb k l' = true).
Proof.
  intros B st ks l -> . revert l. induction ks as [|k ks IH]; intros l Hr; simpl.
  - split; auto. intros k [[]|]; auto.
  - set (l1 := if has_op keqb k l then l else l ++ [(k, mconj B (op_matrix v_op k st0))]).
    assert (H1 : relops B l1).
    { unfold l1. destruct (has_op keqb k l); auto. intros e He. apply in_app_or in He.
      destruct He as [He|[<-|[]]]; auto. reflexivity. }
    assert (H2 : has_op keqb k l1 = true).
    { unfold l1. destruct (has_op keqb k l) eqn:E; auto. unfold has_op. rewrite existsb_app. simpl.
      rewrite (proj2 (keqb_eq k k) eq_refl). rewrite orb_true_r. reflexivity. }
    assert (H3 : forall k', has_op keqb k' l = true -> has_op keqb k' l1 = true).
    { intros k' E. unfold l1. destruct (has_op keqb k l); auto. unfold has_op. rewrite existsb_app.
      unfold has_op in E. rewrite E. reflexivity. }
    destruct (IH l1 H1) as [I1 I2]. split; auto.
    intros k' [[<-|Hk]|Hk]; apply I2; auto.
Qed.

Lemma rep_square : forall B X A, rep B X A -> nr X = nc B /\ nc X = nc B.
Proof. intros B X A (_ & R & C & _). auto. Qed.

(** initializeInteraction and addInteraction on a system whose matrices describe A0. *)
Lemma assemble : forall s, states s = st0 -> rep (bv s) (ham s) A0 -> relops (bv s) (ops s) ->
  relops (bv s) (ops (XinitInt s)) /\ keys_fit keqb v_keys (XinitInt s) = true /\
  rep (bv s) (ham (addInteraction keqb v_keys (XinitInt s))) (Htot (par s)) /\
  ham (addInteraction keqb v_keys (XinitInt s)) == Hsum (ham s) (fun k => mconj (bv s) (M k)) (v_keys (par s)).
Proof.
  intros s Es (R & R1 & C1 & BP & L) Ro.
  destruct (@init_ops_rel (bv s) (states s) (map fst (v_keys (par s))) (ops s) Es Ro) as [I1 I2].
  set (s2 := XinitInt s) in *.
  change (relops (bv s) (ops s2)) in I1.
  assert (G : forall e, In e (v_keys (par s)) -> get_op keqb (fst e) (ops s2) == mconj (bv s) (M (fst e))).
  { intros e He. apply get_op_rel; auto. apply I2. left. apply in_map; auto. }
  assert (D : forall e, In e (v_keys (par s)) -> nr (get_op keqb (fst e) (ops s2)) = nc (bv s) /\ nc (get_op keqb (fst e) (ops s2)) = nc (bv s)).
  { intros e He. destruct (G e He) as (E1 & E2 & _). rewrite E1, E2. simpl. auto. }
  split; [exact I1|]. split.
  - unfold keys_fit. apply forallb_forall. intros e He. change (par s2) with (par s) in He. change (ham s2) with (ham s).
    destruct (D e He) as [D1 D2]; unfold square; rewrite D1, D2, R1, Nat.eqb_refl; reflexivity.
  - change (ham (addInteraction keqb v_keys s2)) with (Hsum (ham s) (fun k => get_op keqb k (ops s2)) (v_keys (par s))).
    destruct (@Hsum_dims K Key (fun k => get_op keqb k (ops s2)) (v_keys (par s)) (ham s) (nc (bv s)) (nc (bv s)) R1 C1 D) as [X1 X2].
    split; [|apply Hsum_ext; [reflexivity|exact G]].
    split; auto. split; auto. split; auto. split; auto.
    rewrite (@lift_Hsum K Key (bv s) (fun k => get_op keqb k (ops s2)) (v_keys (par s)) (ham s) (nc (bv s)) (nc (bv s))); auto.
    unfold Htot. apply Hsum_ext; auto. intros e He. rewrite (G e He), lift_mconj, BP. reflexivity.
Qed.

Lemma settled_same : forall s s' : sysT, settled s -> states s' = states s -> toadd s' = toadd s -> rg s' = rg s ->
  emin s' = emin s -> emax s' = emax s -> msize (ham s') <> 0 -> msize (bv s') <> 0 -> settled s'.
Proof. intros s s' (A & B & C & D & E & F & G) E1 E2 E3 E4 E5 E6 E7. unfold settled. rewrite E1, E2, E3, E4, E5. auto 10. Qed.

Lemma rep_nonempty : forall B X A, rep B X A -> nc B <> 0 -> msize X <> 0 /\ msize B <> 0 /\ nonempty B = true /\ nonempty X = true.
Proof.
  intros B X A (R & R1 & C1 & _) N. destruct SO as (_ & _ & _ & _ & Nn & _).
  assert (msize X <> 0) by (unfold msize; rewrite R1, C1; nia).
  assert (msize B <> 0) by (unfold msize; rewrite R; nia).
  unfold nonempty. split; auto. split; auto. split; apply negb_true_iff, Nat.eqb_neq; auto.
Qed.

Lemma settled_nc : forall s : sysT, settled s -> nc (bv s) <> 0.
Proof. intros s (_ & _ & C & _) E. apply C. unfold msize. rewrite E. lia. Qed.

(** Matrices of the result of buildHamiltonian. *)
Definition built (s s1 : sysT) : Prop :=
  if required s then
    let b := if contained s then bv_up s else bv s in let h := if contained s then ham_up s else ham s in
    bv s1 = b /\ ham s1 == Hsum h (fun k => mconj b (M k)) (v_keys (par s)) /\
    contained s1 = true /\ memsave s1 = memsave s /\
    (if memsave s then bv_up s1 = bv_up s /\ ham_up s1 = ham_up s else bv_up s1 = b /\ ham_up s1 = h)
  else s1 = s.

(** buildHamiltonian in a state of the invariant. *)
Lemma hinv_build : forall s, hinv s ->
  exists s1, (XbuildHam s = (s1, Ok tt)) /\ hinv s1 /\ required s1 = false /\ par s1 = par s /\ built s s1.
Proof.
  intros s H. pose proof H as (Hs & Hset & Hreq & Hnc & Hcd & Hcu & Hcn & Hne & Hms & Hcf).
  unfold buildHamiltonian, andThen.
  rewrite (@settled_build K State Param Key seqb qvalid v_init s Hset).
  unfold built. destruct (required s) eqn:Er; [|exists s; auto 8].
  assert (GO : forall t : sysT, states t = st0 -> settled t -> par t = par s -> memsave t = memsave s ->
     rep (bv t) (ham t) A0 -> relops (bv t) (ops t) -> nonempty (ham_up t) = nonempty (bv_up t) ->
     (memsave t = false -> bv_up t = bv t /\ ham_up t = ham t) -> (memsave t = true -> nonempty (bv_up t) = false) ->
     exists s1,
     (let s2 := XinitInt t in
      if negb (keys_fit keqb v_keys s2) then (s2, UB) else
      let s3 := addInteraction keqb v_keys s2 in
      let s4 := if memsave s3 then deleteInteraction s3 else s3 in
      (set_flags true false s4, Ok tt)) = (s1, Ok tt) /\ hinv s1 /\ required s1 = false /\ par s1 = par s /\
     (bv s1 = bv t /\ ham s1 == Hsum (ham t) (fun k => mconj (bv t) (M k)) (v_keys (par t)) /\
      contained s1 = true /\ memsave s1 = memsave t /\ bv_up s1 = bv_up t /\ ham_up s1 = ham_up t)).
  { intros t Et St Ep Em Rt Ot Nt Ft Mt. destruct (@assemble t Et Rt Ot) as (I1 & I2 & I3 & I4).
    cbv zeta. rewrite I2. cbn [negb]. eexists. split; [reflexivity|].
    change (memsave (addInteraction keqb v_keys (XinitInt t))) with (memsave t).
    pose proof (settled_nc St) as Nc.
    destruct (rep_nonempty I3 Nc) as (N1 & N2 & N3 & N4).
    split; [|split; [reflexivity|split; [destruct (memsave t); exact Ep|]]].
    2:{ destruct (memsave t) eqn:Emt; (split; [reflexivity|]); (split; [exact I4|]); (split; [reflexivity|]); (split; [exact Emt|]); split; reflexivity. }
    destruct (memsave t) eqn:Emt.
    - split; [exact Et|]. split. { eapply settled_same; [exact St|..]; auto. }
      split. { intros _. exact I3. } split. { intro X. exfalso. clear - X. simpl in X. discriminate X. }
      split. { intros _. destruct I3 as (J1 & J2 & J3 & J4 & _). cbn -[mmul madj addInteraction]. auto. }
      split. { intros _ X. change (nonempty (bv_up t) = true) in X. rewrite (Mt eq_refl) in X. discriminate. }
      split. { intros _ _. reflexivity. }
      split; [exact Nt|]. split; [intros _; apply (Mt eq_refl)|]. intro X. cbn in X. discriminate X.
    - destruct (Ft eq_refl) as [F1 F2].
      split; [exact Et|]. split. { eapply settled_same; [exact St|..]; auto. }
      split. { intros _. exact I3. } split. { intro X. exfalso. clear - X. simpl in X. discriminate X. }
      split. { intros _. destruct I3 as (J1 & J2 & J3 & J4 & _). cbn -[mmul madj addInteraction]. auto. }
      split. { intros _ _.
        change (rep (bv_up t) (ham_up t) A0 /\ relops (bv_up t) (ops (XinitInt t))). rewrite F1, F2. split; auto. }
      split. { intros _ _. reflexivity. }
      split; [exact Nt|]. split; [|intro X; cbn in X; discriminate X]. intro X. cbn in X. rewrite Emt in X. discriminate. }
  destruct (contained s) eqn:Ec.
  - destruct (nonempty (bv_up s)) eqn:Eb. 2:{ discriminate (Hcn eq_refl eq_refl). }
    destruct (memsave s) eqn:Em. { discriminate (Hms eq_refl). }
    rewrite Hne. cbn [negb orb].
    destruct (Hcu eq_refl eq_refl) as [Hr Ho].
    assert (Nu : msize (bv_up s) <> 0 /\ msize (ham_up s) <> 0).
    { unfold nonempty in Eb, Hne. apply negb_true_iff, Nat.eqb_neq in Eb, Hne. auto. }
    edestruct (GO (set_mats (bv_up s) (ham_up s) (bv_up s) (ham_up s) s)) as (s1 & E1 & E2 & E3 & E4 & E5 & E6 & E7 & E8 & E9 & E10); auto.
    + eapply settled_same; [exact Hset|..]; auto; apply Nu.
    + cbn -[nonempty]. rewrite Hne, Eb. reflexivity.
    + cbn -[nonempty]. congruence.
    + exists s1. change (memsave s1 = memsave s) in E8. rewrite Em in E8. auto 15.
  - destruct (Hnc eq_refl) as (Hr & Ho & _).
    destruct (rep_nonempty Hr (settled_nc Hset)) as (N1 & N2 & N3 & N4).
    destruct (memsave s) eqn:Em.
    + edestruct (GO s) as (s1 & E1 & E2 & E3 & E4 & E5 & E6 & E7 & E8 & E9 & E10); auto.
      * congruence.
      * exists s1. change (memsave s1 = memsave s) in E8. rewrite Em in E8. auto 15.
    + edestruct (GO (set_mats (bv s) (ham s) (bv s) (ham s) s)) as (s1 & E1 & E2 & E3 & E4 & E5 & E6 & E7 & E8 & E9 & E10); auto.
      * cbn -[nonempty]. congruence.
      * intro X. cbn in X. congruence.
      * exists s1. change (memsave s1 = memsave s) in E8. rewrite Em in E8. auto 15.
Qed.

Lemma rep_unitary : forall B X A U D, rep B X A -> unitary (nc B) U -> D == mconj U X -> rep (B * U) D A.
Proof.
  intros B X A U D (R & R1 & C1 & P & L) (UR & UC & U1 & U2) E.
  split; [exact R|]. destruct E as (E1 & E2 & E3). simpl in E1, E2.
  split; [simpl; lia|]. split; [simpl; lia|].
  assert (E : D == mconj U X) by (split; [exact E1|split; [exact E2|exact E3]]).
  split.
  - rewrite madj_mul, mmul_assoc, <- (mmul_assoc U U^+), U2, mmul_id_l by (simpl; auto). exact P.
  - rewrite lift_mul. rewrite <- L at 1. apply lift_proper; [reflexivity|].
    rewrite E. unfold lift, mconj. rewrite !mmul_assoc, U2.
    rewrite (@mmul_id_r K (nc B) X) by auto. rewrite <- mmul_assoc, U2, mmul_id_l by auto. reflexivity.
Qed.

(** The calls of C26.  The solver is exact; buildInteraction() is called only while no
    diagonalisation separates the basis from the unperturbed one (or adds nothing). *)
Definition adds_nothing (s : sysT) : Prop := forall e, In e (v_keys (par s)) -> has_op keqb (fst e) (ops s) = true.
Definition allowed (c : callT) (s : sysT) : Prop :=
  match c with
  | CSet _ | CBasis | CBuild | CCanon => True
  | CDiag isdiag U D => isdiag = false -> forall s1, XbuildHam s = (s1, Ok tt) ->
      unitary (nc (bv s1)) U /\ D == mconj U (ham s1)
  | CBuildInt => contained s = true -> nonempty (bv_up s) = true -> bv s == bv_up s \/ adds_nothing s
  | _ => False
  end.

Lemma relops_proper : forall B B' l, B == B' -> relops B l -> relops B' l.
Proof. intros B B' l E H e He. rewrite <- E. auto. Qed.

Lemma adds_nothing_id : forall s, adds_nothing s -> XinitInt s = s.
Proof.
  intros s H. unfold initializeInteraction.
  assert (G : forall ks l, (forall k, In k ks -> has_op keqb k l = true) ->
    fold_left (fun acc k => if has_op keqb k acc then acc else acc ++ [(k, mconj (bv s) (op_matrix v_op k (states s)))]) ks l = l).
  { induction ks as [|k ks IH]; intros l Hl; simpl; auto. rewrite (Hl k) by (left; auto). apply IH. intros; apply Hl; right; auto. }
  rewrite G. { destruct s; reflexivity. }
  intros k Hk. apply in_map_iff in Hk. destruct Hk as (e & <- & He). auto.
Qed.

Lemma hinv_canon : forall s, hinv s -> required s = false ->
  hinv (set_mats (mmul (bv s) (madj (bv s))) (mmul (mmul (bv s) (ham s)) (madj (bv s))) (bv_up s) (ham_up s) s).
Proof.
  intros s H Er. pose proof H as (Hs & Hset & Hreq & Hnc & Hcd & Hcu & Hcn & Hne & Hms & Hcf).
  specialize (Hreq Er). destruct Hreq as (R & R1 & C1 & P & L).
  destruct proj_facts as (PR & PC & PP & PA). destruct SO as (_ & _ & _ & _ & Nn & _).
  assert (BP : (bv s * (bv s)^+) * (bv s * (bv s)^+)^+ == proj).
  { rewrite P, PA, PP. reflexivity. }
  assert (RP : forall A, lift proj A == A -> lift (bv s) (ham s) == A ->
     rep (bv s * (bv s)^+) (bv s * ham s * (bv s)^+) A).
  { intros A LP LA. split; [simpl; auto|]. split; [reflexivity|]. split; [reflexivity|]. split; auto.
    change (bv s * ham s * (bv s)^+) with (lift (bv s) (ham s)). rewrite P, LA. exact LP. }
  split; [exact Hs|]. split.
  { eapply settled_same; [exact Hset|..]; auto; unfold msize; cbn; rewrite R; nia. }
  split. { intros _. apply RP; auto. apply Htot_facts. }
  split. { intros Ec. destruct (Hnc Ec) as ((_ & _ & _ & _ & L0) & Ro & Hk).
    split. { apply RP; auto. apply A0_facts. }
    split; [|exact Hk]. destruct (Hk Er) as [_ Ho]. intros e He. cbn [ops set_mats] in He. rewrite Ho in He. destruct He. }
  split. { intros _. cbn [bv ham set_mats]. split; [simpl; auto|]. split; [reflexivity|]. split; [reflexivity|]. exact BP. }
  split; [exact Hcu|]. split; [exact Hcn|]. split; [exact Hne|]. split; [exact Hms|exact Hcf].
Qed.

Lemma hinv_diag : forall s U D, hinv s -> required s = false -> unitary (nc (bv s)) U -> D == mconj U (ham s) ->
  hinv (set_mats (mmul (bv s) U) D (bv_up s) (ham_up s) s).
Proof.
  intros s U D H Er HU HD. pose proof H as (Hs & Hset & Hreq & Hnc & Hcd & Hcu & Hcn & Hne & Hms & Hcf).
  pose proof (rep_unitary (Hreq Er) HU HD) as RH.
  assert (Nc : nc (bv s * U) <> 0). { destruct HU as (_ & UC & _). simpl. rewrite UC. apply settled_nc; auto. }
  destruct (rep_nonempty RH Nc) as (N1 & N2 & _ & _).
  split; [exact Hs|]. split. { eapply settled_same; [exact Hset|..]; auto. }
  split; [intros _; exact RH|]. split.
  { intros Ec. destruct (Hnc Ec) as (R0 & Ro & Hk). split; [eapply rep_unitary; eauto|].
    split; [|exact Hk]. destruct (Hk Er) as [_ Ho]. intros e He. cbn [ops set_mats] in He. rewrite Ho in He. destruct He. }
  split. { intros _. destruct RH as (J1 & J2 & J3 & J4 & _). cbn -[mmul madj]. auto. }
  split; [exact Hcu|]. split; [exact Hcn|]. split; [exact Hne|]. split; [exact Hms|exact Hcf].
Qed.

Lemma hinv_exec : forall c s, hinv s -> allowed c s ->
  hinv (fst (Xexec c s)) /\ snd (Xexec c s) <> UB /\
  (forall p, c = CSet p -> snd (Xexec c s) = Ok tt -> par (fst (Xexec c s)) = p) /\
  ((forall p, c <> CSet p) -> snd (Xexec c s) = Ok tt /\ par (fst (Xexec c s)) = par s).
Proof.
  intros c s H Ha. pose proof H as (Hs & Hset & Hreq & Hnc & Hcd & Hcu & Hcn & Hne & Hms & Hcf).
  destruct (hinv_build H) as (s1 & E1 & H1 & R1 & P1 & _).
  destruct c; simpl in Ha; try contradiction; simpl exec.
  - (* set *)
    unfold setParam. rewrite Hne, eqb_reflx. cbn [negb].
    destruct (contained s && negb (nonempty (bv_up s))) eqn:Ec; cbn [fst snd].
    { split; [exact H|]. split; [discriminate|]. split; [discriminate|]. intro X. exfalso. eapply X; reflexivity. }
    split.
    { split; [exact Hs|]. split; [exact Hset|]. split; [intro X; cbn in X; discriminate X|].
      split. { intro X. destruct (Hnc X) as (A & B & C). split; [exact A|]. split; [exact B|]. intro Y. cbn in Y. discriminate Y. }
      split; [exact Hcd|]. split; [exact Hcu|].
      split. { intros X Y. cbn -[nonempty] in X, Y. rewrite X, Y in Ec. discriminate Ec. }
      split; [exact Hne|]. split; [exact Hms|exact Hcf]. }
    split; [discriminate|]. split. { intros q Eq _. injection Eq as <-. reflexivity. }
    intro X. exfalso. eapply X; reflexivity.
  - (* buildBasis *)
    rewrite (@settled_build K State Param Key seqb qvalid v_init s Hset). cbn [fst snd].
    split; auto. split; [discriminate|]. split; [discriminate|]. auto.
  - (* buildHamiltonian *)
    rewrite E1. cbn [fst snd]. split; auto. split; [discriminate|]. split; [discriminate|]. auto.
  - (* buildInteraction *)
    unfold buildInteraction, andThen. rewrite (@settled_build K State Param Key seqb qvalid v_init s Hset). cbn [fst snd].
    split; [|split; [discriminate|split; [discriminate|split; reflexivity]]].
    assert (KR : forall B l, bv s == B -> relops B l -> l = ops s -> relops B (ops (XinitInt s))).
    { intros B l EB Hr ->. apply relops_proper with (B := bv s); auto.
      apply (@init_ops_rel (bv s) (states s) (map fst (v_keys (par s))) (ops s) Hs).
      apply relops_proper with (B := B); auto. symmetry; auto. }
    split; [exact Hs|]. split; [exact Hset|]. split; [exact Hreq|].
    split. { intro X. destruct (Hnc X) as (A & B & C). split; [exact A|]. split.
      - eapply KR; eauto. reflexivity.
      - intro Y. destruct (C Y) as [C1 C2]. split; auto. unfold initializeInteraction. rewrite C1. cbn. exact C2. }
    split; [exact Hcd|].
    split. { intros X Y. destruct (Hcu X Y) as [A B]. split; [exact A|].
      destruct (Ha X Y) as [E|E]; [eapply KR; eauto|]. rewrite (adds_nothing_id E). exact B. }
    split; [exact Hcn|]. split; [exact Hne|]. split; [exact Hms|exact Hcf].
  - (* diagonalize *)
    unfold diagonalize, andThen. rewrite E1. destruct isdiag; cbn [fst snd].
    { split; auto. split; [discriminate|]. split; [discriminate|]. auto. }
    destruct (Ha eq_refl s1 E1) as [HU HD].
    split; [apply hinv_diag; auto|]. split; [discriminate|]. split; [discriminate|]. auto.
  - (* canonicalize *)
    unfold canonicalize, andThen. rewrite E1. cbn [fst snd].
    split; [apply hinv_canon; auto|]. split; [discriminate|]. split; [discriminate|]. auto.
Qed.

Fixpoint hist26 (l : list callT) (s : sysT) : Prop :=
  match l with [] => True | c :: l' => allowed c s /\ hist26 l' (fst (Xexec c s)) end.

Lemma hinv_run : forall l s, hinv s -> hist26 l s -> hinv (fst (Xrun l s)).
Proof.
  induction l as [|c l IH]; intros s H Hl; [exact H|].
  destruct Hl as [Ha Hl]. rewrite run_fst. apply IH; auto. apply hinv_exec; auto.
Qed.

(** The state after buildBasis of a system without fields. *)
Lemma hinv_start : forall s : sysT, states s = st0 -> settled s -> bv s == B0 -> ham s == H0 ->
  contained s = false -> required s = false -> v_keys (par s) = [] -> ops s = [] ->
  nonempty (bv_up s) = false -> nonempty (ham_up s) = false -> hinv s.
Proof.
  intros s Hs Hset EB EH Ec Er Ek Eo Nb Nh.
  destruct SO as (R & R1 & C1 & I & N1 & N2).
  assert (Rp : rep (bv s) (ham s) A0).
  { pose proof EB as (X1 & X2 & _). pose proof EH as (X3 & X4 & _).
    split; [lia|]. split; [lia|]. split; [lia|]. split; [rewrite EB; reflexivity|].
    unfold A0. rewrite EB, EH. reflexivity. }
  split; [exact Hs|]. split; [exact Hset|].
  split. { intros _. unfold Htot. rewrite Ek. exact Rp. }
  split. { intros _. split; auto. split; [|auto]. rewrite Eo. intros e []. }
  split; [congruence|]. split; [congruence|]. split; [congruence|]. split; [congruence|auto].
Qed.


(** ** Two runs that differ in the stored operators only *)
Definition twin (s s' : sysT) : Prop :=
  par s = par s' /\ contained s = contained s' /\ required s = required s' /\ memsave s = memsave s' /\
  bv s == bv s' /\ ham s == ham s' /\ bv_up s == bv_up s' /\ ham_up s == ham_up s'.

Lemma nonempty_meq : forall A B : mat K, A == B -> nonempty A = nonempty B.
Proof. intros A B (R & C & _). unfold nonempty, msize. rewrite R, C. reflexivity. Qed.

Lemma twin_build : forall s s', hinv s -> hinv s' -> twin s s' ->
  twin (fst (XbuildHam s)) (fst (XbuildHam s')).
Proof.
  intros s s' H H' (Ep & Ec & Er & Em & Eb & Eh & Eu & Ev).
  destruct (hinv_build H) as (t & B1 & H1 & R1 & P1 & V1).
  destruct (hinv_build H') as (t' & B2 & H2 & R2 & P2 & V2).
  rewrite B1, B2. cbn [fst]. unfold built in *. rewrite <- Er in V2.
  destruct (required s) eqn:Ers.
  - cbv zeta in V1, V2. rewrite <- Ec, <- Em in V2. rewrite <- Ep in V2.
    destruct V1 as (A1 & A2 & A3 & A4 & A5). destruct V2 as (D1 & D2 & D3 & D4 & D5).
    assert (EB : (if contained s then bv_up s else bv s) == (if contained s then bv_up s' else bv s')) by (destruct (contained s); auto).
    assert (EH : (if contained s then ham_up s else ham s) == (if contained s then ham_up s' else ham s')) by (destruct (contained s); auto).
    unfold twin. rewrite A1, D1, P1, P2, R1, R2, A3, D3, A4, D4, Ep.
    split; auto. split; auto. split; auto. split; auto. split; auto.
    split. { rewrite A2, D2. apply Hsum_ext; auto. intros e _. rewrite EB. reflexivity. }
    destruct (memsave s); destruct A5 as [-> ->]; destruct D5 as [-> ->]; auto.
  - subst t t'. unfold twin. rewrite Ers, <- Er. auto 10.
Qed.

Lemma twin_allowed : forall c s s', hinv s -> hinv s' -> twin s s' -> c <> CBuildInt -> allowed c s -> allowed c s'.
Proof.
  intros c s s' H H' T Nc A. destruct c; simpl in *; auto; [congruence|].
  intros Hd t' B2. pose proof (twin_build H H' T) as TB. 
  destruct (hinv_build H) as (t & B1 & _). rewrite B1, B2 in TB. cbn [fst] in TB.
  destruct (A Hd t B1) as [U1 U2]. destruct TB as (_ & _ & _ & _ & Tb & Th & _).
  pose proof Tb as (_ & C & _). rewrite <- C, <- Th. auto.
Qed.

Lemma twin_exec : forall c s s', hinv s -> hinv s' -> twin s s' -> c <> CBuildInt -> allowed c s ->
  twin (fst (Xexec c s)) (fst (Xexec c s')) /\ snd (Xexec c s) = snd (Xexec c s').
Proof.
  intros c s s' H H' T Nc A. pose proof (twin_build H H' T) as TB.
  destruct (hinv_build H) as (t & B1 & _). destruct (hinv_build H') as (t' & B2 & _).
  pose proof T as (Ep & Ec & Er & Em & Eb & Eh & Eu & Ev).
  destruct H as (Hs & Hset & _). destruct H' as (Hs' & Hset' & _).
  rewrite B1, B2 in TB. cbn [fst] in TB. pose proof TB as (Tp & Tc & Tr & Tm & Tb & Th & Tu & Tv).
  destruct c; simpl in A; try contradiction; simpl exec; try congruence.
  - unfold setParam. rewrite <- Ec, <- (nonempty_meq Eu), <- (nonempty_meq Ev).
    destruct (negb _); auto. destruct (_ && _); auto. cbn [fst snd]. split; auto.
    unfold twin. cbn [par contained required memsave bv ham bv_up ham_up set_par set_flags]. auto 10.
  - rewrite !(@settled_build K State Param Key seqb qvalid v_init) by auto. auto.
  - rewrite B1, B2. auto.
  - unfold diagonalize, andThen. rewrite B1, B2. destruct isdiag; cbn [fst snd]; auto. split; auto.
    unfold twin. cbn [par contained required memsave bv ham bv_up ham_up set_mats]. rewrite Tb.
    split; auto. split; auto. split; auto. split; auto. split; [reflexivity|]. split; [reflexivity|]. auto.
  - unfold canonicalize, andThen. rewrite B1, B2. cbn [fst snd]. split; auto.
    unfold twin. cbn [par contained required memsave bv ham bv_up ham_up set_mats].
    rewrite Tb, Th. split; auto. split; auto. split; auto. split; auto. split; [reflexivity|]. split; [reflexivity|]. auto.
Qed.

Lemma run_snd_ : forall (c : callT) l s, snd (Xrun (c :: l) s) = snd (Xexec c s) :: snd (Xrun l (fst (Xexec c s))).
Proof. intros. simpl. destruct (Xexec c s) as [s1 r]. destruct (Xrun l s1) eqn:E. simpl. rewrite E. reflexivity. Qed.

Lemma twin_run : forall l s s', hinv s -> hinv s' -> twin s s' -> ~ In CBuildInt l -> hist26 l s ->
  hist26 l s' /\ snd (Xrun l s) = snd (Xrun l s') /\ twin (fst (Xrun l s)) (fst (Xrun l s')).
Proof.
  induction l as [|c l IH]; intros s s' H H' T Ni Hl. { simpl. auto. }
  destruct Hl as [Ha Hl].
  assert (Nc : c <> CBuildInt) by (intro X; apply Ni; left; auto).
  assert (Ni' : ~ In CBuildInt l) by (intro X; apply Ni; right; auto).
  destruct (@twin_exec c s s' H H' T Nc Ha) as [T1 O1].
  pose proof (@twin_allowed c s s' H H' T Nc Ha) as Ha'.
  destruct (@hinv_exec c s H Ha) as (H1 & _). destruct (@hinv_exec c s' H' Ha') as (H1' & _).
  destruct (@IH _ _ H1 H1' T1 Ni' Hl) as (I1 & I2 & I3).
  split; [split; auto|]. rewrite !run_snd_, !run_fst. split; auto. congruence.
Qed.

Lemma hist26_app : forall l1 l2 s, hist26 (l1 ++ l2) s <-> hist26 l1 s /\ hist26 l2 (fst (Xrun l1 s)).
Proof.
  induction l1 as [|c l1 IH]; intros l2 s; simpl app. { simpl. tauto. }
  rewrite run_fst. simpl hist26. rewrite IH. tauto.
Qed.
Lemma run_app_fst : forall l1 l2 s, fst (Xrun (l1 ++ l2) s) = fst (Xrun l2 (fst (Xrun l1 s))).
Proof. induction l1 as [|c l1 IH]; intros; auto. simpl app. rewrite !run_fst. auto. Qed.

Lemma twin_buildInt : forall s, hinv s -> twin s (fst (Xexec CBuildInt s)).
Proof.
  intros s (_ & Hset & _). simpl. unfold buildInteraction, andThen.
  rewrite (@settled_build K State Param Key seqb qvalid v_init s Hset). cbn [fst].
  unfold twin. cbn. repeat split; auto.
Qed.

End Ham.

(** ** Entries of the operators *)
Section OpEntry.
Context {K : StarRing} {State Key : Type}.
Variable v_op : Key -> State -> State -> K.
Local Open Scope star_scope.
Add Ring Kr7 : (s_ring K).

Lemma tsum_app : forall (l1 l2 : list (nat * nat * K)) i j, tsum (l1 ++ l2) i j = tsum l1 i j + tsum l2 i j.
Proof. induction l1 as [|[[r c] v] l1 IH]; intros; simpl; [ring|]. rewrite IH. ring. Qed.

Lemma tsum_col : forall (f : State -> K) c l k i j,
  map fst l = seq k (length l) ->
  tsum (map (fun r => (fst r, c, f (snd r))) l) i j =
  (if (c =? j)%nat then match nth_error l (i - k) with Some e => if (k <=? i)%nat then f (snd e) else 0 | None => 0 end else 0).
Proof.
  intros f c. induction l as [|[r x] l IH]; intros k i j Hl; simpl.
  { destruct (c =? j)%nat; auto. destruct (i - k)%nat; reflexivity. }
  simpl in Hl. injection Hl as -> Hl. rewrite (IH (S k)) by auto.
  destruct (c =? j)%nat eqn:Ec; [|rewrite andb_false_r; ring]. rewrite andb_true_r.
  destruct (Nat.eqb_spec k i) as [->|N].
  - rewrite Nat.sub_diag. cbn [nth_error snd]. rewrite Nat.leb_refl.
    replace (i - S i)%nat with 0%nat by lia.
    destruct (S i <=? i)%nat eqn:E; [apply Nat.leb_le in E; lia|].
    destruct (nth_error l 0); ring.
  - destruct (Nat.leb_spec k i).
    + replace (i - k)%nat with (S (i - S k))%nat by lia. cbn [nth_error].
      destruct (S k <=? i)%nat eqn:E; [|apply Nat.leb_gt in E; lia]. destruct (nth_error l (i - S k)); ring.
    + destruct (S k <=? i)%nat eqn:E; [apply Nat.leb_le in E; lia|].
      replace (i - k)%nat with 0%nat by lia. cbn [nth_error]. destruct (nth_error l (i - S k)); ring.
Qed.

(** The (i,j) entry of an operator is its matrix element between the i-th and the j-th state. *)
Lemma op_matrix_entry : forall k (tbl : list (nat * State)) i j x y, aligned tbl ->
  nth_error (map snd tbl) i = Some x -> nth_error (map snd tbl) j = Some y ->
  at_ (op_matrix v_op k tbl) i j = v_op k x y.
Proof.
  intros k tbl i j x y A Hi Hj. simpl. unfold aligned in A.
  rewrite nth_error_map in Hi, Hj.
  destruct (nth_error tbl i) as [ei|] eqn:Ei; [|discriminate]. simpl in Hi. injection Hi as <-.
  assert (G : forall l k0, map fst l = seq k0 (length l) ->
     tsum (flat_map (fun c => map (fun r => (fst r, fst c, v_op k (snd r) (snd c))) tbl) l) i j =
     match nth_error l (j - k0) with Some e => if (k0 <=? j)%nat then v_op k (snd ei) (snd e) else 0 | None => 0 end).
  { induction l as [|[c z] l IH]; intros k0 Hl. { simpl. destruct (j - k0)%nat; reflexivity. }
    simpl in Hl. injection Hl as -> Hl. cbn [flat_map]. rewrite tsum_app, (IH (S k0)) by auto.
    cbn [fst snd]. rewrite (@tsum_col (fun r => v_op k r z) k0 tbl 0 i j) by auto.
    rewrite Nat.sub_0_r, Ei. simpl (0 <=? i)%nat. cbv iota.
    destruct (Nat.eqb_spec k0 j) as [->|N].
    - rewrite Nat.sub_diag. cbn [nth_error snd]. rewrite Nat.leb_refl.
      destruct (S j <=? j)%nat eqn:E; [apply Nat.leb_le in E; lia|]. destruct (nth_error l (j - S j)); ring.
    - destruct (Nat.leb_spec k0 j).
      + replace (j - k0)%nat with (S (j - S k0))%nat by lia. cbn [nth_error].
        destruct (S k0 <=? j)%nat eqn:E; [|apply Nat.leb_gt in E; lia]. destruct (nth_error l (j - S k0)); ring.
      + destruct (S k0 <=? j)%nat eqn:E; [apply Nat.leb_le in E; lia|].
        replace (j - k0)%nat with 0%nat by lia. cbn [nth_error]. destruct (nth_error l (j - S k0)); ring. }
  rewrite (G tbl 0%nat A). rewrite Nat.sub_0_r.
  destruct (nth_error tbl j) as [ej|]; [|discriminate]. simpl in Hj. injection Hj as <-. reflexivity.
Qed.
End OpEntry.
