(** Histories: invariants used by PropSystem.v. *)
From Verif Require Import Base Matrix LookupModel LookupProofs SystemModel SystemProofs SystemExact.
From Coq Require Import ZArith Lia Bool Arith Setoid Morphisms List.
Import ListNotations.
Set Implicit Arguments.

Section Inv.
Context {K : StarRing} {State Param Key Angle : Type}.
Variable seqb : State -> State -> bool.
Variable sgen : State -> bool.
Variable keqb : Key -> Key -> bool.
Variable qvalid : ranges -> State -> bool.
Variable v_init : Param -> @request K State -> list (nat * State) * res (mat K * mat K).
Variable v_keys : Param -> list (Key * K).
Variable v_op : Key -> State -> State -> K.
Variable v_rot : Angle -> list (nat * State) -> list (nat * nat * K).
Variable v_compat : Param -> Param -> res Param.
Variable v_label : list State -> (nat -> K) -> nat -> State.

Notation sysT := (@sys K State Param Key).
Notation callT := (@call K State Param Key Angle).
Notation Xexec := (exec seqb sgen keqb qvalid v_init v_keys v_op v_rot v_compat v_label).
Notation Xrun := (run seqb sgen keqb qvalid v_init v_keys v_op v_rot v_compat v_label).
Notation XbuildBasis := (buildBasis seqb qvalid v_init).
Notation XbuildHam := (buildHamiltonian seqb keqb qvalid v_init v_keys v_op).
Notation Xfits := (answers_fit (Angle := Angle) seqb keqb qvalid v_init v_keys v_op).

Hypothesis HI : init_ok seqb v_init.

(** After an exception during the first build: states without matrices. *)
Definition dead (s : sysT) : Prop := states s <> [] /\ msize (ham s) = 0.
Definition inv (s : sysT) : Prop := wfs seqb s \/ dead s.

Lemma dead_build : forall s, dead s -> XbuildBasis s = (s, Throw).
Proof.
  intros s [H1 H2]. unfold buildBasis. rewrite H2. destruct (states s); [congruence|]. reflexivity.
Qed.

Lemma dead_buildHam : forall s, dead s -> XbuildHam s = (s, Throw).
Proof. intros s H. unfold buildHamiltonian, andThen. rewrite dead_build; auto. Qed.

Lemma dead_exec : forall c s, dead s -> dead (fst (Xexec c s)).
Proof.
  intros c s D. pose proof (dead_build D) as B. pose proof (dead_buildHam D) as H.
  destruct c; simpl exec; auto;
    try (unfold diagonalize, canonicalize, unitarize, rotate, constrainBasisvectors, setHamiltonianEntry,
           addHamiltonianEntry, forgetStatemixing, diagonalize, andThen; rewrite H; exact D).
  - unfold setParam. destruct (negb _); auto. destruct (_ && _); auto.
  - rewrite B; auto.
  - unfold buildInteraction, andThen. rewrite B; auto.
  - unfold add, andThen. rewrite B; auto.
Qed.

(** After a successful build nothing is left to do. *)
Definition settled (s : sysT) : Prop :=
  states s <> [] /\ msize (ham s) <> 0 /\ msize (bv s) <> 0 /\ toadd s = [] /\
  ranges_empty (rg s) = true /\ emin s = None /\ emax s = None.

Lemma settled_build : forall s, settled s -> XbuildBasis s = (s, Ok tt).
Proof.
  intros s (A & B & C & D & E & F & G). unfold buildBasis. rewrite D, E, F, G.
  destruct (states s); [congruence|]. apply Nat.eqb_neq in B, C. rewrite B, C. reflexivity.
Qed.

Lemma build_settled : forall s, wfs seqb s -> forall s1, XbuildBasis s = (s1, Ok tt) -> settled s1.
Proof.
  intros s W s1 E. pose proof (wfs_buildBasis qvalid HI W) as W1. rewrite E in W1.
  specialize (W1 (or_intror eq_refl)). simpl in W1.
  unfold buildBasis in E.
  destruct (negb (Bool.eqb (msize (ham s) =? 0) (is_nil (states s)) && Bool.eqb (msize (ham s) =? 0) (msize (bv s) =? 0))) eqn:Ec;
    [discriminate|].
  match type of E with (if ?b then _ else _) = _ => destruct b eqn:Eb end.
  - injection E as <-. apply negb_false_iff, andb_true_iff in Ec. destruct Ec as [E1 E2].
    apply eqb_prop in E1, E2.
    repeat (apply andb_true_iff in Eb; destruct Eb as [Eb ?]).
    apply negb_true_iff in Eb. rewrite Eb in E1. rewrite E1 in E2.
    unfold settled. destruct (states s); [discriminate|].
    destruct (toadd s); [|discriminate]. destruct (emin s); [discriminate|]. destruct (emax s); [discriminate|].
    repeat split; auto; [discriminate| |]; apply Nat.eqb_neq; auto.
  - assert (G : forall t, wfs seqb t -> rg t = no_ranges -> emin t = None -> emax t = None -> toadd t = [] ->
       (if nr (bv t) =? 0 then (t, Throw) else if nc (bv t) =? 0 then (t, Throw) else (t, Ok tt)) = (s1, Ok tt) ->
       settled s1).
    { intros t Wt R1 R2 R3 R4 Et. destruct (nr (bv t) =? 0) eqn:Er; [discriminate|].
      destruct (nc (bv t) =? 0) eqn:En; [discriminate|]. injection Et as <-.
      apply Nat.eqb_neq in Er, En. destruct Wt as (_ & A & B & C & _). unfold settled, msize.
      rewrite R1, R2, R3, R4. repeat split; auto.
      - intro Hs. rewrite Hs in A. simpl in A. lia.
      - rewrite B, C. nia.
      - nia. }
    destruct (is_nil (states s)) eqn:Es.
    + destruct (v_init _ _) as [tbl [[b h]| |]] eqn:Ei; try discriminate.
      eapply G; [| | | | |exact E]; try reflexivity.
      destruct (HI Ei) as (T & R & R1 & R2).
      split; [exact T|]. split; [exact R|]. split; [exact R1|]. split; [exact R2|].
      destruct W as (_ & _ & _ & _ & W3). cbn -[nonempty].
      destruct (states s); [|discriminate]. intro Hn. destruct (W3 Hn) as [W4 _]. simpl in W4.
      apply nonempty_nr in Hn. lia.
    + destruct (updateEverything seqb qvalid s) as [t r] eqn:Eu.
      pose proof (wfs_update (seqb := seqb) qvalid W) as Wt. rewrite Eu in Wt. simpl in Wt.
      destruct r; try discriminate.
      assert (Hf : rg t = no_ranges /\ emin t = None /\ emax t = None /\ toadd t = []).
      { unfold updateEverything in Eu.
        match type of Eu with context [if ?b then _ else if _ then _ else _] => destruct b end.
        - match type of Eu with (if ?b then _ else _) = _ => destruct b end; [|discriminate].
          injection Eu as <- _. auto.
        - match type of Eu with (if ?b then _ else _) = _ => destruct b end; [discriminate|].
          cbn zeta in Eu.
          match type of Eu with (if ?b then _ else _) = _ => destruct b end; [|discriminate].
          injection Eu as <- _. auto. }
      destruct Hf as (F1 & F2 & F3 & F4). eapply G; eauto.
Qed.

Lemma buildBasis_idem : forall s s1 : sysT, wfs seqb s -> XbuildBasis s = (s1, Ok tt) -> XbuildBasis s1 = (s1, Ok tt).
Proof. intros s s1 W E. apply settled_build. eapply build_settled; eauto. Qed.

Lemma inv_buildBasis : forall s, inv s -> inv (fst (XbuildBasis s)).
Proof.
  intros s [W|D]; [|right; rewrite dead_build; auto].
  destruct (states s) eqn:Es.
  2:{ left. apply wfs_buildBasis; auto. left. congruence. }
  unfold buildBasis.
  destruct (negb (Bool.eqb (msize (ham s) =? 0) (is_nil (states s)) && Bool.eqb (msize (ham s) =? 0) (msize (bv s) =? 0))) eqn:Ec;
    [left; exact W|].
  rewrite Es in *. cbn [is_nil negb andb] in *.
  assert (D0 : msize (ham s) = 0).
  { destruct (msize (ham s) =? 0) eqn:E0; [apply Nat.eqb_eq; auto|discriminate]. }
  destruct (v_init _ _) as [tbl [[b h]| |]] eqn:Ei.
  - left. destruct (HI Ei) as (T & R & R1 & R2).
    assert (W1 : wfs seqb (forget (set_mats b h (bv_up s) (ham_up s) (set_states tbl s)))).
    { split; [exact T|]; split; [exact R|]; split; [exact R1|]; split; [exact R2|].
      destruct W as (_ & _ & _ & _ & W3). cbn -[nonempty]. intro Hn. destruct (W3 Hn) as [W4 _].
      rewrite Es in W4. simpl in W4. apply nonempty_nr in Hn. lia. }
    destruct (nr _ =? 0); auto. destruct (nc _ =? 0); auto.
  - destruct tbl; [left|right; split; [discriminate|exact D0]].
    destruct W as (W1 & W2). split; [rewrite Es in W1; exact W1|]. rewrite Es in W2. exact W2.
  - destruct tbl; [left|right; split; [discriminate|exact D0]].
    destruct W as (W1 & W2). split; [rewrite Es in W1; exact W1|]. rewrite Es in W2. exact W2.
Qed.

(** The state in which the body of a call runs. *)
Lemma exec_after_build : forall c (s s1 : sysT), XbuildBasis s = (s1, Ok tt) -> XbuildBasis s1 = (s1, Ok tt) ->
  match c with CSet _ | CRestrict _ _ _ | CAddStates _ => True | _ => Xexec c s = Xexec c s1 end.
Proof.
  intros c s s1 E E1.
  assert (H : XbuildHam s = XbuildHam s1).
  { unfold buildHamiltonian, andThen. rewrite E, E1. reflexivity. }
  destruct c; auto; simpl exec;
    try (unfold diagonalize, canonicalize, unitarize, rotate, constrainBasisvectors, setHamiltonianEntry,
           addHamiltonianEntry, forgetStatemixing, diagonalize, andThen; rewrite H; reflexivity);
    try (unfold buildInteraction, add, andThen; rewrite E, E1; reflexivity).
Qed.

Lemma exec_not_built : forall c s, snd (XbuildBasis s) <> Ok tt ->
  match c with CSet _ | CRestrict _ _ _ | CAddStates _ => True
  | _ => fst (Xexec c s) = fst (XbuildBasis s) /\ snd (Xexec c s) <> Ok tt end.
Proof.
  intros c s N.
  destruct (XbuildBasis s) as [s1 r] eqn:E. simpl in N.
  assert (H : XbuildHam s = (s1, r)).
  { unfold buildHamiltonian, andThen. rewrite E. destruct r as [[]| |]; congruence. }
  destruct c; auto; simpl exec;
    try (unfold diagonalize, canonicalize, unitarize, rotate, constrainBasisvectors, setHamiltonianEntry,
           addHamiltonianEntry, forgetStatemixing, diagonalize, andThen; rewrite H;
         destruct r as [[]| |]; [congruence| |]; split; auto; discriminate);
    try (unfold buildInteraction, add, andThen; rewrite E;
         destruct r as [[]| |]; [congruence| |]; split; auto; discriminate).
Qed.

Lemma exec_inv : forall c s, inv s -> Xfits c s ->
  snd (Xexec c s) = Ok tt \/ keeps c -> inv (fst (Xexec c s)).
Proof.
  intros c s [W|D] Hf Hc; [|right; apply dead_exec; auto].
  destruct (states s) eqn:Es.
  2:{ left. apply exec_wfs; auto. destruct Hc; auto. right. split; auto. congruence. }
  destruct Hc as [Hc|Hc]. { left. apply exec_wfs; auto. }
  destruct (snd (XbuildBasis s)) as [[]| |] eqn:Er.
  - destruct (XbuildBasis s) as [s1 r] eqn:E. simpl in Er. subst r.
    pose proof (buildBasis_idem W E) as E1.
    pose proof (@exec_after_build c s s1 E E1) as EA.
    assert (W1 : wfs seqb s1).
    { pose proof (wfs_buildBasis qvalid HI W) as W1. rewrite E in W1. apply W1. right; reflexivity. }
    assert (S1 : states s1 <> []) by (eapply build_settled; eauto).
    assert (Hf1 : Xfits c s1).
    { assert (H : XbuildHam s = XbuildHam s1).
      { unfold buildHamiltonian, andThen. rewrite E, E1. reflexivity. }
      destruct c; auto; simpl in *; rewrite <- H; auto. }
    destruct c; try (left; exact W); try (rewrite EA; left; apply exec_wfs; auto; fail).
    left. simpl. unfold setParam. destruct (negb _); auto. destruct (_ && _); auto.
  - assert (N : snd (XbuildBasis s) <> Ok tt) by congruence.
    pose proof (@exec_not_built c s N) as EN.
    destruct c; try (left; exact W); try (destruct EN as [-> _]; apply inv_buildBasis; left; auto; fail).
    left. simpl. unfold setParam. destruct (negb _); auto. destruct (_ && _); auto.
  - assert (N : snd (XbuildBasis s) <> Ok tt) by congruence.
    pose proof (@exec_not_built c s N) as EN.
    destruct c; try (left; exact W); try (destruct EN as [-> _]; apply inv_buildBasis; left; auto; fail).
    left. simpl. unfold setParam. destruct (negb _); auto. destruct (_ && _); auto.
Qed.

(** Histories in which add() and unitarize() did not throw; solver answers have the right shape. *)
Fixpoint history (l : list callT) (s : sysT) : Prop :=
  match l with
  | [] => True
  | c :: l' => Xfits c s /\ (snd (Xexec c s) = Ok tt \/ keeps c) /\ history l' (fst (Xexec c s))
  end.

Lemma run_inv : forall l s, inv s -> history l s -> inv (fst (Xrun l s)).
Proof.
  induction l as [|c l IH]; intros s W T; [exact W|].
  destruct T as (T0 & T1 & T2). rewrite run_fst. apply IH; auto. apply exec_inv; auto.
Qed.

Lemma inv_visible : forall s s1 : sysT, inv s -> XbuildBasis s = (s1, Ok tt) -> wfs seqb s1 /\ settled s1.
Proof.
  intros s s1 [W|D] E.
  - split; [|eapply build_settled; eauto].
    pose proof (wfs_buildBasis qvalid HI W) as W1. rewrite E in W1. apply W1. right; reflexivity.
  - rewrite dead_build in E; auto. discriminate.
Qed.

(** ** Dimensions (C58) *)

(** Everything kept for later use has the dimension of the current basis. *)
Definition fit (s : sysT) : Prop :=
  wfs seqb s /\ (nonempty (bv_up s) = true -> nc (bv_up s) = nc (bv s)) /\
  (nonempty (ham_up s) = nonempty (bv_up s)) /\
  (forall e, In e (ops s) -> nr (snd e) = nc (bv s) /\ nc (snd e) = nc (bv s)) /\
  (states s = [] -> ops s = [] /\ nonempty (bv_up s) = false).

Hypothesis keqb_refl : forall k, keqb k k = true.
Hypothesis no_init_ub : forall p rq, snd (v_init p rq) <> UB.
Hypothesis no_compat_ub : forall p q, v_compat p q <> UB.

Lemma nonempty_dims : forall A : mat K, nr A <> 0 -> nc A <> 0 -> nonempty A = true.
Proof. intros A R C. unfold nonempty, msize. apply negb_true_iff, Nat.eqb_neq. nia. Qed.
Lemma nonempty_nr0 : forall A : mat K, nr A = 0 -> nonempty A = false.
Proof. intros A R. unfold nonempty, msize. rewrite R. reflexivity. Qed.

Lemma fit_new : forall p ms th, fit (new_sys p ms th).
Proof.
  intros. split; [apply wfs_new|]. split; [discriminate|]. split; [reflexivity|].
  split; [intros e []|]. auto.
Qed.

Lemma ops_fit_iff : forall n (s : sysT),
  (forall e, In e (ops s) -> nr (snd e) = n /\ nc (snd e) = n) -> ops_fit n s = true.
Proof.
  intros n s H. unfold ops_fit. apply forallb_forall. intros e He. destruct (H e He) as [A B].
  unfold square. rewrite A, B, Nat.eqb_refl. reflexivity.
Qed.

Lemma fit_right : forall s, fit s -> right_fits (nc (bv s)) s = true.
Proof.
  intros s ((T & R & H1 & H2 & RU) & C & E & O & _). unfold right_fits, caches_fit. rewrite ops_fit_iff by auto.
  cbn [andb]. destruct (nonempty (bv_up s)) eqn:En.
  - rewrite E. destruct (RU eq_refl) as [_ U]. destruct (U E) as [U1 U2]. unfold square.
    rewrite U1, U2, C, Nat.eqb_refl by auto. reflexivity.
  - rewrite E. reflexivity.
Qed.

Lemma states_len_nil : forall s : sysT, wfs seqb s -> nr (bv s) <> 0 -> states s <> [].
Proof. intros s (_ & R & _) N H. rewrite H in R. simpl in R. congruence. Qed.

Lemma nr_remove_le : forall f (s : sysT), wfs seqb s -> nr (bv (removeStates seqb f s)) <= nr (bv s).
Proof.
  intros f s (_ & R & _). cbn. rewrite map_length, R.
  clear. generalize (states s). induction l; simpl; auto. destruct (f a); simpl; lia.
Qed.

Lemma fit_remove : forall f (s : sysT), fit s -> nc (bv s) <> 0 -> nr (bv (removeStates seqb f s)) <> 0 ->
  fit (removeStates seqb f s).
Proof.
  intros f s F Hc Hn. pose proof F as (W & C & E & O & N).
  pose proof (wfs_removeStates f W) as W'.
  split; [auto|].
  assert (Eb : nonempty (bv_up (removeStates seqb f s)) = nonempty (bv_up s)).
  { unfold removeStates. cbn [bv_up applyLeft set_mats set_states].
    destruct (nonempty (bv_up s)) eqn:En; auto. apply nonempty_dims; [exact Hn|].
    simpl. rewrite C; auto. }
  split; [|split; [|split]].
  - rewrite Eb. intro En. unfold removeStates. cbn [bv_up bv applyLeft set_mats set_states]. rewrite En. simpl. auto.
  - rewrite Eb. exact E.
  - exact O.
  - intro Hs. exfalso. apply (states_len_nil W' Hn). exact Hs.
Qed.

Lemma fit_applyRight : forall T (s : sysT), fit s -> nr T = nc (bv s) -> nr (bv s) <> 0 -> fit (applyRight T s).
Proof.
  intros T s F HT Hn. pose proof F as (W & C & E & O & N).
  pose proof W as (_ & _ & _ & _ & RU).
  split; [apply wfs_applyRight; auto|]. cbn -[nonempty].
  rewrite E. destruct (nonempty (bv_up s)) eqn:En.
  - destruct (RU eq_refl) as [RU1 RU2]. split; [auto|]. split; [|split].
    + destruct (nc T) eqn:Et.
      * unfold nonempty, msize. cbn. rewrite Et, !Nat.mul_0_r. reflexivity.
      * rewrite !nonempty_dims; auto; cbn; try lia.
        destruct W as (_ & R & _). congruence.
    + intros e He. apply in_map_iff in He. destruct He as (e' & <- & He). auto.
    + intro Hs. exfalso. apply (states_len_nil W Hn Hs).
  - split; [congruence|]. split; [congruence|]. split.
    + intros e He. apply in_map_iff in He. destruct He as (e' & <- & He). auto.
    + intro Hs. exfalso. apply (states_len_nil W Hn Hs).
Qed.

Lemma fit_update : forall (s t : sysT) r, fit s -> nc (bv s) <> 0 -> updateEverything seqb qvalid s = (t, r) ->
  r <> UB /\ (nr (bv t) <> 0 -> nc (bv t) <> 0 -> r = Ok tt -> fit t).
Proof.
  intros s t r F Hc0 E. pose proof F as (W & _). unfold updateEverything in E.
  set (t1 := if ranges_empty (rg s) then s else removeStates seqb _ s) in *.
  assert (W1 : wfs seqb t1) by (unfold t1; destruct (ranges_empty (rg s)); auto; apply wfs_removeStates; auto).
  assert (N1 : nc (bv t1) = nc (bv s)) by (unfold t1; destruct (ranges_empty (rg s)); auto).
  assert (F1 : nr (bv t1) <> 0 -> fit t1).
  { unfold t1. destruct (ranges_empty (rg s)); auto. intro. apply fit_remove; auto. }
  match type of E with context [if ?b then _ else if _ then _ else _] => destruct b end.
  { destruct (is_nil (toadd t1)); injection E as <- <-; split; try discriminate; intros; auto. }
  assert (RF : right_fits (nc (bv t1)) t1 = true).
  { destruct (Nat.eq_dec (nr (bv t1)) 0) as [Z|NZ]; [|apply fit_right; auto].
    destruct F as (_ & C & E0 & O & N). pose proof W as (_ & R & _ & _ & RU).
    assert (Eo : ops t1 = ops s) by (unfold t1; destruct (ranges_empty (rg s)); auto).
    assert (Eh : ham_up t1 = ham_up s) by (unfold t1; destruct (ranges_empty (rg s)); auto).
    assert (Eb : nonempty (bv_up t1) = true -> nonempty (bv_up s) = true /\ nc (bv_up t1) = nc (bv_up s)).
    { unfold t1. destruct (ranges_empty (rg s)); auto. unfold removeStates.
      cbn [bv_up applyLeft set_mats set_states]. destruct (nonempty (bv_up s)) eqn:En; auto. congruence. }
    unfold right_fits, caches_fit. rewrite ops_fit_iff by (rewrite Eo, N1; auto). cbn [andb]. rewrite Eh, E0.
    apply andb_true_iff. split.
    - destruct (nonempty (bv_up t1)); auto. destruct (Eb eq_refl) as [X Y].
      rewrite Y, C, N1, Nat.eqb_refl; auto.
    - destruct (nonempty (bv_up s)) eqn:En; auto. destruct (RU eq_refl) as [_ U]. destruct (U E0) as [U1 U2].
      unfold square. rewrite U1, U2, C, N1, Nat.eqb_refl; auto. }
  rewrite RF in E. cbn [negb] in E. cbn zeta in E.
  set (ta := applyRight (msel (nc (bv t1)) (kept_cols t1)) t1) in *.
  set (f := fun e : nat * State => sltre (thr ta) (rowsq (bv ta) (fst e))) in *.
  assert (G : nr (bv (removeStates seqb f ta)) <> 0 -> nc (bv (removeStates seqb f ta)) <> 0 ->
              fit (removeStates seqb f ta)).
  { intros Hn Hcc.
    assert (Wa : wfs seqb ta) by (apply wfs_applyRight; auto).
    pose proof (nr_remove_le f Wa) as Le. change (nr (bv ta)) with (nr (bv t1)) in Le.
    apply fit_remove; auto. apply fit_applyRight; auto; try lia. apply F1. lia. }
  destruct (is_nil (toadd (removeStates seqb f ta))); injection E as <- <-; split; try discriminate.
  intros Hn Hc _. apply G; auto.
Qed.

Lemma fit_buildBasis : forall s, fit s -> snd (XbuildBasis s) <> UB /\
  (snd (XbuildBasis s) = Ok tt -> fit (fst (XbuildBasis s)) /\ settled (fst (XbuildBasis s))).
Proof.
  intros s F. pose proof F as (W & C & E & O & N).
  cut (snd (XbuildBasis s) <> UB /\ (snd (XbuildBasis s) = Ok tt -> fit (fst (XbuildBasis s)))).
  { intros [A B]. split; auto. intro H. split; auto. eapply build_settled; [exact W|].
    rewrite <- H. destruct (XbuildBasis s); reflexivity. }
  unfold buildBasis.
  destruct (negb (Bool.eqb (msize (ham s) =? 0) (is_nil (states s)) && Bool.eqb (msize (ham s) =? 0) (msize (bv s) =? 0))) eqn:Ec.
  { split; discriminate. }
  match goal with |- context [if ?b then (s, Ok tt) else _] => destruct b end.
  { split; [discriminate|auto]. }
  destruct (is_nil (states s)) eqn:Es.
  - pose proof (no_init_ub (par s) (Request (rg s) (emin s) (emax s) (toadd s))) as NU.
    destruct (v_init _ _) as [tbl [[b h]| |]] eqn:Ei; simpl in NU; [|split; discriminate|congruence].
    destruct (HI Ei) as (T & R & R1 & R2). destruct (states s) eqn:Es'; [|discriminate].
    destruct (N eq_refl) as [N1 N2].
    assert (Fi : nr b <> 0 -> fit (forget (set_mats b h (bv_up s) (ham_up s) (set_states tbl s)))).
    { intro Hn. split.
      - split; [exact T|]; split; [exact R|]; split; [exact R1|]; split; [exact R2|].
        cbn -[nonempty]. rewrite N2. discriminate.
      - cbn -[nonempty]. rewrite N2, N1. split; [discriminate|]. split; [congruence|].
        split; [intros e []|]. auto. }
    cbn [bv forget set_restr set_mats]. destruct (nr b =? 0) eqn:En; [split; discriminate|].
    apply Nat.eqb_neq in En. destruct (nc b =? 0); split; try discriminate. auto.
  - destruct (updateEverything seqb qvalid s) as [t r] eqn:Eu.
    assert (Hc : nc (bv s) <> 0).
    { cbn in Ec. intro Z. destruct (msize (ham s) =? 0) eqn:E0; [discriminate|].
      unfold msize in Ec. rewrite Z, Nat.mul_0_r in Ec. discriminate. }
    destruct (fit_update F Hc Eu) as [U1 U2].
    destruct r as [[]| |]; [|split; discriminate|congruence].
    destruct (nr (bv t) =? 0) eqn:En; [split; discriminate|].
    destruct (nc (bv t) =? 0) eqn:Em; [split; discriminate|].
    apply Nat.eqb_neq in En, Em. split; [discriminate|]. intros _. apply U2; auto.
Qed.

Lemma has_op_in : forall k l, has_op keqb k l = true ->
  exists e, find (fun e : Key * mat K => keqb (fst e) k) l = Some e /\ In e l.
Proof.
  intros k l H. unfold has_op in H. apply existsb_exists in H. destruct H as (e & He & Hk).
  destruct (find (fun e0 : Key * mat K => keqb (fst e0) k) l) as [e'|] eqn:Ef.
  - exists e'. split; auto. apply find_some in Ef. tauto.
  - pose proof (find_none _ _ Ef e He) as X. simpl in X. congruence.
Qed.

Definition add_op (s : sysT) (acc : list (Key * mat K)) (k : Key) : list (Key * mat K) :=
  if has_op keqb k acc then acc else acc ++ [(k, mconj (bv s) (op_matrix v_op k (states s)))].

Lemma add_op_has : forall s ks acc k, (In k ks \/ has_op keqb k acc = true) ->
  has_op keqb k (fold_left (add_op s) ks acc) = true.
Proof.
  induction ks as [|k0 ks IH]; intros acc k H; simpl.
  - destruct H as [[]|H]; auto.
  - apply IH. unfold add_op. destruct H as [[->|H]|H]; auto.
    + right. destruct (has_op keqb k acc) eqn:E; auto. unfold has_op. rewrite existsb_app. simpl.
      rewrite keqb_refl. apply orb_true_r.
    + right. destruct (has_op keqb k0 acc); auto. unfold has_op in *. rewrite existsb_app, H. reflexivity.
Qed.

Lemma add_op_dims : forall s ks acc, 
  (forall e, In e acc -> nr (snd e) = nc (bv s) /\ nc (snd e) = nc (bv s)) ->
  forall e, In e (fold_left (add_op s) ks acc) -> nr (snd e) = nc (bv s) /\ nc (snd e) = nc (bv s).
Proof.
  induction ks as [|k0 ks IH]; intros acc H e He; simpl in *; auto.
  eapply IH; [|exact He]. intros e' He'. unfold add_op in He'. destruct (has_op keqb k0 acc); auto.
  apply in_app_iff in He'. destruct He' as [He'|[<-|[]]]; auto.
Qed.

Lemma initializeInteraction_eq : forall s, initializeInteraction keqb v_keys v_op s =
  set_ops (fold_left (add_op s) (map fst (v_keys (par s))) (ops s)) s.
Proof. reflexivity. Qed.

Lemma fit_init : forall s, fit s -> states s <> [] ->
  fit (initializeInteraction keqb v_keys v_op s) /\
  keys_fit keqb v_keys (initializeInteraction keqb v_keys v_op s) = true.
Proof.
  intros s (W & C & E & O & N) Hs. split.
  - split; [exact W|]. split; [exact C|]. split; [exact E|]. split; [|intro Hx; exfalso; apply Hs; exact Hx].
    rewrite initializeInteraction_eq. cbn [ops bv set_ops]. apply add_op_dims; auto.
  - unfold keys_fit. apply forallb_forall. intros [k v] He. rewrite initializeInteraction_eq. cbn [par ham ops set_ops fst] in *.
    unfold get_op.
    destruct (@has_op_in k (fold_left (add_op s) (map fst (v_keys (par s))) (ops s))) as (e & Ef & Hin).
    { apply add_op_has. left. apply in_map_iff. exists (k, v). auto. }
    rewrite Ef. destruct (add_op_dims s _ _ O _ Hin) as [A B]. unfold square. rewrite A, B.
    destruct W as (_ & _ & H1 & _). rewrite H1, Nat.eqb_refl. reflexivity.
Qed.

Lemma fit_go : forall s, fit s -> states s <> [] ->
  let s2 := initializeInteraction keqb v_keys v_op s in
  exists s', (if negb (keys_fit keqb v_keys s2) then (s2, UB) else
        let s3 := addInteraction keqb v_keys s2 in
        let s4 := if memsave s3 then deleteInteraction s3 else s3 in
        (set_flags true false s4, Ok tt)) = (s', Ok tt) /\ fit s' /\ states s' <> [] /\ nc (bv s') = nc (bv s).
Proof.
  intros s F Hs s2. destruct (fit_init F Hs) as [F2 KF]. fold s2 in F2, KF. rewrite KF. cbn [negb].
  eexists. split; [reflexivity|].
  assert (F3 : fit (addInteraction keqb v_keys s2)).
  { destruct F2 as (W & C & E & O & N). split; [apply wfs_addInteraction; auto|].
    split; [exact C|]. split; [exact E|]. split; [exact O|exact N]. }
  split; [|cbn zeta; destruct (memsave _); split; [exact Hs|reflexivity|exact Hs|reflexivity]].
  cbn zeta. destruct (memsave _).
  - destruct F3 as (W & C & E & O & N). split; [exact W|]. split; [exact C|]. split; [exact E|].
    split; [intros e []|]. intro Hx. exfalso; apply Hs; exact Hx.
  - exact F3.
Qed.

Lemma fit_buildHam : forall s, fit s -> snd (XbuildHam s) <> UB /\
  (snd (XbuildHam s) = Ok tt -> fit (fst (XbuildHam s)) /\ states (fst (XbuildHam s)) <> [] /\
     nc (bv (fst (XbuildHam s))) <> 0).
Proof.
  intros s F. destruct (fit_buildBasis F) as [B1 B2]. unfold buildHamiltonian, andThen.
  destruct (XbuildBasis s) as [s1 [[]| |]]; simpl in B1, B2; [|split; discriminate|congruence].
  destruct (B2 eq_refl) as [F1 S1]. clear B1 B2.
  pose proof F1 as (W & C & E & O & N). pose proof W as (T & R & H1 & H2 & RU).
  destruct S1 as (S1 & S2 & S3 & _).
  assert (S4 : nc (bv s1) <> 0) by (unfold msize in S3; lia).
  destruct (required s1); [|split; [discriminate|auto]].
  cbn zeta. destruct (contained s1).
  - destruct (memsave s1 || negb (nonempty (bv_up s1)) || negb (nonempty (ham_up s1))) eqn:Em; [split; discriminate|].
    apply orb_false_iff in Em. destruct Em as [Em Eh]. apply orb_false_iff in Em. destruct Em as [_ Em].
    apply negb_false_iff in Em, Eh. destruct (RU Em) as [RU1 RU2]. destruct (RU2 Eh) as [RU3 RU4].
    destruct (@fit_go (set_mats (bv_up s1) (ham_up s1) (bv_up s1) (ham_up s1) s1)) as (s' & Eg & Fg & Sg & Ng).
    + split; [split; [exact T|]; split; [exact RU1|]; split; [exact RU3|]; split; [exact RU4|exact RU]|].
      cbn -[nonempty]. split; [auto|]. split; [exact E|]. split; [|exact N].
      intros e He. rewrite C by auto. auto.
    + exact S1.
    + cbn zeta in Eg. rewrite Eg. split; [discriminate|]. intros _. split; [auto|]. split; [auto|].
      simpl. rewrite Ng. cbn. rewrite C; auto.
  - destruct (memsave s1) eqn:Em.
    + destruct (@fit_go s1 F1 S1) as (s' & Eg & Fg & Sg & Ng).
      cbn zeta in Eg. rewrite Eg. split; [discriminate|]. intros _. split; [auto|]. split; [auto|].
      simpl. rewrite Ng. auto.
    + destruct (@fit_go (set_mats (bv s1) (ham s1) (bv s1) (ham s1) s1)) as (s' & Eg & Fg & Sg & Ng).
      * split; [split; [exact T|]; split; [exact R|]; split; [exact H1|]; split; [exact H2|auto]|].
        cbn -[nonempty]. split; [auto|]. split; [|split; [exact O|intro; congruence]].
        unfold nonempty. apply Nat.eqb_neq in S2, S3. rewrite S2, S3. reflexivity.
      * exact S1.
      * cbn zeta in Eg. rewrite Eg. split; [discriminate|]. intros _. split; [auto|]. split; [auto|].
        simpl. rewrite Ng. auto.
Qed.

Definition shapes (c : callT) (s : sysT) : Prop :=
  match c with
  | CAdd o _ => fit o /\ settled o
  | CCanon => False
  | _ => Xfits c s
  end.

Lemma shapes_fits : forall c s, shapes c s -> Xfits c s.
Proof. intros c s. destruct c; simpl; auto; try tauto. intros [(W & _) _]. exact W. Qed.

Lemma fit_body : forall (g : sysT -> sysT * res unit) s,
  fit s ->
  (forall s1, XbuildHam s = (s1, Ok tt) -> fit s1 -> states s1 <> [] -> nr (bv s1) <> 0 -> nc (bv s1) <> 0 ->
     snd (g s1) <> UB /\ (snd (g s1) = Ok tt -> fit (fst (g s1)))) ->
  snd (andThen XbuildHam g s) <> UB /\ (snd (andThen XbuildHam g s) = Ok tt -> fit (fst (andThen XbuildHam g s))).
Proof.
  intros g s F H. destruct (fit_buildHam F) as [B1 B2]. unfold andThen.
  destruct (XbuildHam s) as [s1 [[]| |]] eqn:E; simpl in B1, B2; [|split; discriminate|congruence].
  destruct (B2 eq_refl) as (F1 & S1 & N1). apply H; auto.
  destruct F1 as ((_ & R & _) & _). rewrite R. destruct (states s1); [congruence|discriminate].
Qed.

Lemma fit_diag : forall s isdiag U D, fit s ->
  (let n := nc (bv (fst (XbuildHam s))) in nr U = n /\ nc U = n /\ nr D = n /\ nc D = n) ->
  snd (diagonalize seqb keqb qvalid v_init v_keys v_op isdiag U D s) <> UB /\
  (snd (diagonalize seqb keqb qvalid v_init v_keys v_op isdiag U D s) = Ok tt ->
   fit (fst (diagonalize seqb keqb qvalid v_init v_keys v_op isdiag U D s)) /\
   states (fst (diagonalize seqb keqb qvalid v_init v_keys v_op isdiag U D s)) <> []).
Proof.
  intros s isdiag U D F Hf. destruct (fit_buildHam F) as [B1 B2]. unfold diagonalize, andThen.
  destruct (XbuildHam s) as [s1 [[]| |]] eqn:E; simpl in B1, B2; [|split; discriminate|congruence].
  destruct (B2 eq_refl) as (F1 & S1 & N1). simpl in Hf. destruct Hf as (D1 & D2 & D3 & D4).
  destruct isdiag; [split; [discriminate|auto]|]. split; [discriminate|]. intros _. split; [|exact S1].
  destruct F1 as ((T & R & H1 & H2 & RU) & C & E1 & O & N).
  split; [split; [exact T|]; split; [exact R|]; split; [cbn; lia|]; split; [cbn; lia|exact RU]|].
  cbn -[nonempty]. rewrite D2. split; [exact C|]. split; [exact E1|]. split; [exact O|exact N].
Qed.

Lemma fit_bump : forall i j v s, fit s -> fit (bump i j v s).
Proof.
  intros i j v s (W & C & E & O & N). split; [apply wfs_bump; auto|].
  split; [exact C|]. split; [exact E|]. split; [exact O|exact N].
Qed.

Lemma stateIndex_no_ub : forall (tbl : list (nat * State)) a, stateIndex seqb sgen tbl a <> UB.
Proof. intros. unfold stateIndex. destruct (sgen a); [discriminate|]. destruct (tfind seqb tbl a); discriminate. Qed.

Theorem exec_fit : forall c s, fit s -> shapes c s ->
  snd (Xexec c s) <> UB /\ (snd (Xexec c s) = Ok tt -> fit (fst (Xexec c s))).
Proof.
  intros c s F Sh. destruct c; simpl exec.
  - unfold setParam. destruct (negb _); [split; discriminate|]. destruct (_ && _); split; try discriminate. intros _. exact F.
  - split; [discriminate|]. intros _. exact F.
  - split; [discriminate|]. intros _. exact F.
  - destruct (fit_buildBasis F) as [A B]. split; auto. intro H. apply B; auto.
  - destruct (fit_buildHam F) as [A B]. split; auto. intro H. apply B; auto.
  - destruct (fit_buildBasis F) as [A B]. unfold buildInteraction, andThen.
    destruct (XbuildBasis s) as [s1 [[]| |]]; simpl in A, B; [|split; discriminate|congruence].
    destruct (B eq_refl) as [F1 S1]. split; [discriminate|]. intros _. apply fit_init; auto. apply S1.
  - destruct (fit_diag (s := s) isdiag U D F Sh) as [A B]. split; auto. intro H; apply B; auto.
  - destruct Sh.
  - apply fit_body; auto. intros s1 E1 F1 S1 N1 N2. cbn zeta.
    destruct F1 as ((T & R & H1 & H2 & RU) & C & E & O & N).
    match goal with |- context [if ?b then _ else _] => destruct b eqn:En end; [split; discriminate|].
    split; [discriminate|]. intros _.
    apply negb_false_iff, Nat.eqb_eq in En. cbn [states set_states] in En. cbn -[nonempty].
    split.
    + split; [|split; [reflexivity|split; [cbn; lia|split; [cbn; lia|discriminate]]]]. cbn.
      eapply label_push_full; [reflexivity|apply table_nil|simpl; auto].
    + cbn -[nonempty]. split; [discriminate|]. split; [reflexivity|]. split.
      * intros e He. rewrite <- En. auto.
      * intro Hs. rewrite Hs in En. simpl in En. congruence.
  - apply fit_body; auto. intros s1 E1 F1 S1 N1 N2.
    destruct F1 as ((T & R & H1 & H2 & RU) & C & E & O & N).
    rewrite ops_fit_iff by auto. cbn [negb]. cbn zeta. split; [discriminate|]. intros _.
    assert (Hl : length (states s1) <> 0) by congruence.
    split.
    + split; [exact T|]. cbn -[nonempty].
      split; [reflexivity|]. split; [exact H1|]. split; [exact H2|].
      destruct (nonempty (bv_up s1)) eqn:En.
      * intros _. split; [reflexivity|]. apply RU; auto.
      * intro H. rewrite H in En; discriminate.
    + cbn -[nonempty]. split; [|split; [|split]].
      * destruct (nonempty (bv_up s1)) eqn:En; cbn -[nonempty]; auto. rewrite En; auto.
      * destruct (nonempty (bv_up s1)) eqn:En; [|congruence].
        rewrite E. symmetry. apply nonempty_dims; cbn; auto. rewrite C; auto.
      * rewrite map_map. intros e He. apply in_map_iff in He. destruct He as (e' & <- & _). split; reflexivity.
      * intro; congruence.
  - apply fit_body; auto. intros s1 E1 F1 S1 N1 N2.
    destruct (has_dup idxs); [split; discriminate|]. destruct (existsb _ _); [split; discriminate|].
    rewrite fit_right by auto. cbn [negb]. split; [discriminate|]. intros _. apply fit_applyRight; auto.
  - destruct (fit_buildBasis F) as [A B]. unfold add, andThen.
    destruct (XbuildBasis s) as [s1 [[]| |]]; simpl in A, B; [|split; discriminate|congruence].
    destruct (B eq_refl) as [F1 S1]. clear A B. destruct Sh as [Fo So].
    pose proof F1 as ((T & R & H1 & H2 & RU) & C & E & O & N).
    pose proof Fo as ((oT & oR & oH1 & oH2 & oRU) & oC & oE & oO & oN).
    pose proof (@no_compat_ub (par s1) (par other)) as NU.
    destruct (v_compat (par s1) (par other)) as [p| |]; [|split; discriminate|congruence].
    cbn zeta. cbn [memsave contained required deleteInteraction set_par set_ops states].
    destruct (negb (Bool.eqb (memsave s1) (memsave other))); [split; discriminate|].
    destruct (negb (Bool.eqb (contained s1) (contained other))); [split; discriminate|].
    destruct (negb (Bool.eqb (required s1) (required other))); [split; discriminate|].
    pose proof (@merge_table State seqb K (states other) (states s1) T) as MT.
    destruct (merge_states seqb (states s1) (states other)) as [tbl tr] eqn:Em. simpl in MT.
    cbn -[nonempty negb Bool.eqb mmul Nat.eqb].
    destruct (negb (Bool.eqb (nonempty (bv_up s1)) (nonempty (bv_up other)))) eqn:Eb; [split; discriminate|].
    apply negb_false_iff, eqb_prop in Eb.
    assert (Ntbl : length tbl <> 0).
    { intro Z. assert (Hn : tbl = []) by (destruct tbl; auto; discriminate).
      subst tbl. destruct S1 as (S1 & _). clear - Em S1.
      assert (G : forall l t0 tr0, t0 <> [] -> merge_states (K:=K) seqb t0 l <> ([], tr0)).
      { induction l as [|[i x] l IH]; intros t0 tr0 H; simpl; [congruence|].
        destruct (tfind seqb t0 x).
        - specialize (IH t0). destruct (merge_states seqb t0 l) as [a b]. intro Hx. injection Hx as -> _.
          eapply IH; eauto.
        - specialize (IH (t0 ++ [(length t0, x)])). destruct (merge_states seqb (t0 ++ [(length t0, x)]) l) as [a b].
          intro Hx. injection Hx as -> _. eapply IH; [|reflexivity]. destruct t0; discriminate. }
      eapply G; eauto. }
    destruct (nonempty (bv_up s1)) eqn:En; cbn -[nonempty negb Bool.eqb mmul Nat.eqb].
    + symmetry in Eb. destruct (RU eq_refl) as [U1 U2]. destruct (oRU Eb) as [oU1 oU2].
      destruct (U2 E) as [U3 U4]. rewrite Eb in oE. destruct (oU2 oE) as [oU3 oU4].
      specialize (C eq_refl). specialize (oC Eb).
      destruct (negb orth); [split; discriminate|]. cbn -[nonempty negb Bool.eqb mmul Nat.eqb].
      rewrite E, oE. cbn -[nonempty mmul Nat.eqb].
      assert (X1 : nr (ham_up s1) = nr (ham s1)) by lia. assert (X2 : nr (ham_up other) = nr (ham other)) by lia.
      rewrite X1, X2, !Nat.eqb_refl. cbn -[nonempty mmul Nat.eqb]. split; [discriminate|]. intros _.
      apply nonempty_nr in En, Eb.
      split; [split; [exact MT|]; split; [reflexivity|]; split; [cbn; lia|]; split; [cbn; lia|]|].
      * cbn -[nonempty]. intros _. split; [reflexivity|]. intros _. lia.
      * cbn -[nonempty]. split; [lia|]. split; [rewrite !nonempty_dims; auto; cbn; lia|].
        split; [intros e []|]. intro Hx. rewrite Hx in Ntbl. simpl in Ntbl; congruence.
    + symmetry in Eb. rewrite Eb in oE.
      destruct (negb orth); [split; discriminate|]. cbn -[nonempty negb Bool.eqb mmul Nat.eqb].
      rewrite E, oE. cbn -[nonempty mmul Nat.eqb]. split; [discriminate|]. intros _.
      split; [split; [exact MT|]; split; [reflexivity|]; split; [cbn; lia|]; split; [cbn; lia|]|].
      * cbn -[nonempty]. congruence.
      * cbn -[nonempty]. split; [congruence|]. split; [congruence|]. split; [intros e []|]. auto.
  - apply fit_body; auto. intros s1 E1 F1 S1 N1 N2.
    pose proof (@stateIndex_no_ub (states s1) a) as Na. pose proof (@stateIndex_no_ub (states s1) b) as Nb.
    destruct (stateIndex seqb sgen (states s1) a) as [i| |]; cbn [bind]; [|split; discriminate|congruence].
    destruct (stateIndex seqb sgen (states s1) b) as [j| |]; cbn [bind]; [|split; discriminate|congruence].
    split; [discriminate|]. intros _. apply fit_bump; auto.
  - apply fit_body; auto. intros s1 E1 F1 S1 N1 N2.
    pose proof (@stateIndex_no_ub (states s1) a) as Na. pose proof (@stateIndex_no_ub (states s1) b) as Nb.
    destruct (stateIndex seqb sgen (states s1) a) as [i| |]; cbn [bind]; [|split; discriminate|congruence].
    destruct (stateIndex seqb sgen (states s1) b) as [j| |]; cbn [bind]; [|split; discriminate|congruence].
    split; [discriminate|]. intros _. apply fit_bump; auto.
  - destruct (fit_diag (s := s) isdiag U D F Sh) as [A B]. unfold forgetStatemixing. unfold andThen at 1 2 3.
    destruct (diagonalize seqb keqb qvalid v_init v_keys v_op isdiag U D s) as [s1 [[]| |]];
      simpl in A, B; [|split; discriminate|congruence].
    destruct (B eq_refl) as [F1 S1]. cbn zeta. match goal with |- context [if ?b then _ else _] => destruct b end;
      [split; discriminate|]. split; [discriminate|]. intros _. exact F1.
Qed.

(** Histories without canonicalize() in which only the last call may fail. *)
Fixpoint good_history (l : list callT) (s : sysT) : Prop :=
  match l with
  | [] => True
  | c :: l' => shapes c s /\ (snd (Xexec c s) = Ok tt -> good_history l' (fst (Xexec c s)))
  end.

(** The outcomes up to the first failure. *)
Fixpoint upto_failure (rs : list (res unit)) : list (res unit) :=
  match rs with
  | [] => []
  | Ok u :: rs' => Ok u :: upto_failure rs'
  | r :: _ => [r]
  end.

Lemma run_snd : forall c l s, snd (Xrun (c :: l) s) = snd (Xexec c s) :: snd (Xrun l (fst (Xexec c s))).
Proof.
  intros. simpl. destruct (Xexec c s) as [s1 r]. simpl. destruct (Xrun l s1). reflexivity.
Qed.

Theorem run_no_ub : forall l s, fit s -> good_history l s -> ~ In UB (upto_failure (snd (Xrun l s))).
Proof.
  induction l as [|c l IH]; intros s F G H; [destruct H|].
  rewrite run_snd in H. destruct G as [G1 G2]. destruct (@exec_fit c s F G1) as [A B].
  destruct (snd (Xexec c s)) as [[]| |] eqn:E; simpl in H.
  - destruct H as [H|H]; [discriminate|]. eapply IH; [| |exact H]; auto.
  - destruct H as [H|[]]. discriminate.
  - congruence.
Qed.

End Inv.
