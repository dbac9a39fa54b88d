(** C26 - C29: the Hamiltonian along histories.

    [proj B] = B B+ projects on the span of the basis vectors B, [lift B X] = B X B+ is the
    operator whose matrix in the basis B is X, and
    [Htot p] = B0 H0 B0+ + sum over the interactions (k, c) for the parameters p of c P M_k P
    is the Hamiltonian for p, where B0, H0 are the basis and the energies after buildBasis,
    P = proj B0 and M_k is the matrix of operator k between the states. *)
From Verif Require Import Base Matrix LookupModel LookupProofs SystemModel SystemProofs SystemExact SystemInv AddProofs HamProofs HamProofs2 SystemDemo.
From Coq Require Import ZArith Lia Bool Arith Setoid Morphisms List QArith Qcanon.
Import ListNotations.
Set Implicit Arguments.
Close Scope Q_scope. Open Scope nat_scope.

Section P.
Context {K : StarRing} {State Param Key Angle : Type}.
Variable seqb : State -> State -> bool.
Variable sgen : State -> bool.
Variable keqb : Key -> Key -> bool.
Variable qvalid : ranges -> State -> bool.
Variable v_init : Param -> @request K State -> list (nat * State) * res (mat K * mat K).
Variable v_keys : Param -> list (Key * K).
Variable v_op : Key -> State -> State -> K.
Variable v_rot : Angle -> list (nat * State) -> list (nat * nat * K).
Variable v_compat : Param -> Param -> res Param.
Variable v_label : list State -> (nat -> K) -> nat -> State.
Notation sysT := (@sys K State Param Key).
Notation callT := (@call K State Param Key Angle).
Notation Xexec := (exec (Angle := Angle) seqb sgen keqb qvalid v_init v_keys v_op v_rot v_compat v_label).
Notation Xrun := (run (Angle := Angle) seqb sgen keqb qvalid v_init v_keys v_op v_rot v_compat v_label).
Notation XbuildHam := (buildHamiltonian seqb keqb qvalid v_init v_keys v_op).
Notation Xhist26 := (hist26 (Angle := Angle) seqb sgen keqb qvalid v_init v_keys v_op v_rot v_compat v_label).
Notation HT s := (Htot v_keys v_op (states s) (bv s) (ham s)).
Local Open Scope mat_scope.
Add Ring Kr9 : (s_ring K).

(** A system whose basis is built and that has no interaction yet: the basis vectors
    are orthonormal. *)
Definition fresh (s : sysT) : Prop :=
  settled s /\ nr (bv s) = length (states s) /\ nr (ham s) = nc (bv s) /\ nc (ham s) = nc (bv s) /\
  isometry (bv s) /\
  contained s = false /\ required s = false /\ v_keys (par s) = [] /\ ops s = [] /\
  nonempty (bv_up s) = false /\ nonempty (ham_up s) = false.

Hypothesis keqb_eq : forall k k', keqb k k' = true <-> k = k'.

Lemma fresh_start : forall s, fresh s -> start_ok (states s) (bv s) (ham s) /\ hinv v_keys v_op (states s) (bv s) (ham s) s.
Proof.
  intros s (St & R & R1 & C1 & I & Ec & Er & Ek & Eo & Nb & Nh).
  assert (SO : start_ok (states s) (bv s) (ham s)).
  { split; auto. split; auto. split; auto. split; auto.
    destruct St as (A & _ & C & _). split; [destruct (states s); [congruence|discriminate]|].
    intro X. apply C. unfold msize. rewrite X. lia. }
  split; auto. apply hinv_start; auto; reflexivity.
Qed.

(** *** C26 *)

(** [hist26] allows set, buildBasis, buildHamiltonian, diagonalize (with an exact solver),
    canonicalize and buildInteraction (the latter only when no diagonalisation separates the
    current basis from the one of the stored operators; C27).
    Whatever the history, the Hamiltonian for the current parameters is the same operator. *)
Theorem C26_value : forall s0 l, fresh s0 -> Xhist26 l s0 ->
  exists s, XbuildHam (fst (Xrun l s0)) = (s, Ok tt) /\ par s = par (fst (Xrun l s0)) /\
    states s = states s0 /\
    bv s * (bv s)^+ == proj (bv s0) /\ lift (bv s) (ham s) == HT s0 (par s).
Proof.
  intros s0 l F Hl. destruct (fresh_start F) as [SO H].
  pose proof (@hinv_run K State Param Key Angle seqb sgen keqb qvalid v_init v_keys v_op v_rot v_compat v_label
     keqb_eq _ _ _ SO l s0 H Hl) as H1.
  destruct (@hinv_build K State Param Key seqb keqb qvalid v_init v_keys v_op keqb_eq _ _ _ SO _ H1) as (s & B & H2 & R & P & _).
  exists s. split; auto. split; auto. destruct H2 as (Es & _ & Hr & _). destruct (Hr R) as (_ & _ & _ & Q1 & Q2). auto.
Qed.

Corollary C26_history_independent : forall s0 l1 l2 s1 s2, fresh s0 -> Xhist26 l1 s0 -> Xhist26 l2 s0 ->
  par (fst (Xrun l1 s0)) = par (fst (Xrun l2 s0)) ->
  XbuildHam (fst (Xrun l1 s0)) = (s1, Ok tt) -> XbuildHam (fst (Xrun l2 s0)) = (s2, Ok tt) ->
  lift (bv s1) (ham s1) == lift (bv s2) (ham s2) /\ bv s1 * (bv s1)^+ == bv s2 * (bv s2)^+.
Proof.
  intros s0 l1 l2 s1 s2 F H1 H2 E E1 E2.
  destruct (@C26_value s0 l1 F H1) as (t1 & T1 & P1 & _ & Q1 & L1).
  destruct (@C26_value s0 l2 F H2) as (t2 & T2 & P2 & _ & Q2 & L2).
  rewrite T1 in E1. injection E1 as <-. rewrite T2 in E2. injection E2 as <-.
  split; [rewrite L1, L2; rewrite P1, P2, E; reflexivity|rewrite Q1, Q2; reflexivity].
Qed.

(** The basis vectors of a diagonalised system (H diagonal, orthonormal basis) are eigenvectors of
    this operator, H_jj the eigenvalues. *)
Corollary C26_eigenvectors : forall s0 l s, fresh s0 -> Xhist26 l s0 -> XbuildHam (fst (Xrun l s0)) = (s, Ok tt) ->
  isometry (bv s) -> diagonal (ham s) -> nr (ham s) = nc (bv s) -> nc (ham s) = nc (bv s) ->
  forall i j, i < nr (bv s) -> j < nc (bv s) ->
  at_ (HT s0 (par s) * bv s) i j = smul (at_ (ham s) j j) (at_ (bv s) i j).
Proof.
  intros s0 l s F Hl E I D R1 C1 i j Hi Hj.
  destruct (@C26_value s0 l F Hl) as (t & T & P & _ & Q & L). rewrite T in E. injection E as ->.
  assert (G : HT s0 (par s) * bv s == bv s * ham s).
  { rewrite <- L. unfold lift, isometry in *. rewrite !mmul_assoc, I, mmul_id_r by auto. reflexivity. }
  destruct G as (G1 & G2 & G3). rewrite G3; [|simpl in *; lia|simpl in *; lia].
  simpl. rewrite R1, Nat.min_id.
  rewrite (@bsum_ext K (nc (bv s)) _ (fun k => smul (smul (at_ (ham s) j j) (at_ (bv s) i k)) (delta k j))).
  - rewrite (@bsum_delta_r K (nc (bv s)) j (fun k => smul (at_ (ham s) j j) (at_ (bv s) i k))) by auto. reflexivity.
  - intros k Hk. unfold delta. destruct (Nat.eqb_spec k j) as [->|N].
    + ring.
    + rewrite (D k j) by lia. ring.
Qed.

(** The entries of M_k are the matrix elements between the states. *)
Theorem C26_operator_entries : forall (s0 : sysT) k i j x y, map fst (states s0) = seq 0 (length (states s0)) ->
  nth_error (map snd (states s0)) i = Some x -> nth_error (map snd (states s0)) j = Some y ->
  at_ (op_matrix v_op k (states s0)) i j = v_op k x y.
Proof. intros. apply op_matrix_entry; auto. Qed.

(** *** C27 *)

(** Inserting buildInteraction() (under the guard of [allowed]) changes no outcome and no matrix of
    any later call. *)
Theorem C27_buildInteraction_partial : forall s0 l1 l2, fresh s0 -> Xhist26 (l1 ++ [CBuildInt]) s0 ->
  ~ In CBuildInt l2 -> Xhist26 l2 (fst (Xrun l1 s0)) ->
  let s := fst (Xrun l1 s0) in let s' := fst (Xexec CBuildInt s) in
  snd (Xrun l2 s') = snd (Xrun l2 s) /\
  let t := fst (Xrun l2 s) in let t' := fst (Xrun l2 s') in
  par t' = par t /\ bv t' == bv t /\ ham t' == ham t.
Proof.
  intros s0 l1 l2 F Hl Ni H2 s s'. destruct (fresh_start F) as [SO H].
  apply hist26_app in Hl. destruct Hl as [Hl1 [Ha _]].
  pose proof (@hinv_run K State Param Key Angle seqb sgen keqb qvalid v_init v_keys v_op v_rot v_compat v_label
     keqb_eq _ _ _ SO l1 s0 H Hl1) as H1. fold s in H1, Ha, H2.
  pose proof (@twin_buildInt K State Param Key Angle seqb sgen keqb qvalid v_init v_keys v_op v_rot v_compat v_label _ _ _ s H1) as T.
  destruct (@hinv_exec K State Param Key Angle seqb sgen keqb qvalid v_init v_keys v_op v_rot v_compat v_label
     keqb_eq _ _ _ SO CBuildInt s H1 Ha) as (H1' & _). fold s' in T, H1'.
  destruct (@twin_run K State Param Key Angle seqb sgen keqb qvalid v_init v_keys v_op v_rot v_compat v_label
     keqb_eq _ _ _ SO l2 s s' H1 H1' T Ni H2) as (_ & E & TW).
  split; auto. intros t t'. destruct TW as (Ep & _ & _ & _ & Eb & Eh & _). split; auto. split; symmetry; auto.
Qed.

(** *** C28 *)

(** constrainBasisvectors() before a diagonalisation (the basis is still the unperturbed one):
    along every later history the Hamiltonian is P1 H(p) P1, P1 the projector on the chosen vectors. *)
Theorem C28_constrain_partial : forall s0 l s idxs l2, fresh s0 -> Xhist26 l s0 ->
  XbuildHam (fst (Xrun l s0)) = (s, Ok tt) -> isometry (bv s) ->
  (contained s = true -> nonempty (bv_up s) = true /\ bv s == bv_up s) ->
  NoDup idxs -> (forall i, In i idxs -> i < nc (bv s)) -> idxs <> [] ->
  let P1 := proj (bv s * msel (nc (bv s)) idxs) in
  exists s', Xexec (CConstrain idxs) (fst (Xrun l s0)) = (s', Ok tt) /\
  (Xhist26 l2 s' -> exists t, XbuildHam (fst (Xrun l2 s')) = (t, Ok tt) /\
     bv t * (bv t)^+ == P1 /\ lift (bv t) (ham t) == P1 * HT s0 (par t) * P1).
Proof.
  intros s0 l s idxs l2 F Hl E I Hc Nd Hb Ne P1. destruct (fresh_start F) as [SO H].
  pose proof (@hinv_run K State Param Key Angle seqb sgen keqb qvalid v_init v_keys v_op v_rot v_compat v_label
     keqb_eq _ _ _ SO l s0 H Hl) as H1.
  destruct (@hinv_build K State Param Key seqb keqb qvalid v_init v_keys v_op keqb_eq _ _ _ SO _ H1) as (t & B & H2 & R & P & _).
  rewrite B in E. injection E as ->.
  destruct (@constrain_hinv K State Param Key v_keys v_op _ _ _ s idxs SO H2 R I Hc Nd Hb Ne) as (RF & SO1 & H3 & HT1).
  exists (applyRight (msel (nc (bv s)) idxs) s). split.
  - simpl. unfold constrainBasisvectors, andThen. rewrite B.
    rewrite (proj2 (has_dup_iff idxs) Nd).
    assert (X : existsb (fun i => nc (bv s) <=? i) idxs = false).
    { apply not_true_is_false. intro X. apply existsb_exists in X. destruct X as (i & Hi & Le).
      apply Nat.leb_le in Le. specialize (Hb i Hi). lia. }
    rewrite X, RF. reflexivity.
  - intro Hl2.
    pose proof (@hinv_run K State Param Key Angle seqb sgen keqb qvalid v_init v_keys v_op v_rot v_compat v_label
      keqb_eq _ _ _ SO1 l2 _ H3 Hl2) as H4.
    destruct (@hinv_build K State Param Key seqb keqb qvalid v_init v_keys v_op keqb_eq _ _ _ SO1 _ H4) as (u & Bu & H5 & Ru & Pu & _).
    exists u. split; auto. destruct H5 as (_ & _ & Hr & _). destruct (Hr Ru) as (_ & _ & _ & Q1 & Q2).
    split; [exact Q1|]. rewrite Q2. apply HT1.
Qed.

(** *** C29 *)

(** Once a system contains the interaction and the unperturbed data are gone, every later
    attempt to change the parameters is refused and leaves the system as it is. *)
Theorem C29_refused_forever : forall s : sysT, contained s = true -> nonempty (bv_up s) = false ->
  forall l p, let t := fst (Xrun l s) in Xexec (CSet p) t = (t, Throw).
Proof.
  intros s C N l p t. simpl. apply discarded_set. apply d_run. split; auto.
Qed.

(** Such states arise from building in memory saving mode and from unitarize(). *)
Theorem C29_memory_saving : forall s s1 : sysT, settled s -> memsave s = true -> nonempty (bv_up s) = false ->
  required s = true -> XbuildHam s = (s1, Ok tt) ->
  forall l p, let t := fst (Xrun l s1) in Xexec (CSet p) t = (t, Throw).
Proof.
  intros s s1 S M N R E l p. destruct (@memsave_discards K State Param Key seqb keqb qvalid v_init v_keys v_op s s1 S M N R E).
  apply C29_refused_forever; auto.
Qed.
Theorem C29_unitarize : forall s s1 s' : sysT, XbuildHam s = (s1, Ok tt) -> contained s1 = true ->
  Xexec CUnitarize s = (s', Ok tt) ->
  forall l p, let t := fst (Xrun l s') in Xexec (CSet p) t = (t, Throw).
Proof.
  intros s s1 s' E C U l p.
  destruct (@unitarize_discards K State Param Key Angle seqb sgen keqb qvalid v_init v_keys v_op v_rot v_compat v_label s s1 s' E C U).
  apply C29_refused_forever; auto.
Qed.
End P.

(** *** Examples and counterexamples *)

Definition q0 : qsys := fst (qrun [CBasis] qnew).

Lemma q0_iso : isometry (bv q0).
Proof.
  split; [reflexivity|]. split; [reflexivity|]. intros i j Hi Hj. change (i < 2) in Hi. change (j < 2) in Hj.
  destruct i as [|[|i]]; [| |lia]; (destruct j as [|[|j]]; [| |lia]); apply Qc_is_canon; vm_compute; reflexivity.
Qed.

Example fresh_example : fresh (fun p => p) q0.
Proof.
  split. { unfold settled. vm_compute. repeat split; congruence. }
  split; [reflexivity|]. split; [reflexivity|]. split; [reflexivity|]. split; [exact q0_iso|].
  repeat split; reflexivity.
Qed.

(** The solver's answer is exact in the example. *)
Lemma Uq_ok : unitary 2 Uq /\ meq Dq (mconj Uq (ham (fst (qrun [CSet [(0, q 1 1)]; CBuild] q0)))).
Proof.
  split; [split; [reflexivity|split; [reflexivity|]]|].
  - split; (split; [reflexivity|]; split; [reflexivity|]; intros i j Hi Hj; change (i < 2) in Hi; change (j < 2) in Hj;
    destruct i as [|[|i]]; [| |lia]; (destruct j as [|[|j]]; [| |lia]); apply Qc_is_canon; vm_compute; reflexivity).
  - split; [reflexivity|]; split; [reflexivity|]; intros i j Hi Hj; change (i < 2) in Hi; change (j < 2) in Hj;
    destruct i as [|[|i]]; [| |lia]; (destruct j as [|[|j]]; [| |lia]); apply Qc_is_canon; vm_compute; reflexivity.
Qed.

(** The history "field 0, diagonalise, field 1, build" is allowed, all calls succeed. *)
Definition hist_q : list qcall := [CSet [(0, q 1 1)]; CDiag false Uq Dq; CSet [(1, q 1 1)]; CBuild].
Example C26_example :
  hist26 Nat.eqb (fun _ => false) Nat.eqb (fun _ _ => true) q_init (fun p => p) q_op q_rot (fun p _ => Ok p) (fun _ _ n => n) hist_q q0 /\
  snd (qrun hist_q q0) = [Ok tt; Ok tt; Ok tt; Ok tt] /\
  qrows (ham (fst (qrun hist_q q0))) = [[16; 1]; [1; 9]]%Q.
Proof.
  split; [|split; vm_compute; reflexivity].
  split; [exact I|]. split; [|split; [exact I|split; [exact I|exact I]]].
  intros _ s1 E. pose proof Uq_ok as [U1 U2].
  assert (X : s1 = fst (qrun [CSet [(0, q 1 1)]; CBuild] q0)) by (rewrite <- (f_equal fst E : _ = s1); reflexivity).
  rewrite X. split; [exact U1|exact U2].
Qed.

(** C27 fails if a diagonalisation precedes: the stored operator refers to the eigenvectors, but is
    added to the unperturbed Hamiltonian in the old basis. *)
Definition hist_p : list qcall := [CSet [(0, q 1 1)]; CDiag false Uq Dq; CSet [(1, q 1 1)]].
Theorem C27_refuted :
  let s := fst (qrun hist_p q0) in let t := fst (qexec CBuild s) in
  let t' := fst (qrun [CBuildInt; CBuild] s) in
  snd (qrun [CBuildInt; CBuild] s) = [Ok tt; Ok tt] /\
  qrows (bv t) = qrows (bv t') /\ par t = par t' /\
  qrows (ham t) = [[16; 1]; [1; 9]]%Q /\
  qrows (ham t') = [[424 # 25; -7 # 25]; [-7 # 25; 201 # 25]]%Q.
Proof. vm_compute. auto. Qed.

(** C28 fails after a diagonalisation: the vector of energy 0 is chosen; setting the same field
    again turns it into the unperturbed first vector, with energy 16. *)
Theorem C28_refuted :
  let l : list qcall := [CSet [(0, q 1 1)]; CDiag false Uq Dq; CConstrain [0]] in
  let s := fst (qrun l q0) in let t := fst (qrun [CSet [(0, q 1 1)]; CBuild] s) in
  qrows (bv s) = [[3 # 5]; [4 # 5]]%Q /\ qrows (ham s) = [[0]]%Q /\
  par t = par s /\ qrows (bv t) = [[1]; [0]]%Q /\ qrows (ham t) = [[16]]%Q.
Proof. vm_compute. auto. Qed.

(** History independence fails with rotate() after a diagonalisation: the same rotation and the same
    final field give different operators on the space of states.  (The other sign of the second
    eigenvector is used.) *)
Definition Vq : mat QR := mlist 2 2 [[q 3 5; q 4 5]; [q 4 5; q (-3) 5]].
Theorem C90_rotate_refuted :
  let r : qcall := CRotate (q 3 5, q 4 5) in
  let t := fst (qrun [CSet [(0, q 1 1)]; CBuild; r; CSet [(0, q 2 1)]; CBuild] q0) in
  let t' := fst (qrun [CSet [(0, q 1 1)]; CDiag false Vq Dq; r; CSet [(0, q 2 1)]; CBuild] q0) in
  par t = par t' /\ qrows (bv t) = qrows (bv t') /\
  qrows (lift (bv t) (ham t)) = [[(288 # 25); (-516 # 25)]; [(-516 # 25); (337 # 25)]]%Q /\
  qrows (lift (bv t') (ham t')) = [[(-864 # 625); (14748 # 625)]; [(14748 # 625); (16489 # 625)]]%Q.
Proof. vm_compute. auto. Qed.

(** C29 fails for a unitarised system without interaction: a field can be set without
    an exception, but it has no effect since the new states have no matrix elements. *)
Theorem C90_unitarize_refuted :
  let l : list dcall := [CAddStates [10; 11]; CUnitarize; CSet [(1, 5%Z)]; CBuild] in
  let s := fst (drun l (dnew [])) in
  snd (drun l (dnew [])) = [Ok tt; Ok tt; Ok tt; Ok tt] /\ par s = [(1, 5%Z)] /\
  view s = ([101; 100], [[1; 0]; [0; 1]]%Z, [[10; 0]; [0; 11]]%Z) /\
  mrows (ham (fst (drun [CAddStates [10; 11]; CSet [(1, 5%Z)]; CBuild; CUnitarize] (dnew [])))) = [[10; 5]; [5; 11]]%Z.
Proof. vm_compute. auto. Qed.

(** C29, non-vacuity: after building with a field and unitarize() a new field is refused. *)
Example C29_example :
  snd (drun [CAddStates [10; 11]; CSet [(1, 5%Z)]; CBuild; CUnitarize; CSet [(1, 6%Z)]; CSet []] (dnew [])) =
  [Ok tt; Ok tt; Ok tt; Ok tt; Throw; Throw].
Proof. vm_compute. reflexivity. Qed.

Print Assumptions C26_value.
Print Assumptions C26_history_independent.
Print Assumptions C26_eigenvectors.
Print Assumptions C27_buildInteraction_partial.
Print Assumptions C28_constrain_partial.
Print Assumptions C29_refused_forever.
Print Assumptions C29_memory_saving.
Print Assumptions C29_unitarize.
