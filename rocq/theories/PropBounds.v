(** C103: diagonalization with a threshold and in an energy window; parts of C58 and C91. *)
From Coq Require Import ZArith Bool Arith Lia Reals Lra List Setoid.
Import ListNotations.
From Verif Require Import Base Matrix LookupModel SystemModel SystemProofs FieldModel SparseModel BoundsSpec BoundsModel BoundsProofs.
Set Implicit Arguments.
Local Open Scope R_scope.

Section Bounds.
Context {State Param Key : Type}.
Variable seqb : State -> State -> bool.
Variable keqb : Key -> Key -> bool.
Variable qvalid : ranges -> State -> bool.
Variable v_init : Param -> @request CR State -> list (nat * State) * res (mat CR * mat CR).
Variable v_keys : Param -> list (Key * CR).
Variable v_op : Key -> State -> State -> CR.
Notation sysT := (@sys CR State Param Key).
Notation build := (@buildHamiltonian CR State Param Key seqb keqb qvalid v_init v_keys v_op).
Notation window := (@diagonalizeWindow State Param Key seqb keqb qvalid v_init v_keys v_op).

(** C103: diagonalize(threshold) stores the eigenvalues and, up to the removed coefficients, the eigenvectors [B U]: every
    coefficient of the new basis vectors is exact, or it is zero and the exact one is at most the threshold; the squared norm of
    a basis vector is at most one and at least one minus the number of states times the squared threshold; a threshold of
    zero removes nothing. *)
Theorem C103_threshold : forall (t : R) (U D : mat CR) (s s1 s2 : sysT),
  build s = (s1, Ok tt) -> isometry (bv s1) -> isometry U -> nr U = nc (bv s1) ->
  diagonalizeT seqb keqb qvalid v_init v_keys v_op t false U D s = (s2, Ok tt) ->
  ham s2 = D /\ states s2 = states s1 /\ nr (bv s2) = nr (bv s1) /\ nc (bv s2) = nc U /\
  (t = 0 -> bv s2 = mmul (bv s1) U) /\
  forall j, (j < nc U)%nat ->
    (forall i, (i < nr (bv s1))%nat ->
       let x := at_ (mmul (bv s1) U) i j in at_ (bv s2) i j = x \/ (at_ (bv s2) i j = (0, 0) /\ sqrt (square_of x) <= Rabs t)) /\
    1 - INR (nr (bv s1)) * (t * t) <= norm2 (bv s2) j <= 1.
Proof.
  intros t U D s s1 s2 Bd IB IU RU E. unfold diagonalizeT, andThen in E. rewrite Bd in E. injection E as <-.
  cbn [ham bv states set_mats]. unfold newBasis.
  assert (I := iso_mul IB IU RU).
  destruct (Req_EM_T t 0) as [->|Nz].
  - split; [reflexivity|]. split; [reflexivity|]. split; [reflexivity|]. split; [reflexivity|]. split; [reflexivity|].
    intros j Hj. split; [intros; left; reflexivity|]. rewrite norm2_iso by auto. nra.
  - split; [reflexivity|]. split; [reflexivity|]. split; [reflexivity|]. split; [reflexivity|]. split; [congruence|].
    intros j Hj. split.
    + intros i Hi. destruct (prune_at t (mmul (bv s1) U) i j) as [H|[H1 H2]]; [left; exact H|right].
      split; [exact H1|]. exact (@absC_le _ _ H2).
    + assert (P := prune_norm t (mmul (bv s1) U) j). rewrite (@norm2_iso _ j I Hj) in P. exact P.
Qed.

(** C103: the diagonalization in a window returns orthonormal eigenvectors of the whole Hamiltonian with energies inside of the
    window, and all of them: an eigenvector in the space of the old basis with an energy in the window that is orthogonal
    to the new basis is zero.  Hypotheses: the solver does what is documented, and the window contains at most as many
    eigenvalues as the code estimates.
    Partial: the estimate can be too low (C103_estimate_refuted), the bounds are ignored if the Hamiltonian is diagonal (C103_diagonal_refuted). *)
Theorem C103_window_partial : forall feast lo hi (s s1 : sysT) U ds,
  build s = (s1, Ok tt) -> isometry (bv s1) -> nr (ham s1) = nc (bv s1) -> nc (ham s1) = nc (bv s1) ->
  feast_contract (ham s1) lo hi (estimate (ham s1) lo hi) (feast (ham s1) lo hi (estimate (ham s1) lo hi)) ->
  eigenpairs (ham s1) U ds -> length ds = nr (ham s1) ->
  (length (filter (insideb lo hi) ds) <= estimate (ham s1) lo hi)%nat -> (0 < estimate (ham s1) lo hi)%nat ->
  exists s2 es, window true feast lo hi 0 false s = Done s2 (Ok tt) /\
    let whole := mmul (mmul (bv s1) (ham s1)) (madj (bv s1)) in
    states s2 = states s1 /\ ham s2 = diagm es /\ Forall (inside lo hi) es /\
    nr (bv s2) = nr (bv s1) /\ nc (bv s2) = length es /\ isometry (bv s2) /\
    meq (mmul whole (bv s2)) (mmul (bv s2) (ham s2)) /\
    forall v e, nr v = nr (bv s1) -> nc v = 1%nat -> inside lo hi e ->
      meq (mmul (bv s1) (mmul (madj (bv s1)) v)) v -> meq (mmul whole v) (mscale (ofR e) v) ->
      meq (mmul (madj (bv s2)) v) (mzero (length es) 1) -> meq v (mzero (nr (bv s1)) 1).
Proof.
  intros feast lo hi s s1 U ds Bd IB RH CH FC EU LD Few Pos.
  destruct (FC U ds EU LD Few) as (es & X & F & EX & In & AF).
  exists (set_mats (newBasis 0 (bv s1) X) (diag es) (bv_up s1) (ham_up s1) s1), es. split.
  - unfold diagonalizeWindow. cbn [negb]. rewrite Bd. replace (Nat.eqb _ 0) with false by (symmetry; apply Nat.eqb_neq; lia).
    rewrite F. reflexivity.
  - destruct (window_pairs IB RH CH EX) as [I2 E2]. destruct EX as (RX & CX & IX & EX).
    assert (NB : newBasis 0 (bv s1) X = mmul (bv s1) X) by (unfold newBasis; destruct (Req_EM_T 0 0); [reflexivity|lra]).
    cbn [states ham bv set_mats]. rewrite NB, diag_diagm.
    split; [reflexivity|]. split; [reflexivity|]. split; [exact In|]. split; [reflexivity|]. split; [exact CX|]. split; [exact I2|]. split; [exact E2|].
    intros v e RV CV Ie Sp Eg Or. rewrite <- CX in Or.
    exact (@window_found (bv s1) (ham s1) X lo hi IB RH CH RX AF v e RV CV Ie Sp Eg Or).
Qed.

(** C103: if all diagonal elements of the Hamiltonian lie in the window, the estimate is the dimension and always suffices. *)
Theorem C103_wide_window : forall (H : mat CR) lo hi, (forall k, (k < nc H)%nat -> lo < fst (at_ H k k) < hi) ->
  (nc H <= estimate H lo hi)%nat.
Proof.
  intros H lo hi W. unfold estimate. rewrite <- (seq_length (nc H) 0) at 1.
  assert (E : forall l, (forall k, In k l -> (k < nc H)%nat) ->
     filter (fun k => Rltb (fst (at_ H k k)) hi && Rltb lo (fst (at_ H k k))) l = l).
  { induction l as [|k l IH]; intro L; [reflexivity|]. cbn [filter]. destruct (W k (L k (or_introl eq_refl))) as [W1 W2].
    unfold Rltb at 1 2. destruct (Rlt_dec _ hi); [|contradiction]. destruct (Rlt_dec lo _); [|contradiction].
    cbn [andb]. rewrite IH; auto. intros; apply L; right; auto. }
  rewrite E; [lia|]. intros k K. apply in_seq in K. lia.
Qed.

(** C103 fails: the bounds have no effect on a Hamiltonian that is already diagonal; all energies remain. *)
Theorem C103_diagonal_refuted : forall feast lo hi t (s s1 : sysT), build s = (s1, Ok tt) ->
  window true feast lo hi t true s = Done s1 (Ok tt).
Proof. intros feast lo hi t s s1 Bd. unfold diagonalizeWindow. cbn [negb]. rewrite Bd. reflexivity. Qed.

(** C103 fails: without Intel MKL the method always throws; the system is unchanged. *)
Theorem C103_without_mkl_refuted : forall feast lo hi t d (s : sysT), window false feast lo hi t d s = Done s Throw.
Proof. reflexivity. Qed.

(** C91 fails: if the solver reports an error, the exception leaves the Hamiltonian with one-based indices: Eigen's invariants do not
    hold and the next use, which reads its columns, is undefined. *)
Theorem C91_window_refuted : forall feast lo hi t (s s1 : sysT) i j,
  build s = (s1, Ok tt) -> estimate (ham s1) lo hi <> O -> feast (ham s1) lo hi (estimate (ham s1) lo hi) = None ->
  (i < nr (ham s1))%nat -> (j < nc (ham s1))%nat -> at_ (ham s1) i j <> (0, 0) ->
  exists H, window true feast lo hi t false s = Damaged s1 H /\ ~ compressed H /\ read_cols H (seq 0 (m_cols H)) = UB.
Proof.
  intros feast lo hi t s s1 i j Bd E F Hi Hj Nz. exists (onebased (arrays (mtrans (ham s1)))). split.
  - unfold diagonalizeWindow. cbn [negb]. rewrite Bd. replace (Nat.eqb _ 0) with false by (symmetry; apply Nat.eqb_neq; auto).
    rewrite F. reflexivity.
  - apply (@damaged (mtrans (ham s1)) j i); auto.
Qed.

(** C103: an empty estimate reads the address of the first element of an empty vector. *)
Theorem C103_empty_refuted : forall feast lo hi t (s s1 : sysT),
  build s = (s1, Ok tt) -> estimate (ham s1) lo hi = O -> window true feast lo hi t false s = Done s1 UB.
Proof. intros feast lo hi t s s1 Bd E. unfold diagonalizeWindow. cbn [negb]. rewrite Bd, E. reflexivity. Qed.

(** C58 fails: the diagonalization in a window shrinks the basis, but not the stored operators; a later
    constrainBasisvectors multiplies matrices whose dimensions do not fit. *)
Theorem C58_window_refuted : forall feast lo hi t (s s1 s2 : sysT) k A idxs,
  build s = (s1, Ok tt) -> In (k, A) (ops s1) -> nc A = nc (bv s1) ->
  window true feast lo hi t false s = Done s2 (Ok tt) -> nc (bv s2) <> nc (bv s1) -> build s2 = (s2, Ok tt) ->
  NoDup idxs -> Forall (fun i => (i < nc (bv s2))%nat) idxs ->
  constrainBasisvectors seqb keqb qvalid v_init v_keys v_op idxs s2 = (s2, UB).
Proof.
  intros feast lo hi t s s1 s2 k A idxs Bd Op CA W Ne B2 ND Val.
  unfold constrainBasisvectors, andThen. rewrite B2.
  assert (D : has_dup idxs = false).
  { clear - ND. induction ND; [reflexivity|]. cbn. rewrite IHND, orb_false_r. apply not_true_is_false. intro X.
    apply existsb_exists in X. destruct X as (y & Y1 & Y2). apply Nat.eqb_eq in Y2. subst. auto. }
  assert (V : existsb (fun i => nc (bv s2) <=? i)%nat idxs = false).
  { apply not_true_is_false. intro X. apply existsb_exists in X. destruct X as (y & Y1 & Y2).
    rewrite Forall_forall in Val. apply Val in Y1. apply Nat.leb_le in Y2. lia. }
  assert (O : ops s2 = ops s1).
  { clear - W Bd. unfold diagonalizeWindow in W. cbn [negb] in W. rewrite Bd in W. destruct (Nat.eqb _ 0); [discriminate|].
    destruct (feast _ _ _ _) as [[es X]|]; [|discriminate]. injection W as <-. reflexivity. }
  rewrite D, V. replace (right_fits (nc (bv s2)) s2) with false; [reflexivity|]. symmetry.
  unfold right_fits. apply andb_false_intro1. apply not_true_is_false. intro X. unfold ops_fit in X. rewrite forallb_forall in X.
  rewrite O in X. specialize (X _ Op). cbn [snd] in X. unfold square in X. apply andb_prop in X. destruct X as [_ X].
  apply Nat.eqb_eq in X. congruence.
Qed.
End Bounds.

(** *** Examples and counterexamples *)
Definition creal (x : R) : CR := (x, 0).
Definition clist (n m : nat) (rows : list (list R)) : mat CR := Mat n m (fun i j => creal (nth j (nth i rows []) 0)).
(** A system whose basis and Hamiltonian have been built (for instance with addHamiltonianEntry), with the operators [o]. *)
Definition built (n : nat) (H : mat CR) (o : list (nat * mat CR)) : @sys CR nat unit nat :=
  Sys (map (fun i => (i, i)) (seq 0 n)) (mid n) H (mempty (K:=CR)) (mempty (K:=CR)) false false false no_ranges None None [] tt o ((0, 0) : CR).
Definition b_init (p : unit) (r : @request CR nat) : list (nat * nat) * res (mat CR * mat CR) := ([], Throw).
Definition b_keys (p : unit) : list (nat * CR) := [].
Definition b_op (k a b : nat) : CR := (0, 0).
Notation bbuild := (@buildHamiltonian CR nat unit nat Nat.eqb Nat.eqb (fun _ _ => true) b_init b_keys b_op).
Notation bwindow := (@diagonalizeWindow nat unit nat Nat.eqb Nat.eqb (fun _ _ => true) b_init b_keys b_op).

(** Four states coupled by one, and a fifth state with energy three. *)
Definition h5 : list (list R) := [[0;1;1;1;0];[1;0;1;1;0];[1;1;0;1;0];[1;1;1;0;0];[0;0;0;0;3]].
Definition H5 : mat CR := clist 5 5 h5.
Definition X5 : mat CR := clist 5 2 [[/2;0];[/2;0];[/2;0];[/2;0];[0;1]].

Ltac entries := split; [reflexivity|]; split; [reflexivity|]; intros i j Hi Hj; cbn in Hi, Hj;
  repeat (destruct i as [|i]; [|try lia]); repeat (destruct j as [|j]; [|try lia]); try lia;
  apply injective_projections; cbn; try lra; try field.

Lemma H5_pairs : eigenpairs H5 X5 [3; 3].
Proof. split; [reflexivity|]. split; [reflexivity|]. split; entries. Qed.

Lemma abs_creal : forall x, absC (creal x) = Rabs x.
Proof. intro. unfold absC, abs2. cbn. replace (x * x + 0 * 0) with (Rsqr x) by (unfold Rsqr; ring). apply sqrt_Rsqr_abs. Qed.

Lemma fold_max_le : forall (H : mat CR) k c l m, m <= c -> (forall i, In i l -> i <> k -> absC (at_ H i k) <= c) ->
  fold_left (fun m i => if Nat.eqb i k then m else Rmax m (absC (at_ H i k))) l m <= c.
Proof.
  induction l as [|i l IH]; intros m Hm Hl; [exact Hm|]. cbn [fold_left]. apply IH; [|intros; apply Hl; [right|]; auto].
  destruct (Nat.eqb_spec i k); [exact Hm|]. apply Rmax_lub; [exact Hm|]. apply Hl; [left; reflexivity|auto].
Qed.
Lemma fold_max_ge : forall (H : mat CR) k l m, m <= fold_left (fun m i => if Nat.eqb i k then m else Rmax m (absC (at_ H i k))) l m.
Proof.
  induction l as [|i l IH]; intros m; [cbn; lra|]. cbn [fold_left]. eapply Rle_trans; [|apply IH].
  destruct (Nat.eqb i k); [lra|apply Rmax_l].
Qed.
Lemma fold_max_in : forall (H : mat CR) k l m i, In i l -> i <> k ->
  absC (at_ H i k) <= fold_left (fun m i => if Nat.eqb i k then m else Rmax m (absC (at_ H i k))) l m.
Proof.
  induction l as [|i' l IH]; intros m i I N; [contradiction|]. cbn [fold_left]. destruct I as [->|I]; [|apply IH; auto].
  eapply Rle_trans; [|apply fold_max_ge]. destruct (Nat.eqb_spec i k); [contradiction|apply Rmax_r].
Qed.
Lemma diagonal_max_le : forall (H : mat CR) k c, 0 <= c -> (forall i, (i < nr H)%nat -> absC (at_ H i k) <= c) -> diagonal_max H k <= c.
Proof. intros. apply fold_max_le; auto. intros i I _. apply H1. apply in_seq in I. lia. Qed.
Lemma diagonal_max_ge : forall (H : mat CR) k i, (i < nr H)%nat -> i <> k -> absC (at_ H i k) <= diagonal_max H k.
Proof. intros. apply fold_max_in; auto. apply in_seq. lia. Qed.

Lemma H5_estimate : estimate H5 (5/2) (7/2) = 1%nat.
Proof.
  assert (M : forall k, (k < 4)%nat -> diagonal_max H5 k <= 1).
  { intros k Hk. apply diagonal_max_le; [lra|]. intros i Hi. change (at_ H5 i k) with (creal (nth k (nth i h5 []) 0)). rewrite abs_creal.
    apply Rabs_le. do 4 (destruct k as [|k]; [do 5 (destruct i as [|i]; [cbn [nth h5]; split; lra|]); cbn in Hi; lia|]). lia. }
  unfold estimate. change (nc H5) with 5%nat. cbn [seq filter]. unfold Rltb.
  assert (M0 := M 0%nat ltac:(lia)). assert (M1 := M 1%nat ltac:(lia)). assert (M2 := M 2%nat ltac:(lia)). assert (M3 := M 3%nat ltac:(lia)).
  change (fst (at_ H5 0 0)) with 0. change (fst (at_ H5 1 1)) with 0. change (fst (at_ H5 2 2)) with 0. change (fst (at_ H5 3 3)) with 0. change (fst (at_ H5 4 4)) with 3.
  repeat match goal with |- context [Rlt_dec ?a ?b] => destruct (Rlt_dec a b); try (exfalso; lra) end; cbn [negb andb orb filter length Nat.add];
    try reflexivity; exfalso; lra.
Qed.

(** C103 fails: two orthonormal eigenvectors have the energy three, in the middle of the window from 2.5 to 3.5, but the code asks for one.
    A solver that reports that there are more makes the call throw and leave a Hamiltonian that cannot be used. *)
Theorem C103_estimate_refuted : exists s, bbuild s = (s, Ok tt) /\ hermitian (ham s) /\
  eigenpairs (ham s) X5 [3; 3] /\ Forall (inside (5/2) (7/2)) [3; 3] /\ estimate (ham s) (5/2) (7/2) = 1%nat /\
  forall feast, feast_refuses (ham s) (5/2) (7/2) 1 (feast (ham s) (5/2) (7/2) 1%nat) ->
  exists H, bwindow true feast (5/2) (7/2) 0 false s = Damaged s H /\ read_cols H (seq 0 (m_cols H)) = UB.
Proof.
  exists (built 5 H5 []). split; [reflexivity|]. split; [entries|]. split; [exact H5_pairs|].
  assert (F : Forall (inside (5/2) (7/2)) [3; 3]) by (repeat constructor; unfold inside; lra).
  split; [exact F|]. split; [exact H5_estimate|].
  intros feast R. assert (N := R X5 [3; 3] H5_pairs F ltac:(cbn; lia)).
  destruct (@C91_window_refuted nat unit nat Nat.eqb Nat.eqb (fun _ _ => true) b_init b_keys b_op feast (5/2) (7/2) 0 (built 5 H5 []) (built 5 H5 []) 4 4) as (H & A & _ & C);
    try (cbn; lia); [reflexivity| | | |exists H; auto].
  - cbn [ham built]. rewrite H5_estimate. discriminate.
  - cbn [ham built]. rewrite H5_estimate. exact N.
  - cbn. unfold creal. intro E. injection E as E. lra.
Qed.

(** Two coupled states with the energies 25 and -25. *)
Definition Hw : mat CR := clist 2 2 [[7;-24];[-24;-7]].
Definition Uw : mat CR := clist 2 2 [[4/5;3/5];[-3/5;4/5]].
Definition Xw : mat CR := clist 2 1 [[4/5];[-3/5]].
Lemma Hw_pairs : eigenpairs Hw Uw [25; -25].
Proof. split; [reflexivity|]. split; [reflexivity|]. split; entries. Qed.
Lemma Hw_one : eigenpairs Hw Xw [25].
Proof. split; [reflexivity|]. split; [reflexivity|]. split; entries. Qed.
Lemma Hw_found : all_found Hw Xw 0 30.
Proof.
  intros v e RV CV In (_ & _ & E) (_ & _ & O).
  assert (E0 := E 0%nat 0%nat ltac:(cbn; lia) ltac:(cbn; lia)). assert (E1 := E 1%nat 0%nat ltac:(cbn; lia) ltac:(cbn; lia)).
  assert (O0 := O 0%nat 0%nat ltac:(cbn; lia) ltac:(cbn; lia)). clear E O.
  cbn [mmul mscale at_ nc nr Hw clist madj Xw] in *. rewrite RV in E0, E1, O0. cbn in RV.
  destruct v as [r c f]. cbn in RV, CV, E0, E1, O0 |- *. subst.
  split; [reflexivity|]. split; [reflexivity|]. intros i j Hi Hj. cbn in Hi, Hj.
  destruct (f 0%nat 0%nat) as [a b] eqn:F0. destruct (f 1%nat 0%nat) as [a1 b1] eqn:F1.
  unfold ofR in *. cbn in E0, E1, O0. injection E0 as E0 E0'. injection E1 as E1 E1'. injection O0 as O0 O0'.
  unfold inside in In.
  assert (a1 = 4 / 3 * a) by lra. assert (b1 = 4 / 3 * b) by lra.
  assert (a * (25 + e) = 0) by lra. assert (b * (25 + e) = 0) by lra.
  assert (a = 0) by nra. assert (b = 0) by nra. subst.
  destruct j; [|lia]. destruct i as [|[|]]; [| |lia]; cbn.
  - rewrite F0. reflexivity.
  - rewrite F1. apply injective_projections; cbn; lra.
Qed.
Lemma Hw_estimate : estimate Hw 0 30 = 2%nat.
Proof.
  assert (A : 24 <= diagonal_max Hw 1).
  { eapply Rle_trans; [|apply (@diagonal_max_ge Hw 1 0); cbn; lia]. change (at_ Hw 0 1) with (creal (-24)). rewrite abs_creal, Rabs_left; lra. }
  unfold estimate. change (nc Hw) with 2%nat. cbn [seq filter]. unfold Rltb.
  change (fst (at_ Hw 0 0)) with 7. change (fst (at_ Hw 1 1)) with (-7).
  repeat match goal with |- context [Rlt_dec ?a ?b] => destruct (Rlt_dec a b); try (exfalso; lra) end; cbn [negb andb orb filter length Nat.add];
    try reflexivity; exfalso; lra.
Qed.
Lemma filter_le2 : forall A (f : A -> bool) l, (length (filter f l) <= length l)%nat.
Proof. induction l as [|x l IH]; cbn; [lia|]. destruct (f x); cbn; lia. Qed.
Definition fw (H : mat CR) (lo hi : R) (m : nat) : option (list R * mat CR) := Some ([25], Xw).

(** The hypotheses of C103_window_partial hold, and the basis shrinks; with a stored operator those of C58_window_refuted hold. *)
Example C103_window_nonvacuous : forall o,
  let s := built 2 Hw o in
  bbuild s = (s, Ok tt) /\ isometry (bv s) /\ hermitian (ham s) /\
  feast_contract (ham s) 0 30 (estimate (ham s) 0 30) (fw (ham s) 0 30 (estimate (ham s) 0 30)) /\
  eigenpairs (ham s) Uw [25; -25] /\ (length (filter (insideb 0 30) [25; -25]%R) <= estimate (ham s) 0 30)%nat /\
  exists s2, bwindow true fw 0 30 0 false s = Done s2 (Ok tt) /\ nc (bv s2) = 1%nat /\ bbuild s2 = (s2, Ok tt).
Proof.
  intros o s. split; [reflexivity|]. split; [entries|]. split; [entries|]. cbn [ham s built]. split.
  - intros U ds _ _ _. exists [25], Xw. split; [reflexivity|]. split; [exact Hw_one|]. split; [|exact Hw_found].
    constructor; [unfold inside; lra|constructor].
  - split; [exact Hw_pairs|]. split; [rewrite Hw_estimate; eapply Nat.le_trans; [apply filter_le2|]; cbn; lia|].
    exists (set_mats (newBasis 0 (mid 2) Xw) (diag [25]) (mempty (K:=CR)) (mempty (K:=CR)) s). split.
    + unfold diagonalizeWindow. cbn [negb]. change (bbuild s) with (s, Ok tt). cbv iota. cbn [ham s built]. rewrite Hw_estimate. reflexivity.
    + unfold newBasis. destruct (Req_EM_T 0 0) as [_|N]; [|lra]. split; reflexivity.
Qed.
Example C58_window_example :
  let s := built 2 Hw [(0%nat, mid 2)] in
  exists s2, bwindow true fw 0 30 0 false s = Done s2 (Ok tt) /\
  constrainBasisvectors Nat.eqb Nat.eqb (fun _ _ => true) b_init b_keys b_op [0%nat] s2 = (s2, UB).
Proof.
  intro s. destruct (C103_window_nonvacuous [(0%nat, mid 2)]) as (B & _ & _ & _ & _ & _ & s2 & W & C & B2). exists s2. split; [exact W|].
  apply (@C58_window_refuted nat unit nat Nat.eqb Nat.eqb (fun _ _ => true) b_init b_keys b_op fw 0 30 0 s s s2 0%nat (mid 2)); auto.
  - left; reflexivity.
  - rewrite C. discriminate.
  - repeat constructor; auto.
  - rewrite C. repeat constructor.
Qed.

(** C103 fails: the basis vectors are not normalized again after small coefficients have been removed; here the threshold 7/10 turns orthonormal
    eigenvectors into vectors of squared norm 16/25, and 9/10 turns all of them into zero. *)
Theorem C103_normalized_refuted : exists s s2 s3, bbuild s = (s, Ok tt) /\ isometry (bv s) /\ eigenpairs (ham s) Uw [25; -25] /\
  diagonalizeT Nat.eqb Nat.eqb (fun _ _ => true) b_init b_keys b_op (7/10) false Uw (diagm [25; -25]) s = (s2, Ok tt) /\ norm2 (bv s2) 0 = 16/25 /\
  diagonalizeT Nat.eqb Nat.eqb (fun _ _ => true) b_init b_keys b_op (9/10) false Uw (diagm [25; -25]) s = (s3, Ok tt) /\ norm2 (bv s3) 0 = 0 /\ norm2 (bv s3) 1 = 0.
Proof.
  exists (built 2 Hw []). eexists. eexists. split; [reflexivity|]. split; [entries|]. split; [exact Hw_pairs|].
  split; [reflexivity|]. split.
  - cbn [bv set_mats built]. unfold newBasis. destruct (Req_EM_T (7/10) 0); [lra|]. unfold norm2. cbn [prune mmul nr at_ mid total].
    cbn [Nat.min bsum at_ mid Uw clist nc nr delta Nat.eqb creal nth]. unfold abs2, square_of. cbn.
    repeat (destruct (Rle_dec _ _); try (exfalso; cbn in *; lra)); cbn; lra.
  - split; [reflexivity|]. cbn [bv set_mats built]. unfold newBasis. destruct (Req_EM_T (9/10) 0); [lra|]. unfold norm2. cbn [prune mmul nr at_ mid total].
    cbn [Nat.min bsum at_ mid Uw clist nc nr delta Nat.eqb creal nth]. unfold abs2, square_of. cbn.
    repeat (destruct (Rle_dec _ _); try (exfalso; cbn in *; lra)); cbn; split; lra.
Qed.
(** The hypotheses of C103_threshold hold for the same system. *)
Example C103_threshold_nonvacuous : bbuild (built 2 Hw []) = (built 2 Hw [], Ok tt) /\ isometry (mid (K:=CR) 2) /\ isometry Uw /\ nr Uw = 2%nat /\
  exists s2, diagonalizeT Nat.eqb Nat.eqb (fun _ _ => true) b_init b_keys b_op (7/10) false Uw (diagm [25; -25]) (built 2 Hw []) = (s2, Ok tt).
Proof. split; [reflexivity|]. split; [entries|]. split; [entries|]. split; [reflexivity|]. eexists; reflexivity. Qed.

Print Assumptions C103_threshold.
Print Assumptions C103_window_partial.
Print Assumptions C103_estimate_refuted.
