(** C75: the Schrieffer-Wolff transformation.  Vocabulary: SchriefferSpec.v. *)
From Verif Require Import Base Matrix LookupModel LookupProofs SystemModel SystemProofs AddProofs SystemDemo PropHam FieldModel SchriefferModel SchriefferSpec SchriefferProofs SchriefferProofs2 SchriefferProofs3 SchriefferProofs4 SchriefferProofs5 SchriefferDemo.
From Coq Require Import ZArith Lia Bool Arith QArith Qcanon Reals Lra List Setoid Morphisms Permutation.
Import ListNotations.
Set Implicit Arguments.
Local Open Scope R_scope.
Local Open Scope nat_scope.

Section P.
Context {State Param Key : Type}.
Variable seqb : State -> State -> bool.
Variable keqb : Key -> Key -> bool.
Variable qvalid : ranges -> State -> bool.
Variable v_init : Param -> @request CR State -> list (nat * State) * res (mat CR * mat CR).
Variable v_keys : Param -> list (Key * CR).
Variable v_op : Key -> State -> State -> CR.
Variable isunitary isdiagonal : mat CR -> bool.
Variable nth_element : nat -> nat -> (nat -> CR) -> list nat.
Variable msqrt : mat CR -> option (mat CR).
Notation sysT := (@sys CR State Param Key).
Notation XSW := (schriefferWolff (Param := Param) seqb keqb qvalid v_init v_keys v_op isunitary isdiagonal nth_element msqrt).
Notation XbuildHam := (buildHamiltonian seqb keqb qvalid v_init v_keys v_op).
Notation Xdiag := (diagonalize seqb keqb qvalid v_init v_keys v_op).

(** A call that returns: with [sb] the system as it was built before the call and [sd] its
    eigenvectors, [B0] the vectors of system0 written over the states of the system and [idx] the
    eigenvectors with the largest weight in the space of B0, the new basis consists of orthonormal
    vectors that span the same space as the selected eigenvectors and whose overlap matrix with B0
    is Hermitian and positive definite; the new Hamiltonian is the old one between these vectors,
    and is unitarily equivalent to the diagonal matrix of the selected energies.  The states and the
    parameters are those of the built system.  [transversal]: no combination of selected vectors is orthogonal to the
    space of B0, nor the other way round. *)
Theorem C75_effective_partial :
  (forall x, seqb x x = true) -> (forall x y, seqb x y = seqb y x) ->
  (forall x y z, seqb x y = true -> seqb y z = true -> seqb x z = true) ->
  init_ok seqb v_init ->
  (forall B, isunitary B = true -> isometry B) -> select_ok nth_element -> root_ok msqrt ->
  forall isdiag U D (s sb s0 s' s0' : sysT), wfs seqb s -> wfs seqb s0 ->
  XbuildHam s = (sb, Ok tt) -> solver_ok isdiag U D (ham sb) ->
  XSW isdiag U D s s0 = (s', s0', Ok tt) ->
  exists sd B0 idx,
    Xdiag isdiag U D s = (sd, Ok tt) /\
    (nr B0 = length (states sb) /\ nc B0 = nc (bv s0') /\
     forall i x c, nth_error (map snd (states sb)) i = Some x ->
       at_ B0 i c = match tfind seqb (states s0') x with Some k => at_ (bv s0') k c | None => @Matrix.s0 CR end) /\
    (NoDup idx /\ length idx = nc B0 /\ (forall a, In a idx -> a < nc (bv sd)) /\
     forall a b, In a idx -> b < nc (bv sd) -> ~ In b idx ->
       (weight B0 (fun i => at_ (bv sd) i b) <= weight B0 (fun i => at_ (bv sd) i a))%R) /\
    states s' = states sb /\ par s' = par sb /\
    let L := columns (bv sd) idx in
    (transversal L B0 ->
      nr (bv s') = length (states s') /\ nc (bv s') = nc B0 /\ isometry B0 /\ isometry (bv s') /\
      meq (mmul (bv s') (madj (bv s'))) (mmul L (madj L)) /\
      posdef (nc B0) (mmul (madj B0) (bv s')) /\
      meq (ham s') (mconj (bv s') (mmul (bv sb) (mmul (ham sb) (madj (bv sb))))) /\
      exists Q, unitary (nc B0) Q /\ meq (bv s') (mmul L Q) /\
        meq (ham s') (mconj Q (Mat (nc B0) (nc B0) (fun a b => smul (delta a b) (at_ (ham sd) (nth a idx 0) (nth a idx 0)))))).
Proof.
  intros. eapply sw_effective; eauto.
Qed.

(** The new basis is determined by this description, whatever square root and whatever eigenvectors
    the libraries return: there is only one orthonormal basis of a space with as many vectors as B0 whose
    overlap matrix with B0 is Hermitian and positive definite. *)
Theorem C75_unique : forall n k (B0 N N' : mat CR), nr B0 = n -> nr N = n -> nr N' = n -> nc B0 = k -> nc N = k -> nc N' = k ->
  isometry N -> isometry N' -> meq (mmul N (madj N)) (mmul N' (madj N')) ->
  posdef k (mmul (madj B0) N) -> posdef k (mmul (madj B0) N') -> meq N N'.
Proof. exact polar_unique. Qed.

(** If it does not return, one of the checks failed: a basis that is not orthonormal, an unperturbed
    Hamiltonian that is not diagonal, a state of system0 that is not a state of the system. *)
Theorem C75_refuses : forall isdiag U D (s sd s0 s0b : sysT),
  Xdiag isdiag U D s = (sd, Ok tt) -> XbuildHam s0 = (s0b, Ok tt) ->
  isunitary (bv sd) = false \/ isunitary (bv s0b) = false \/ isdiagonal (ham s0b) = false \/
  (exists x, In x (map snd (states s0b)) /\ tfind seqb (states sd) x = None) ->
  XSW isdiag U D s s0 = (sd, s0b, Throw).
Proof.
  intros isdiag U D s sd s0 s0b E E0 H. unfold schriefferWolff. rewrite E, E0.
  destruct (isunitary (bv sd)); [|reflexivity]. destruct (isunitary (bv s0b)); [|reflexivity]. destruct (isdiagonal (ham s0b)); [|reflexivity].
  destruct H as [H|[H|[H|(x & Hx & F)]]]; try discriminate. cbn [negb].
  rewrite (@embed_throw CR State seqb (states sd) (states s0b)); [reflexivity|]. intro Q. destruct (Q x Hx). congruence.
Qed.

(** The claim is false if system0 has more basis vectors than the system: nothing checks it, and
    std::nth_element and the loop behind it leave the vector of indices. *)
Theorem C75_more_vectors_refuted : forall isdiag U D (s sd s0 s0b : sysT),
  Xdiag isdiag U D s = (sd, Ok tt) -> XbuildHam s0 = (s0b, Ok tt) ->
  isunitary (bv sd) = true -> isunitary (bv s0b) = true -> isdiagonal (ham s0b) = true ->
  (forall x, In x (map snd (states s0b)) -> exists i, tfind seqb (states sd) x = Some i) -> nc (bv sd) < nc (bv s0b) ->
  XSW isdiag U D s s0 = (sd, s0b, UB).
Proof.
  intros isdiag U D s sd s0 s0b A A0 H1 H2 H3 H4 H5. unfold schriefferWolff. rewrite A, A0, H1, H2, H3.
  assert (X : exists E, embed (K := CR) seqb (states sd) (states s0b) = Ok E).
  { unfold embed. destruct (@fold_embed CR State seqb (states sd) (states s0b) []) as [(r & -> & _)|(_ & x & Hx & N)]; [eexists; reflexivity|]. destruct (H4 x Hx). congruence. }
  destruct X as [E ->]. cbn [negb mmul nc].
  apply Nat.ltb_lt in H5. rewrite H5. reflexivity.
Qed.
End P.
Print Assumptions C75_effective_partial.
Print Assumptions C75_unique.
Print Assumptions C75_refuses.
Print Assumptions C75_more_vectors_refuted.

(** *** Non-vacuity: two states, H = 25 |v><v| with v = (4/5, -3/5), unperturbed system: the first
    state.  All hypotheses hold, the second eigenvector is selected, the effective energy is 25. *)
Notation demoSW := (schriefferWolff Nat.eqb (fun _ _ : unit => true) (fun _ _ => true) demo_init (fun _ => []) (fun _ _ _ => s0)
  isunitary_demo isdiagonal_demo sort_demo msqrt_demo false Ud Dd demo_s demo_s0).
Notation demoHam := (buildHamiltonian Nat.eqb (fun _ _ : unit => true) (fun _ _ => true) demo_init (fun _ => []) (fun _ _ _ => s0)).

Local Open Scope R_scope.
Definition demo_B0 : mat CR := mlist 2 1 [[rc 1]; [rc 0]].
Lemma demo_key : forall E : mat CR, meq E (mlist 2 1 [[rc 1]; [rc 0]]) ->
  sort_demo 1 2 (overlap (mmul (mid 2) Ud) (mmul E (mid 1))) = [1; 0]%nat.
Proof.
  intros E HE. unfold sort_demo. cbn [seq fold_right ins].
  destruct (Rlt_dec _ _) as [|N]; [reflexivity|]. exfalso. apply N. clear N. destruct HE as (e1 & e2 & HE).
  pose proof (HE 0 0)%nat as A. pose proof (HE 1 0)%nat as B. rewrite e1, e2 in A, B. cbn in A, B. 
  assert (a : at_ E 0%nat 0%nat = rc 1) by (apply A; lia). assert (b : at_ E 1%nat 0%nat = rc 0) by (apply B; lia).
  unfold overlap. cbn [mmul nc mid nr madj Ud mlist at_ bsum Nat.min]. rewrite e1, e2. cbn. rewrite a, b. cbn. lra.
Qed.
Definition demo_b : dsys := fst (demoHam demo_s).
Definition demo_b0 : dsys := fst (demoHam demo_s0).
Definition demo_d : dsys := set_mats (mmul (mid 2) Ud) Dd (bv_up demo_b) (ham_up demo_b) demo_b.
Definition demo_E : mat CR := mtrip 2 1 [(0%nat, 0%nat, s1)].
Lemma demo_E_eq : meq demo_E (mlist 2 1 [[rc 1]; [rc 0]]). Proof. mats. Qed.
Lemma demo_u : isunitary_demo (mmul (mid 2) Ud) = true.
Proof. apply meqb_iff. mats. Qed.
Lemma demo_u0 : isunitary_demo (mid 1) = true.
Proof. apply meqb_iff. mats. Qed.
Lemma demo_dg : isdiagonal_demo (mlist 1 1 [[rc 16]]) = true.
Proof. reflexivity. Qed.
Lemma demo_W :
  meq (mmul (reflection 2 (mmul (mmul demo_E (mid 1)) (madj (mmul demo_E (mid 1)))))
      (reflection 2 (mmul (mmul (mmul (mid 2) Ud) (msel 2 [1%nat])) (madj (mmul (mmul (mid 2) Ud) (msel 2 [1%nat])))))) Wd.
Proof. mats. Qed.
Lemma demo_run : exists T, demoSW = (applyRight T demo_d, demo_b0, Ok tt) /\
  T = mmul (mmul (mmul (madj (mmul (mid 2) Ud)) (madj Vd)) (mmul (mmul demo_E (mid 1)) (madj (mmul demo_E (mid 1))))) (mmul demo_E (mid 1)).
Proof.
  eexists. split; [|reflexivity]. unfold schriefferWolff.
  change (diagonalize _ _ _ _ _ _ false Ud Dd demo_s) with (demo_d, @Ok unit tt).
  change (buildHamiltonian _ _ _ _ _ _ demo_s0) with (demo_b0, @Ok unit tt). cbv iota beta.
  change (bv demo_d) with (mmul (mid 2) Ud). rewrite demo_u. change (bv demo_b0) with (mid (K := CR) 1). rewrite demo_u0.
  change (ham demo_b0) with (mlist (K := CR) 1 1 [[rc 16]]). rewrite demo_dg. cbv iota beta. cbn [negb].
  change (embed Nat.eqb (states demo_d) (states demo_b0)) with (Ok demo_E). cbv iota beta.
  change (length (states demo_d)) with 2%nat. change (nc (mmul demo_E (mid 1))) with 1%nat. change (nc (mmul (mid 2) Ud)) with 2%nat. cbn [Nat.ltb Nat.leb].
  rewrite (demo_key demo_E_eq). cbn [firstn]. unfold sw_transformator. change (nc (mmul (mid 2) Ud)) with 2%nat. unfold msqrt_demo.
  rewrite (proj2 (meqb_iff _ _) demo_W). reflexivity.
Qed.
Example C75_example :
  exists sb s' s0', demoHam demo_s = (sb, Ok tt) /\ demoSW = (s', s0', Ok tt) /\
  solver_ok false Ud Dd (ham sb) /\ wfs Nat.eqb demo_s /\ wfs Nat.eqb demo_s0 /\
  transversal (columns (mmul (bv sb) Ud) [1%nat]) demo_B0 /\
  at_ (ham s') 0%nat 0%nat = rc 25.
Proof.
  exists demo_b. destruct demo_run as (T & E & ET). exists (applyRight T demo_d), demo_b0.
  split; [reflexivity|]. split; [exact E|]. split.
  { split; [exact Ud_unitary|]. split; [|exact Dd_eq]. intros i j Hi Hj N. destruct i as [|[|i]]; [| |cbn in Hi; lia]; (destruct j as [|[|j]]; [| |cbn in Hj; lia]); try (exfalso; apply N; reflexivity); reflexivity. }
  split; [apply wfs_new|]. split; [apply wfs_new|]. split.
  { assert (G : forall A : mat CR, nr A = 1%nat -> nc A = 1%nat -> at_ A 0%nat 0%nat = rc (4/5) -> injective A).
    { intros A rA cA a x rx cx (_ & _ & H). rewrite cA in rx. split; [cbn; congruence|]. split; [auto|]. intros i j Hi Hj.
      destruct i; [|lia]. destruct j; [|lia]. specialize (H 0 0)%nat. cbn [mmul nr nc mzero at_] in H. rewrite rA, cA, rx, cx in H; cbn [bsum Nat.min] in H; rewrite a in H.
      specialize (H (le_n 1) (le_n 1)). cbn in H. destruct (at_ x 0%nat 0%nat) as [u v]. unfold rc in H. cbn in H. injection H as H1 H2.
      apply injective_projections; cbn; lra. }
    split; apply G; try reflexivity; apply injective_projections; cbn; field. }
  subst T. apply injective_projections; cbn; field.
Qed.

(** *** C75 does not survive a change of the field.  The Hamiltonian kept without the interaction
    and its basis are multiplied by a transformation that refers to the eigenvectors.  Two
    states, field 1, unperturbed system: the first state.  The effective Hamiltonian is 25 with the
    vector (4/5, -3/5); after setting the same field again the system consists of minus the second
    state, with energy 9.  ([Vq'] is the principal root: cosine 4/5.) *)
Local Open Scope nat_scope.
Definition Vq' : mat QR := mlist 2 2 [[q 4 5; q (-3) 5]; [q 3 5; q 4 5]].
Definition qSW (s o : qsys) := schriefferWolff Nat.eqb Nat.eqb (fun _ _ => true) q_init (fun p => p) q_op
  (fun _ => true) (fun _ => true) (fun _ _ _ => [1; 0]) (fun _ => Some Vq') false Uq Dq s o.
(** After the transformation, setting the same field again turns the effective vector (4/5, -3/5) of
    energy 25 into minus the second state, of energy 9. *)
Theorem C75_later_refuted :
  let s := fst (qrun [CSet [(0, q 1 1)]] q0) in let o := fst (qrun [CConstrain [0]] q0) in
  let s' := fst (fst (qSW s o)) in
  let t := fst (qrun [CSet [(0, q 1 1)]; CBuild] s') in
  snd (qSW s o) = Ok tt /\
  (* the answers of the libraries are exact *)
  (let d := fst (qexec (CDiag false Uq Dq) s) in let W := mmul (reflection 2 (mmul (bv o) (madj (bv o)))) (reflection 2 (mmul (mmul (bv d) (msel 2 [1])) (madj (mmul (bv d) (msel 2 [1])))))  in
   qrows (mmul Vq' Vq') = qrows W /\ (this (overlap (bv d) (bv o) 0) < this (overlap (bv d) (bv o) 1))%Q) /\
  qrows (bv s') = [[4 # 5]; [-3 # 5]]%Q /\ qrows (ham s') = [[25]]%Q /\
  par t = par s' /\ qrows (bv t) = [[0]; [-1]]%Q /\ qrows (ham t) = [[9]]%Q.
Proof. vm_compute. repeat split. Qed.
Print Assumptions C75_later_refuted.
