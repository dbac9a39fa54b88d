(** C32: reading and writing entries of the Hamiltonian.  [entry s i j] = <i|H|j> between the
    i-th and the j-th state, [ready]: the Hamiltonian is up to date, [complete]: the basis
    vectors are a complete orthonormal system (EntryProofs.v). *)
From Verif Require Import Base Matrix LookupModel SystemModel SystemInv HamProofs EntryProofs SystemDemo.
From Coq Require Import ZArith Lia Bool Arith Setoid Morphisms List.
Import ListNotations.
Set Implicit Arguments.

Section P.
Context {K : StarRing} {State Param Key : Type}.
Variable seqb : State -> State -> bool.
Variable sgen : State -> bool.
Variable keqb : Key -> Key -> bool.
Variable qvalid : ranges -> State -> bool.
Variable v_init : Param -> @request K State -> list (nat * State) * res (mat K * mat K).
Variable v_keys : Param -> list (Key * K).
Variable v_op : Key -> State -> State -> K.
Notation sysT := (@sys K State Param Key).
Notation Xget := (getHamiltonianEntry seqb sgen keqb qvalid v_init v_keys v_op).
Notation Xset := (setHamiltonianEntry seqb sgen keqb qvalid v_init v_keys v_op).
Notation Xadd := (addHamiltonianEntry seqb sgen keqb qvalid v_init v_keys v_op).
Notation idx := (stateIndex seqb sgen).
Local Open Scope mat_scope.
Add Ring Kpr : (s_ring K).

(** getHamiltonianEntry(a, b) returns <b|H|a> for a Hermitian Hamiltonian ... *)
Theorem C32_get : forall (s : sysT) a b i j, ready s -> complete s -> hermitian (ham s) ->
  idx (states s) a = Ok i -> idx (states s) b = Ok j -> i < length (states s) -> j < length (states s) ->
  Xget a b s = (s, Ok (entry s j i)).
Proof.
  intros s a b i j R C H Ha Hb Hi Hj. rewrite (@entry_conj K State Param Key s i j); auto. destruct C as (_ & R1 & C1 & _).
  apply get_entry; auto.
Qed.
(** ... which is <a|H|b> if that is real. *)
Corollary C32_get_real_partial : forall (s : sysT) a b i j, ready s -> complete s -> hermitian (ham s) ->
  idx (states s) a = Ok i -> idx (states s) b = Ok j -> i < length (states s) -> j < length (states s) ->
  sconj (entry s i j) = entry s i j -> Xget a b s = (s, Ok (entry s i j)).
Proof.
  intros s a b i j R C H Ha Hb Hi Hj E. rewrite (@C32_get s a b i j); auto. rewrite (@entry_conj K State Param Key s i j); auto.
  rewrite E. reflexivity.
Qed.

(** addHamiltonianEntry: exactly the two entries change, and the Hamiltonian stays Hermitian unless
    a non-real value is added to a diagonal entry. *)
Theorem C32_add : forall (s : sysT) a b i j v, ready s -> complete s -> hermitian (ham s) ->
  idx (states s) a = Ok i -> idx (states s) b = Ok j -> i < length (states s) -> j < length (states s) ->
  (i = j -> sconj v = v) ->
  exists s', Xadd a b v s = (s', Ok tt) /\ states s' = states s /\ bv s' = bv s /\ complete s' /\ ready s' /\ hermitian (ham s') /\
    entry s' i j = sadd (entry s i j) v /\ entry s' j i = sadd (entry s j i) (sconj v) /\
    forall p q, p < length (states s) -> q < length (states s) -> (p, q) <> (i, j) -> (p, q) <> (j, i) ->
      entry s' p q = entry s p q.
Proof.
  intros s a b i j v R C H Ha Hb Hi Hj Hv. exists (bump i j v s).
  unfold addHamiltonianEntry, andThen. rewrite (@ready_build K State Param Key seqb keqb qvalid v_init v_keys v_op s R).
  rewrite Ha. cbn [bind]. rewrite Hb. cbn [bind]. split; [reflexivity|]. split; [reflexivity|]. split; [reflexivity|].
  split; [apply bump_complete; auto|]. split; [apply bump_ready; auto|]. split; [apply bump_herm; auto|].
  rewrite !bump_entry, !tmp_at, !Nat.eqb_refl by auto. cbn [andb].
  split; [|split].
  - destruct (Nat.eqb i j) eqn:E; [ring|]. rewrite (Nat.eqb_sym j i), E. cbn [andb]. ring.
  - rewrite (Nat.eqb_sym j i). destruct (Nat.eqb i j) eqn:E; cbn [andb]; [|ring]. apply Nat.eqb_eq in E. rewrite (Hv E). ring.
  - intros p q Hp Hq N1 N2. rewrite bump_entry by auto. rewrite tmp_at.
    replace (Nat.eqb i p && Nat.eqb j q) with false.
    2:{ symmetry. apply andb_false_iff. destruct (Nat.eqb_spec i p), (Nat.eqb_spec j q); auto. subst. congruence. }
    replace (Nat.eqb j p && Nat.eqb i q) with false.
    2:{ symmetry. apply andb_false_iff. destruct (Nat.eqb_spec j p), (Nat.eqb_spec i q); auto. subst. congruence. }
    destruct (Nat.eqb i j); ring.
Qed.

(** setHamiltonianEntry with a real value, the present entry being real: afterwards the two
    entries have the value, the others are unchanged, and reading returns the value.
    Missing: complex values or entries, where it is false (below). *)
Theorem C32_set_partial : forall (s : sysT) a b i j v, ready s -> complete s -> hermitian (ham s) ->
  idx (states s) a = Ok i -> idx (states s) b = Ok j -> i < length (states s) -> j < length (states s) ->
  sconj (entry s i j) = entry s i j -> sconj v = v ->
  exists s', Xset a b v s = (s', Ok tt) /\ states s' = states s /\ bv s' = bv s /\ hermitian (ham s') /\
    entry s' i j = v /\ entry s' j i = v /\ Xget a b s' = (s', Ok v) /\ Xget b a s' = (s', Ok v) /\
    forall p q, p < length (states s) -> q < length (states s) -> (p, q) <> (i, j) -> (p, q) <> (j, i) ->
      entry s' p q = entry s p q.
Proof.
  intros s a b i j v R C H Ha Hb Hi Hj He Hv.
  set (w := ssub v (entry s i j)).
  assert (Hw : sconj w = w) by (unfold w; rewrite sconj_sub, Hv, He; reflexivity).
  destruct (@C32_add s a b i j w R C H Ha Hb Hi Hj (fun _ => Hw)) as (s' & Q & S1 & S2 & S3 & S4 & S5 & S6 & S7 & S8).
  assert (C' := C). destruct C' as (_ & R1 & C1 & _).
  exists s'.
  assert (X : Xset a b v s = Xadd a b w s).
  { unfold setHamiltonianEntry, addHamiltonianEntry, andThen. rewrite (@ready_build K State Param Key seqb keqb qvalid v_init v_keys v_op s R).
    rewrite Ha. cbn [bind]. rewrite Hb. cbn [bind]. rewrite ham_entry_eq by auto. fold (entry s i j). rewrite He. reflexivity. }
  assert (E1 : entry s' i j = v) by (rewrite S6; unfold w; ring).
  assert (E2 : entry s' j i = v).
  { rewrite S7, Hw, (@entry_conj K State Param Key s i j), He by auto. unfold w. ring. }
  split; [rewrite X; exact Q|]. split; auto. split; auto. split; auto. split; auto. split; auto. split; [|split; auto].
  - rewrite (@C32_get s' a b i j); auto; rewrite ?S1; auto. congruence.
  - rewrite (@C32_get s' b a j i); auto; rewrite ?S1; auto. congruence.
Qed.

Notation XbuildHam := (buildHamiltonian seqb keqb qvalid v_init v_keys v_op).
(** *** C63.  An entry written after the Hamiltonian contains fields is lost at the next change of
    the fields: the system continues as if the entry had not been written (the Hamiltonian is
    rebuilt from the data saved when the fields were first set, SystemBase.cpp:484-492). *)
Theorem C63_lost_refuted : forall (s s1 : sysT) a b v p, ready s -> contained s = true -> memsave s = false ->
  nr (ham s) = nc (bv s) -> nc (ham s) = nc (bv s) ->
  Xadd a b v s = (s1, Ok tt) ->
  snd (setParam p s) = Ok tt -> XbuildHam (fst (setParam p s1)) = XbuildHam (fst (setParam p s)).
Proof.
  intros s s1 a b v p R Cn Ms R1 C1 Ha Hp.
  unfold addHamiltonianEntry, andThen in Ha. rewrite (@ready_build K State Param Key seqb keqb qvalid v_init v_keys v_op s R) in Ha.
  destruct (idx (states s) a) as [i| |]; cbn [bind] in Ha; try discriminate. destruct (idx (states s) b) as [j| |]; cbn [bind] in Ha; try discriminate.
  injection Ha as <-. destruct R as [St Rq].
  unfold setParam in *. cbn [bump set_mats bv_up ham_up contained] in *.
  destruct (negb (Bool.eqb (nonempty (bv_up s)) (nonempty (ham_up s)))) eqn:Q0; [cbn [snd] in Hp; congruence|].
  destruct (contained s && negb (nonempty (bv_up s))) eqn:Q; [cbn [snd] in Hp; congruence|]. cbn [fst].
  assert (S1 : settled (set_par p (set_flags (contained s) true s))) by exact St.
  assert (S2 : settled (set_par p (set_flags (contained s) true (bump i j v s)))).
  { destruct St as (A & B & C & D). unfold settled. cbn [set_par set_flags bump set_mats states ham bv toadd rg emin emax].
    split; auto. split; auto. unfold msize in *. cbn [madd nr nc mconj mmul madj]. rewrite R1, C1, !Nat.min_id in *. auto. }
  rewrite Cn in Q. cbn [andb] in Q. apply negb_false_iff in Q, Q0. apply eqb_prop in Q0. rewrite Q in Q0. symmetry in Q0.
  unfold buildHamiltonian, andThen.
  rewrite (@settled_build K State Param Key seqb qvalid v_init _ S1), (@settled_build K State Param Key seqb qvalid v_init _ S2).
  cbn [set_par set_flags bump set_mats required contained memsave bv_up ham_up].
  rewrite Cn, Ms, Q0, Q. reflexivity.
Qed.
End P.
Print Assumptions C32_get.
Print Assumptions C32_get_real_partial.
Print Assumptions C32_add.
Print Assumptions C32_set_partial.
Print Assumptions C63_lost_refuted.

(** *** Counterexamples over the Gaussian integers: two states, identity basis. *)
Definition g_init (p : unit) (rq : @request GZ nat) : list (nat * nat) * res (mat GZ * mat GZ) := ([], Throw).
Definition g_sys (h : list (list GZ)) : @sys GZ nat unit nat :=
  Sys [(0, 0); (1, 1)] (mid 2) (mlist 2 2 h) (mempty (K:=GZ)) (mempty (K:=GZ)) false false false no_ranges None None [] tt [] ((0, 0)%Z : GZ).
Definition g_get := @getHamiltonianEntry GZ nat unit nat Nat.eqb (fun _ => false) Nat.eqb (fun _ _ => true) g_init (fun _ => []) (fun _ _ _ => s0).
Definition g_set := @setHamiltonianEntry GZ nat unit nat Nat.eqb (fun _ => false) Nat.eqb (fun _ _ => true) g_init (fun _ => []) (fun _ _ _ => s0).
Definition g_add := @addHamiltonianEntry GZ nat unit nat Nat.eqb (fun _ => false) Nat.eqb (fun _ _ => true) g_init (fun _ => []) (fun _ _ _ => s0).
Definition gi : GZ := (0, 1)%Z.
Definition gm : GZ := (0, -1)%Z.
Definition g0 : GZ := (0, 0)%Z.
Definition g_H := g_sys [[g0; gi]; [gm; g0]].

Lemma g_ok : ready g_H /\ complete g_H /\ hermitian (ham g_H).
Proof.
  split; [|split].
  - split; [|reflexivity]. repeat split; discriminate.
  - split; [reflexivity|]. split; [reflexivity|]. split; [reflexivity|].
    split; [reflexivity|]. split; [reflexivity|]. intros [|[|i]] [|[|j]] Hi Hj; cbn in Hi, Hj; try lia; reflexivity.
  - split; [reflexivity|]. split; [reflexivity|]. intros [|[|i]] [|[|j]] Hi Hj; cbn in Hi, Hj; try lia; reflexivity.
Qed.

(** <0|H|1> = i is read as -i. *)
Theorem C32_get_refuted : ready g_H /\ complete g_H /\ hermitian (ham g_H) /\
  entry g_H 0 1 = gi /\ snd (g_get 0 1 g_H) = Ok gm.
Proof. split; [apply g_ok|]. split; [apply g_ok|]. split; [apply g_ok|]. split; reflexivity. Qed.
Print Assumptions C32_get_refuted.

(** Setting <0|H|1> (which is i) to i yields 3i, and a later read -3i. *)
Theorem C32_set_refuted : exists s', g_set 0 1 gi g_H = (s', Ok tt) /\
  entry s' 0 1 = (0, 3)%Z /\ snd (g_get 0 1 s') = Ok ((0, -3)%Z : GZ).
Proof. eexists. split; [reflexivity|]. split; reflexivity. Qed.
Print Assumptions C32_set_refuted.

(** Adding i to a diagonal entry makes the Hamiltonian non-Hermitian. *)
Theorem C32_add_refuted : exists s', g_add 0 0 gi g_H = (s', Ok tt) /\ ~ hermitian (ham s').
Proof.
  eexists. split; [reflexivity|]. intros (_ & _ & H). specialize (H 0 0). cbn in H.
  assert (X : (0, -1)%Z = (0, 1)%Z :> GZ) by (apply H; lia). discriminate X.
Qed.
Print Assumptions C32_add_refuted.

Example C32_nonvacuous : exists s', g_set 0 1 ((5, 0)%Z : GZ) (g_sys [[(1, 0)%Z : GZ; (2, 0)%Z : GZ]; [(2, 0)%Z : GZ; (3, 0)%Z : GZ]]) = (s', Ok tt) /\
  entry s' 0 1 = (5, 0)%Z /\ entry s' 1 0 = (5, 0)%Z /\ entry s' 1 1 = (3, 0)%Z.
Proof. eexists. split; [reflexivity|]. repeat split; reflexivity. Qed.


Example C63_nonvacuous :
  mrows (ham (fst (drun [CAddStates [1; 2]; CSet [(1, 10%Z)]; CBuild; CAddEntry 1 2 (7%Z : ZR)] (dnew [])))) = [[1; 17]; [17; 2]]%Z /\
  mrows (ham (fst (drun [CAddStates [1; 2]; CSet [(1, 10%Z)]; CBuild; CAddEntry 1 2 (7%Z : ZR); CSet [(1, 20%Z)]; CBuild] (dnew [])))) = [[1; 20]; [20; 2]]%Z /\
  mrows (ham (fst (drun [CAddStates [1; 2]; CBuild; CAddEntry 1 2 (7%Z : ZR); CSet [(1, 20%Z)]; CBuild] (dnew [])))) = [[1; 27]; [27; 2]]%Z.
Proof. vm_compute. repeat split; reflexivity. Qed.
