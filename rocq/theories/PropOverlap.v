(** C34, C35, C36, C61, C64: questions about the basis vectors of a system.

    [states s] lists the stored states with their indices, [bv s] is the matrix whose columns are
    the basis vectors, [sqabs z] = conj(z) z = |z|^2.  [wfs] and [settled] hold for every system whose
    basis has been built (C23, C25).  [getOverlap], [getConnections], ... are the calls (OverlapModel). *)
From Verif Require Import Base Matrix LookupModel SystemModel SystemProofs SystemInv OverlapModel OverlapProofs ConnProofs FieldModel OverlapProofs2.
From Coq Require Import ZArith QArith Lia Bool Arith Reals Lra Permutation List.
Import ListNotations.
Set Implicit Arguments.
Local Open Scope nat_scope.

Section P.
Context {K : StarRing} {State Param Key Angle : Type}.
Variables (seqb smatch : State -> State -> bool) (sgen : State -> bool).
Variable qvalid : ranges -> State -> bool.
Variable v_init : Param -> @request K State -> list (nat * State) * res (mat K * mat K).
Variable v_rot : Angle -> list (nat * State) -> list (nat * nat * K).
(** equality of states is an equivalence (C01) *)
Add Ring Kr : (s_ring K).
Hypothesis seq_eucl : forall x y z, seqb x z = true -> seqb y z = true -> seqb x y = true.
Notation sysT := (@sys K State Param Key).
Notation XgetOverlap := (getOverlap (Angle := Angle) seqb smatch sgen qvalid v_init v_rot).

(** *** C34 *)

(** The overlap with a list of searched states: the k-th number is the sum, over the searched
    states g and the stored states x that g stands for ([selects]: equal to g, or matching the wildcards of g),
    of |<x|b_k>|^2.  The system is unchanged. *)
Theorem C34_value : forall (s : sysT) gs, wfs seqb s -> settled s ->
  exists l, XgetOverlap None gs s = (s, Ok l) /\ length l = nc (bv s) /\
  forall k, k < nc (bv s) -> nth k l s0 =
    lsum (fun g => lsum (fun e => if selects seqb smatch sgen g (snd e) then sqabs (at_ (bv s) (fst e) k) else s0) (states s)) gs.
Proof.
  intros s gs ([A D] & R & _) S. unfold getOverlap, getOverlapIdx. rewrite !(@settled_build K State Param Key seqb qvalid v_init s S).
  replace (existsb (fun i => length (states s) <=? i) (overlap_rows seqb smatch sgen (states s) gs)) with false.
  2:{ symmetry. apply not_true_is_false. intro X. apply existsb_exists in X. destruct X as (i & Hi & Li).
      apply Nat.leb_le in Li. apply rows_in in Hi; auto. lia. }
  eexists. split; [reflexivity|]. cbn [overlap_states].
  rewrite weights_sel; auto. 2:{ intros i Hi. eapply rows_in; eauto. }
  split; [rewrite map_length, seq_length; auto|]. intros k Hk.
  rewrite (nth_indep _ s0 (lsum (fun i => sqabs (at_ (bv s) i 0)) (overlap_rows seqb smatch sgen (states s) gs))) by (rewrite map_length, seq_length; auto).
  rewrite (map_nth (fun k => lsum (fun i => sqabs (at_ (bv s) i k)) (overlap_rows seqb smatch sgen (states s) gs))).
  rewrite seq_nth by auto. apply (@rows_sum K State seqb smatch sgen seq_eucl (fun i => sqabs (at_ (bv s) i k))); auto.
Qed.

(** In a complete orthonormal basis (B B† = 1) the overlaps of stored states add up to their
    number; for one state this is 1.  Also for states rotated by a norm-preserving rotator. *)
Theorem C34_total : forall (s : sysT) a gs l, wfs seqb s -> settled s ->
  meq (mmul (bv s) (madj (bv s))) (mid (nr (bv s))) ->
  match a with Some a => unit_columns (rotator v_rot a s) | None => True end ->
  XgetOverlap a gs s = (s, Ok l) ->
  lsum (fun x => x) l = bsum (length (overlap_rows seqb smatch sgen (states s) gs)) (fun _ => s1).
Proof.
  intros s a gs l ([A D] & R & _) S C U H. unfold getOverlap, getOverlapIdx in H. rewrite !(@settled_build K State Param Key seqb qvalid v_init s S) in H.
  destruct (existsb _ _) eqn:Ex; [discriminate|]. injection H as <-.
  assert (Hi : forall i, In i (overlap_rows seqb smatch sgen (states s) gs) -> i < length (states s)) by (intros; eapply rows_in; eauto).
  set (rows := overlap_rows seqb smatch sgen (states s) gs) in *. clearbody rows.
  rewrite weights_total; auto. 2:{ unfold overlap_states. destruct a; cbn; auto. }
  assert (Lg : nc (overlap_states v_rot a s rows) = length rows) by (unfold overlap_states; destruct a; reflexivity).
  rewrite Lg. apply bsum_ext. intros c Hc.
  assert (Hn : nth c rows (length (states s)) < length (states s)) by (apply Hi, nth_In; auto).
  destruct a as [a|]; cbn [overlap_states].
  - specialize (U (nth c rows (length (states s))) Hn). rewrite <- U. cbn [mmul nr]. apply bsum_ext. intros i _. f_equal.
    assert (X := @mmul_sel K (rotator v_rot a s) rows i c eq_refl Hc Hn). exact X.
  - cbn [msel nr at_]. rewrite <- (@bsum_delta_l K (length (states s)) _ (fun _ => s1) Hn). apply bsum_ext. intros i _.
    unfold sqabs, delta. rewrite (Nat.eqb_sym i). destruct (Nat.eqb _ i); rewrite ?sconj_1, ?sconj_0; ring.
Qed.

(** The variant with indices does not check them: outside the list of states it is undefined behaviour. *)
Theorem C85_overlap_index_refuted : forall (s : sysT) a i, settled s -> length (states s) <= i ->
  getOverlapIdx (Angle := Angle) seqb qvalid v_init v_rot a [i] s = (s, UB).
Proof.
  intros s a i S H. unfold getOverlapIdx. rewrite (@settled_build K State Param Key seqb qvalid v_init s S). cbn [existsb].
  apply Nat.leb_le in H. rewrite H. reflexivity.
Qed.

(** *** C35 *)
Variable absv : K -> Q.
Hypothesis absv_nonneg : forall z, (0 <= absv z)%Q.

(** The coefficient of the overlap matrix is the inner product of the two basis vectors over the common states. *)
Theorem C35_value : forall (s s' : sysT) k l, wfs seqb s -> wfs seqb s' -> k < nc (bv s) -> l < nc (bv s') ->
  at_ (overlap_matrix seqb s s') k l =
  lsum (fun e => lsum (fun e' => if seqb (snd e) (snd e') then smul (sconj (at_ (bv s) (fst e) k)) (at_ (bv s') (fst e') l) else s0) (states s')) (states s).
Proof.
  intros s s' k l ([A D] & R & _) ([A' D'] & R' & _) Hk Hl. unfold overlap_matrix. cbn [mmul madj transformator mtrip at_ nc nr].
  rewrite R, R', !Nat.min_id.
  apply (@overlap_pairs K State seqb smatch sgen seq_eucl (states s) (states s') (fun i => sconj (at_ (bv s) i k)) (fun j => at_ (bv s') j l)); auto.
Qed.

(** For every sparse matrix of overlaps (increasing rows in every column, stored values not negative)
    the call succeeds, reads no uninitialised index, and returns exactly the pairs of basis vectors
    whose overlap exceeds the threshold and is the first largest of its row and of its column
    ([connected]); no index of either system occurs twice. *)
Theorem C35_one_to_one : forall n M t, wfM n M -> (forall i j v, entryM M i j v -> (0 <= v)%Q) ->
  exists l, connections n M (Some t) = Ok l /\ (forall i j, In (i, j) l <-> connected M t i j) /\
    NoDup (map fst l) /\ NoDup (map snd l).
Proof. exact connections_spec. Qed.

(** The call on two systems: every pair overlaps by more than the threshold, and no other basis vector
    of either system overlaps more with the partner. *)
Theorem C35_systems : forall (s s' : sysT) t,
  exists l, getConnections seqb absv (Some t) s s' = Ok l /\ NoDup (map fst l) /\ NoDup (map snd l) /\
  forall i j, In (i, j) l ->
    let ov a b := absv (at_ (overlap_matrix seqb s s') a b) in
    i < nc (bv s) /\ j < nc (bv s') /\ (t < ov i j)%Q /\
    (forall i', i' < nc (bv s) -> (ov i' j <= ov i j)%Q) /\ (forall j', j' < nc (bv s') -> (ov i j' <= ov i j)%Q).
Proof.
  intros s s' t. unfold getConnections. cbv zeta.
  destruct (@connections_spec (nr (overlap_matrix seqb s s')) (columns absv (overlap_matrix seqb s s')) t) as (l & E & S & N1 & N2).
  - apply columns_wf.
  - intros i j v H. apply columns_entry in H. destruct H as (_ & _ & ->). apply absv_nonneg.
  - exists l. split; auto. split; auto. split; auto. intros i j H. apply S in H. destruct H as (v & V1 & V2 & V3 & V4).
    apply columns_entry in V1. destruct V1 as (Hi & Hj & ->). cbn [overlap_matrix mmul madj nr nc] in Hi, Hj. split; auto. split; auto. split; auto. split.
    + intros i' Hi'. apply (V3 i'). apply columns_entry. auto.
    + intros j' Hj'. apply (V4 j'). apply columns_entry. auto.
Qed.
End P.
Print Assumptions C34_value.
Print Assumptions C34_total.
Print Assumptions C85_overlap_index_refuted.
Print Assumptions C35_value.
Print Assumptions C35_one_to_one.
Print Assumptions C35_systems.

(** Bessel's inequality: in an orthonormal basis (also an incomplete one) the overlaps of one state
    add up to at most one. *)
Theorem C34_at_most_one : forall (State Param Key Angle : Type) seqb smatch sgen qvalid v_init v_rot
  (s : @sys CR State Param Key) g l,
  (forall x y z, seqb x z = true -> seqb y z = true -> seqb x y = true) ->
  wfs seqb s -> settled s -> isometry (bv s) -> sgen g = false ->
  getOverlap (Angle := Angle) seqb smatch sgen qvalid v_init v_rot None [g] s = (s, Ok l) ->
  (re (lsum (fun x => x) l) <= 1)%R.
Proof.
  intros State Param Key Angle seqb smatch sgen qvalid v_init v_rot s g l Eu W S I G H.
  assert (W' := W). destruct W' as ([A D] & R & _).
  unfold getOverlap, getOverlapIdx in H. rewrite !(@settled_build CR State Param Key seqb qvalid v_init s S) in H.
  destruct (existsb _ _) eqn:Ex; [discriminate|]. injection H as <-.
  cbn [overlap_states]. rewrite weights_sel; auto. 2:{ intros i Hi. apply (@rows_in State seqb smatch sgen (states s) [g] i A Hi). }
  rewrite lsum_map, <- bsum_lsum.
  unfold overlap_rows. cbn [flat_map]. rewrite app_nil_r. unfold overlap_rows1. rewrite G.
  destruct (tfind seqb (states s) g) as [i|] eqn:F.
  - assert (Hi : i < length (states s)). { apply (@rows_in State seqb smatch sgen (states s) [g] i A). unfold overlap_rows. cbn [flat_map]. rewrite app_nil_r. unfold overlap_rows1. rewrite G, F. left. reflexivity. }
    assert (X : (re (bsum (nc (bv s)) (fun k => sqabs (at_ (bv s) i k))) <= 1)%R) by (apply row_bessel; auto; lia).
    replace (bsum (nc (bv s)) (fun x => lsum (fun i0 => sqabs (at_ (bv s) i0 x)) [i])) with (bsum (nc (bv s)) (fun k => sqabs (at_ (bv s) i k))); auto.
    apply bsum_ext. intros k _. unfold lsum. cbn [fold_right]. apply injective_projections; cbn; ring.
  - rewrite bsum_zero; [cbn; lra|]. intros k _. reflexivity.
Qed.
Print Assumptions C34_at_most_one.

(** *** C36 *)

(** [perm] is the order in which std::nth_element leaves the columns ([nth_element_ok] is its
    guarantee).  If the call returns, it returns one index per searched state, all different and all
    valid; they are the columns of largest total overlap with the searched states, and every state overlaps
    with its basis vector.  More states than basis vectors: C85_too_many_refuted. *)
Theorem C36_distinct : forall n M k perm r, wfM n M -> nth_element_ok M k perm -> basisvectorIndices M k perm = Ok r ->
  exists idx, r = map Some idx /\ length idx = k /\ NoDup idx /\ (forall c, In c idx -> c < length M) /\
    (forall i c, nth_error idx i = Some c -> exists v, entryM M i c v) /\
    (forall c d, In c idx -> d < length M -> ~ In d idx -> (total M d <= total M c)%Q).
Proof.
  intros n M k perm r W P H. destruct (basisvectorIndices_spec W P H) as (idx & A & _ & B). exists idx. split; auto.
Qed.
Print Assumptions C36_distinct.

(** The same for the call on a system. *)
Theorem C36_systems : forall (K : StarRing) (State Param Key : Type) seqb sgen (abs2 : K -> Q) (s : @sys K State Param Key) gs perm r,
  (forall rows, stateIndices seqb sgen (states s) gs = Ok rows -> nth_element_ok (search_overlaps abs2 rows s) (length rows) perm) ->
  getBasisvectorIndices seqb sgen abs2 gs perm s = Ok r ->
  exists idx, r = map Some idx /\ length idx = length gs /\ NoDup idx /\ (forall c, In c idx -> c < nc (bv s)).
Proof.
  intros K State Param Key seqb sgen abs2 s gs perm r P H. unfold getBasisvectorIndices in H. destruct (dup_states seqb gs); [discriminate|].
  destruct (stateIndices seqb sgen (states s) gs) as [rows| |] eqn:E; cbn [bind] in H; try discriminate.
  assert (L : length rows = length gs).
  { clear -E. revert rows E. induction gs as [|g gs IH]; cbn; intros rows E; [injection E as <-; auto|].
    destruct (stateIndex seqb sgen (states s) g); cbn [bind] in E; try discriminate. destruct (stateIndices seqb sgen (states s) gs) as [t| |]; cbn [bind] in E; try discriminate.
    injection E as <-. cbn. rewrite (IH t); auto. }
  specialize (P rows eq_refl). unfold search_overlaps in *.
  set (M := map (fun j => map (fun e => (fst e, abs2 (at_ (bv s) (snd e) j))) (combine (seq 0 (length rows)) rows)) (seq 0 (nc (bv s)))) in *.
  assert (W : wfM (length rows) M).
  { intros j col Hj. unfold M in Hj. rewrite nth_error_map in Hj. destruct (nth_error (seq 0 (nc (bv s))) j) as [j'|]; [|discriminate]. injection Hj as <-.
    assert (G : forall a (l : list nat), inc (map (fun e => (fst e, abs2 (at_ (bv s) (snd e) j'))) (combine (seq a (length l)) l)) /\
       forall i v, In (i, v) (map (fun e => (fst e, abs2 (at_ (bv s) (snd e) j'))) (combine (seq a (length l)) l)) -> a <= i < a + length l).
    { intros a l. revert a. induction l as [|x l IH]; intro a; cbn [length seq combine map].
      - split; [constructor|intros i v []].
      - destruct (IH (S a)) as [I1 I2]. split.
        + constructor; auto. rewrite Forall_forall. intros [i v] Hi. apply I2 in Hi. cbn. lia.
        + intros i v [X|X]; [injection X as <- _; lia|apply I2 in X; lia]. }
    destruct (G 0 rows) as [G1 G2]. split; auto. intros i v Hi. apply G2 in Hi. lia. }
  destruct (@C36_distinct _ M (length rows) perm r W P H) as (idx & A & B & C & D & _).
  exists idx. split; auto. split; [congruence|]. split; auto. intros c Hc. apply D in Hc. unfold M in Hc. rewrite map_length, seq_length in Hc. exact Hc.
Qed.
Print Assumptions C36_systems.

(** More searched states than basis vectors: undefined behaviour instead of an exception. *)
Theorem C85_too_many_refuted : forall M k perm, length M < k -> basisvectorIndices M k perm = UB.
Proof. intros M k perm H. unfold basisvectorIndices. apply Nat.ltb_lt in H. rewrite H. reflexivity. Qed.
Print Assumptions C85_too_many_refuted.

(** The greedy assignment can throw although an assignment exists: two basis vectors, the first
    overlapping with both states, the second only with the first state. *)
Theorem C95_greedy_refuted : exists M perm, wfM 2 M /\ nth_element_ok M 2 perm /\ basisvectorIndices M 2 perm = Throw /\
  exists v w, entryM M 1 0 v /\ entryM M 0 1 w /\ (0 < v)%Q /\ (0 < w)%Q.
Proof.
  exists [[(0, (6 # 10)%Q); (1, (4 # 10)%Q)]; [(0, (4 # 10)%Q)]], [0; 1].
  split; [|split; [|split]].
  - intros [|[|j]] col H; cbn in H; try (destruct j; discriminate); injection H as <-.
    + split; [repeat constructor|]. intros i v [X|[X|[]]]; injection X as <- _; lia.
    + split; [repeat constructor|]. intros i v [X|[]]; injection X as <- _; lia.
  - split; [apply Permutation_refl|]. intros a b _ [].
  - vm_compute. reflexivity.
  - exists (4 # 10)%Q, (4 # 10)%Q. split; [exists [(0, (6 # 10)%Q); (1, (4 # 10)%Q)]; split; [reflexivity|right; left; auto]|].
    split; [exists [(0, (4 # 10)%Q)]; split; [reflexivity|left; auto]|]. split; reflexivity.
Qed.
Print Assumptions C95_greedy_refuted.

Example C36_example : basisvectorIndices [[(0, (1 # 10)%Q); (1, (8 # 10)%Q)]; [(0, (7 # 10)%Q); (1, (2 # 10)%Q)]; [(0, (2 # 10)%Q)]] 2 [0; 1; 2] = Ok [Some 1; Some 0].
Proof. vm_compute. reflexivity. Qed.
Example C35_example : connections 2 [[(0, (1 # 10)%Q); (1, (8 # 10)%Q)]; [(0, (7 # 10)%Q); (1, (2 # 10)%Q)]; [(0, (2 # 10)%Q)]] (Some (1 # 2)%Q) = Ok [(0, 1); (1, 0)].
Proof. vm_compute. reflexivity. Qed.

(** *** C61 *)

(** forgetStatemixing on an orthonormal diagonalized basis: it throws iff some basis vector has no component
    with |.|^2 > 1/2; otherwise the basis vectors become unit vectors of distinct states, each the
    state dominating the old basis vector; they are orthonormal. *)
Theorem C61_labels : forall (State Param Key : Type) seqb keqb qvalid v_init v_keys v_op isdiag U D (s t : @sys CR State Param Key),
  diagonalize seqb keqb qvalid v_init v_keys v_op isdiag U D s = (t, Ok tt) -> isometry (bv t) ->
  ((forall j, j < nc (bv t) -> exists i, i < nr (bv t) /\ (1 / 2 < re (sqabs (at_ (bv t) i j)))%R) ->
   exists s' rows, forgetStatemixing seqb keqb qvalid v_init v_keys v_op isdiag U D s = (s', Ok tt) /\
     length rows = nc (bv t) /\ NoDup rows /\ (forall i, In i rows -> i < nr (bv t)) /\
     (forall j, j < nc (bv t) -> (1 / 2 < re (sqabs (at_ (bv t) (nth j rows 0%nat) j)))%R) /\
     meq (bv s') (msel (nr (bv t)) rows) /\ isometry (bv s') /\ states s' = states t /\ ham s' = ham t) /\
  ((exists j, j < nc (bv t) /\ forall i, i < nr (bv t) -> ~ (1 / 2 < re (sqabs (at_ (bv t) i j)))%R) ->
   forgetStatemixing seqb keqb qvalid v_init v_keys v_op isdiag U D s = (t, Throw)).
Proof.
  intros State Param Key seqb keqb qvalid v_init v_keys v_op isdiag U D s t E I.
  unfold forgetStatemixing, andThen. rewrite E.
  destruct (main_triplets_spec (bv t) (seq 0 (nc (bv t)))) as (L & N & _). rewrite seq_length in L, N.
  split.
  - intro A. assert (Lt : length (main_triplets (bv t) (seq 0 (nc (bv t)))) = nc (bv t)).
    { apply Nat.le_antisymm; auto. apply Nat.nlt_ge. intro X. apply N in X. destruct X as (j & Hj & F). apply in_seq in Hj.
      destruct (A j ltac:(lia)) as (i & Hi & Hd). unfold main_row in F. apply dominant_iff in Hd.
      pose proof (find_none _ _ F i) as G. cbv beta in G. rewrite Hd in G. discriminate G. apply in_seq. lia. }
    destruct (forget_shape I Lt) as (rows & R1 & R2 & R3 & R4 & R5).
    rewrite Lt, Nat.ltb_irrefl. eexists. exists rows. split; [reflexivity|]. split; auto. split; auto. split; auto. split; auto.
    cbn [bv set_mats states ham]. split; auto. split; auto. apply (isometry_meq R5). apply msel_isometry; auto.
  - intros (j & Hj & A). replace (length (main_triplets (bv t) (seq 0 (nc (bv t)))) <? nc (bv t)) with true; auto.
    symmetry. apply Nat.ltb_lt. apply N. exists j. split; [apply in_seq; lia|]. unfold main_row.
    destruct (find (fun i => dominant (at_ (bv t) i j)) (seq 0 (nr (bv t)))) as [i|] eqn:F; auto. exfalso. apply find_some in F. destruct F as [F1 F2].
    apply in_seq in F1. apply (A i); [lia|]. apply dominant_iff; auto.
Qed.
Print Assumptions C61_labels.

(** *** C64 *)

(** If every basis vector has a stored coefficient, getMainStates returns for every basis vector the
    state of its (first) largest coefficient. *)
Theorem C64_main_states : forall (State : Type) (tbl : list (nat * State)) (M : spm) n, wfM n M -> n <= length tbl ->
  (forall i j v, entryM M i j v -> (0 <= v)%Q) -> (forall col, In col M -> col <> []) ->
  exists l, mainStates tbl M = Ok l /\ length l = length M /\
    forall j col x, nth_error M j = Some col -> nth_error l j = Some x ->
      exists i v k, bestOf col i v /\ nth_error tbl i = Some (k, x).
Proof. exact mainStates_spec. Qed.
Print Assumptions C64_main_states.
(** A basis vector without stored coefficient: an uninitialised variable is used as index. *)
Theorem C85_empty_vector_refuted : forall (State : Type) (tbl : list (nat * State)) M, mainStates tbl ([] :: M) = UB.
Proof. reflexivity. Qed.
Print Assumptions C85_empty_vector_refuted.

(** *** Examples: the hypotheses are met. *)
Definition o_sys : @sys GZ nat unit nat :=
  Sys [(0, 10); (1, 20)] (mid 2) (mid 2) (mempty (K:=GZ)) (mempty (K:=GZ)) false false false no_ranges None None [] tt [] ((0, 0)%Z : GZ).
Example o_wfs : wfs Nat.eqb o_sys /\ settled o_sys /\ meq (mmul (bv o_sys) (madj (bv o_sys))) (mid (nr (bv o_sys))).
Proof.
  split; [|split].
  - split; [split; [reflexivity|repeat constructor]|]. split; [reflexivity|]. split; [reflexivity|]. split; [reflexivity|]. intro X. discriminate X.
  - repeat split; discriminate.
  - split; [reflexivity|]. split; [reflexivity|]. intros [|[|i]] [|[|j]] Hi Hj; cbn in Hi, Hj; try lia; reflexivity.
Qed.
Example o_overlap : snd (getOverlap (Angle := unit) Nat.eqb (fun _ _ => true) (Nat.eqb 0) (fun _ _ => true) (fun _ _ => ([], Throw)) (fun _ _ => []) None [20] o_sys)
  = Ok [((0, 0)%Z : GZ); ((1, 0)%Z : GZ)] /\
  snd (getOverlap (Angle := unit) Nat.eqb (fun _ _ => true) (Nat.eqb 0) (fun _ _ => true) (fun _ _ => ([], Throw)) (fun _ _ => []) None [0] o_sys)
  = Ok [((1, 0)%Z : GZ); ((1, 0)%Z : GZ)].
Proof. vm_compute. auto. Qed.

(** A basis of two orthonormal vectors, each dominated by one state. *)
Definition r_B : mat CR := mlist 2 2 [[ofR (3/5); ofR (-4/5)]; [ofR (4/5); ofR (3/5)]].
Example r_B_ok : isometry r_B /\ forall j, j < nc r_B -> exists i, i < nr r_B /\ (1 / 2 < re (sqabs (at_ r_B i j)))%R.
Proof.
  split.
  - split; [reflexivity|]. split; [reflexivity|]. intros [|[|i]] [|[|j]] Hi Hj; cbn in Hi, Hj; try lia; apply injective_projections; cbn; lra.
  - intros [|[|j]] Hj; cbn in Hj; try lia.
    + exists 1. split; [cbn; lia|]. cbn. lra.
    + exists 0. split; [cbn; lia|]. cbn. lra.
Qed.
