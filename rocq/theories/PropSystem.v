(** C23, C24, C25, C33, C37, C39, C58: life cycle of a system.

    A [call] is a call of the public interface (SystemModel.v); [exec c s] is the state it
    leaves and its outcome; [run] runs a history in which the caller catches exceptions.
    The parameters of the model (initializeBasis, matrix elements, rotation, ... of the
    derived class) are universally quantified. *)
From Verif Require Import Base StateModel StateProofs Matrix LookupModel LookupProofs SystemModel RangeModel
  SystemProofs SystemExact SystemInv AddProofs InitProofs.
From Coq Require Import ZArith Lia Bool Arith List.
Import ListNotations.
Set Implicit Arguments.

Section P.
Context {K : StarRing} {State Param Key Angle : Type}.
Variable seqb : State -> State -> bool.
Variable sgen : State -> bool.
Variable keqb : Key -> Key -> bool.
Variable qvalid : ranges -> State -> bool.
Variable v_init : Param -> @request K State -> list (nat * State) * res (mat K * mat K).
Variable v_keys : Param -> list (Key * K).
Variable v_op : Key -> State -> State -> K.
Variable v_rot : Angle -> list (nat * State) -> list (nat * nat * K).
Variable v_compat : Param -> Param -> res Param.
Variable v_label : list State -> (nat -> K) -> nat -> State.

Notation sysT := (@sys K State Param Key).
Notation Xexec := (exec (Angle := Angle) seqb sgen keqb qvalid v_init v_keys v_op v_rot v_compat v_label).
Notation Xrun := (run (Angle := Angle) seqb sgen keqb qvalid v_init v_keys v_op v_rot v_compat v_label).
Notation XbuildBasis := (buildBasis seqb qvalid v_init).
Notation XbuildHam := (buildHamiltonian seqb keqb qvalid v_init v_keys v_op).
Notation Xhistory := (history (Angle := Angle) seqb sgen keqb qvalid v_init v_keys v_op v_rot v_compat v_label).
Notation Xgood := (good_history (Angle := Angle) seqb sgen keqb qvalid v_init v_keys v_op v_rot v_compat v_label).

(** *** C23 *)

(** Whatever history of calls precedes (with exceptions caught by the caller), as soon as
    the basis can be accessed the i-th state has index i, all states differ, the basis
    matrix has one row per state, and H is square of the dimension of the basis.
    Missing for the full claim: histories in which add() or unitarize() threw (refuted below). *)
Theorem C23_aligned_partial : init_ok seqb v_init ->
  forall p ms th l, Xhistory l (new_sys p ms th) ->
  forall s, XbuildBasis (fst (Xrun l (new_sys p ms th))) = (s, Ok tt) ->
  map fst (states s) = seq 0 (length (states s)) /\
  ForallOrdPairs (fun a b => seqb a b = false) (map snd (states s)) /\
  nr (bv s) = length (states s) /\ nr (ham s) = nc (bv s) /\ nc (ham s) = nc (bv s).
Proof.
  intros HI p ms th l Hl s E.
  assert (I : inv seqb (fst (Xrun l (new_sys p ms th)))).
  { apply run_inv; auto. left. apply wfs_new. }
  destruct (inv_visible qvalid HI I E) as [([A D] & R & H1 & H2 & _) _]. auto.
Qed.

(** *** C24 *)

(** [rows1]/[cols]/[rows2] (SystemExact.v) list the positions to keep: states with
    allowed quantum numbers; basis vectors of allowed energy whose norm on these states
    exceeds the threshold; of the states, those with enough weight in the kept vectors.
    The result consists of exactly these rows and columns, in their old order. *)
Theorem C24_late_restriction : forall (s : sysT) d,
  wfs seqb s -> toadd s = [] ->
  ~ (ranges_empty (rg s) = true /\ emin s = None /\ emax s = None) ->
  snd (updateEverything seqb qvalid s) <> UB ->
  let R := rows2 qvalid s d in let C := cols qvalid s d in
  exists s', updateEverything seqb qvalid s = (s', Ok tt) /\
  states s' = combine (seq 0 (length R)) (map (fun i => nth i (map snd (states s)) d) R) /\
  meq (bv s') (block (bv s) R C) /\ meq (ham s') (block (ham s) C C) /\
  rg s' = no_ranges /\ emin s' = None /\ emax s' = None /\ toadd s' = [] /\
  par s' = par s /\ contained s' = contained s /\ required s' = required s.
Proof.
  intros s d W Ht Hr Hub R C.
  assert (Hr' : ranges_empty (rg s) && (match emin s with None => true | _ => false end)
                      && (match emax s with None => true | _ => false end) = false).
  { apply not_true_is_false. intro X. apply Hr. apply andb_true_iff in X; destruct X as [X X1].
    apply andb_true_iff in X; destruct X as [X X2].
    destruct (emin s); [discriminate|]. destruct (emax s); [discriminate|]. auto. }
  destruct (@update_exact K State Param Key seqb qvalid s d W Ht Hr' Hub) as (A & B).
  exists (fst (updateEverything seqb qvalid s)). split; [|exact B].
  rewrite <- A. destruct (updateEverything seqb qvalid s); reflexivity.
Qed.

(** The call that applies the restrictions: it reports an error exactly if no state or no basis
    vector is left ... *)
Theorem C24_nothing_left : forall (s : sysT) d,
  wfs seqb s -> toadd s = [] -> states s <> [] -> msize (bv s) <> 0 -> msize (ham s) <> 0 ->
  ~ (ranges_empty (rg s) = true /\ emin s = None /\ emax s = None) ->
  snd (updateEverything seqb qvalid s) <> UB ->
  let R := rows2 qvalid s d in let C := cols qvalid s d in
  fst (XbuildBasis s) = fst (updateEverything seqb qvalid s) /\
  (snd (XbuildBasis s) = Throw <-> R = [] \/ C = []) /\ (snd (XbuildBasis s) = Ok tt <-> R <> [] /\ C <> []).
Proof.
  intros s d W Ht Hs Hb Hh Hr Hub R C.
  destruct (C24_late_restriction d W Ht Hr Hub) as (s' & E & _ & Eb & _). fold R C in Eb.
  assert (nR : nr (bv s') = length R) by (rewrite (meq_nr Eb); reflexivity).
  assert (nC : nc (bv s') = length C) by (rewrite (meq_nc Eb); reflexivity).
  assert (G : ranges_empty (rg s) && (match emin s with None => true | _ => false end)
                      && (match emax s with None => true | _ => false end) = false).
  { apply not_true_is_false. intro X. apply Hr. apply andb_true_iff in X; destruct X as [X X1].
    apply andb_true_iff in X; destruct X as [X X2].
    destruct (emin s); [discriminate|]. destruct (emax s); [discriminate|]. auto. }
  unfold buildBasis. apply Nat.eqb_neq in Hb, Hh. rewrite Hb, Hh. destruct (states s) eqn:Es; [congruence|].
  rewrite Ht. cbn [is_nil negb Bool.eqb andb]. rewrite G, E, nR, nC.
  destruct R as [|r R']; destruct C as [|c C']; cbn; repeat split; intros; try tauto; try discriminate; try congruence; intuition congruence.
Qed.
(** ... and a basis that was built is never empty. *)
Theorem C24_never_empty : forall (s s' : sysT), XbuildBasis s = (s', Ok tt) -> nr (bv s') <> 0 /\ nc (bv s') <> 0.
Proof.
  intros s s' H. unfold buildBasis in H. destruct (negb _) eqn:A in H; [discriminate|].
  destruct (_ && _) eqn:B in H.
  - injection H as <-. apply negb_false_iff, andb_true_iff in A. destruct A as [A1 A2].
    apply andb_true_iff in B. destruct B as [B _]. apply andb_true_iff in B. destruct B as [B _]. apply andb_true_iff in B. destruct B as [B _].
    apply andb_true_iff in B. destruct B as [B _]. apply negb_true_iff in B. rewrite B in A1. apply Bool.eqb_prop in A1. rewrite A1 in A2. apply Bool.eqb_prop in A2.
    symmetry in A2. apply Nat.eqb_neq in A2. unfold msize in A2. nia.
  - destruct (if is_nil (states s) then _ else _) as [s1 r]. destruct r; try discriminate.
    destruct (nr (bv s1) =? 0) eqn:E1; [discriminate|]. destruct (nc (bv s1) =? 0) eqn:E2; [discriminate|]. injection H as <-.
    apply Nat.eqb_neq in E1, E2. auto.
Qed.
(** Restrictions and added states do not depend on the order in which they are given. *)
Theorem C24_any_order : forall g a b l (s : sysT), Xrun [CRestrict g a b; CAddStates l] s = Xrun [CAddStates l; CRestrict g a b] s.
Proof. reflexivity. Qed.

(** *** C25 *)

Theorem C25_idempotent : init_ok seqb v_init ->
  forall p ms th l, Xhistory l (new_sys p ms th) ->
  forall s, XbuildBasis (fst (Xrun l (new_sys p ms th))) = (s, Ok tt) -> XbuildBasis s = (s, Ok tt).
Proof.
  intros HI p ms th l Hl s E.
  assert (I : inv seqb (fst (Xrun l (new_sys p ms th)))).
  { apply run_inv; auto. left. apply wfs_new. }
  destruct (inv_visible qvalid HI I E) as [_ S]. apply settled_build; auto.
Qed.

(** States added to a system whose basis is built are reported ... *)
Theorem C25_late_states_reported : forall s : sysT, settled s -> forall l, l <> [] ->
  XbuildBasis (add_states seqb l s) = (add_states seqb l s, Throw).
Proof.
  intros s (A & B & C & D & E & F & G) l Hl.
  assert (N : is_nil (toadd (add_states seqb l s)) = false).
  { unfold add_states. cbn [toadd set_restr]. rewrite D.
    assert (X : forall l acc, acc <> [] ->
      is_nil (fold_left (fun acc x => if existsb (seqb x) acc then acc else acc ++ [x]) l acc) = false).
    { induction l0 as [|x l0 IH]; intros acc Ha; simpl. { destruct acc; [congruence|reflexivity]. }
      apply IH. destruct (existsb _ acc); auto. destruct acc; discriminate. }
    destruct l as [|x l]; [congruence|]. simpl. apply X. discriminate. }
  unfold buildBasis. change (ham (add_states seqb l s)) with (ham s). change (bv (add_states seqb l s)) with (bv s).
  change (states (add_states seqb l s)) with (states s). change (rg (add_states seqb l s)) with (rg s).
  change (emin (add_states seqb l s)) with (emin s). change (emax (add_states seqb l s)) with (emax s).
  rewrite N, E, F, G. apply Nat.eqb_neq in B, C. rewrite B, C. destruct (states s) eqn:Es; [congruence|].
  cbn [is_nil negb Bool.eqb andb]. unfold updateEverything. 
  change (rg (add_states seqb l s)) with (rg s).
  change (emin (add_states seqb l s)) with (emin s). change (emax (add_states seqb l s)) with (emax s).
  rewrite E, F, G. cbn [andb]. rewrite N. reflexivity.
Qed.

(** ... but the request is never dropped, so that the system can never be used again: every
    call that needs the basis throws.  Also after an exception during the first build. *)
Theorem C91_basis_refuted : init_ok seqb v_init ->
  forall s : sysT, (exists s0, settled s0 /\ exists x, s = add_states seqb [x] s0) \/ dead s ->
  forall n, XbuildBasis (Nat.iter n (fun t => fst (XbuildBasis t)) s) = (s, Throw).
Proof.
  intros HI s H.
  assert (B : XbuildBasis s = (s, Throw)).
  { destruct H as [(s0 & S & x & ->)|D]; [apply C25_late_states_reported; auto; discriminate|apply dead_build; auto]. }
  induction n; simpl; auto. rewrite IHn. simpl. auto.
Qed.

(** *** C58 *)

(** Matrix products and sums of the library always have matching dimensions, up to the first
    exception, in every history without canonicalize() (whose cached data keep the old
    dimension, refuted below). *)
Theorem C58_dimensions_partial : init_ok seqb v_init -> (forall k, keqb k k = true) ->
  (forall p rq, snd (v_init p rq) <> UB) -> (forall p q, v_compat p q <> UB) ->
  forall p ms th l, Xgood l (new_sys p ms th) ->
  ~ In UB (upto_failure (snd (Xrun l (new_sys p ms th)))).
Proof. intros HI Hk Hu Hc p ms th l Hl. apply run_no_ub; auto. apply fit_new. Qed.

(** *** C33 *)

Theorem C33_constrain_exact : forall (s s1 : sysT) idxs,
  XbuildHam s = (s1, Ok tt) -> fit seqb s1 ->
  NoDup idxs -> (forall i, In i idxs -> i < nc (bv s1)) ->
  exists s', Xexec (CConstrain idxs) s = (s', Ok tt) /\
    states s' = states s1 /\
    meq (bv s') (block (bv s1) (seq 0 (nr (bv s1))) idxs) /\
    meq (ham s') (block (ham s1) idxs idxs) /\ par s' = par s1.
Proof.
  intros s s1 idxs E F Nd Hb. exists (applyRight (msel (nc (bv s1)) idxs) s1).
  simpl. unfold constrainBasisvectors, andThen. rewrite E.
  rewrite (proj2 (has_dup_iff idxs) Nd).
  assert (X : existsb (fun i => nc (bv s1) <=? i) idxs = false).
  { apply not_true_is_false. intro X. apply existsb_exists in X. destruct X as (i & Hi & Le).
    apply Nat.leb_le in Le. specialize (Hb i Hi). lia. }
  rewrite X, (fit_right F). cbn [negb]. split; [reflexivity|]. split; [reflexivity|].
  destruct F as ((_ & _ & H1 & H2 & _) & _).
  split; [apply sel_cols_block; auto|]. split; [apply sel_conj_block; auto|reflexivity].
Qed.

(** A duplicate or an index out of range is refused, and the system is the one
    after buildHamiltonian(). *)
Theorem C33_constrain_throws : forall (s s1 : sysT) idxs,
  XbuildHam s = (s1, Ok tt) ->
  ~ NoDup idxs \/ (exists i, In i idxs /\ nc (bv s1) <= i) ->
  Xexec (CConstrain idxs) s = (s1, Throw).
Proof.
  intros s s1 idxs E H. simpl. unfold constrainBasisvectors, andThen. rewrite E.
  destruct (has_dup idxs) eqn:Ed; auto.
  assert (X : existsb (fun i => nc (bv s1) <=? i) idxs = true).
  { destruct H as [H|(i & Hi & Le)]. { exfalso. apply H, has_dup_iff; auto. }
    apply existsb_exists. exists i. split; auto. apply Nat.leb_le; auto. }
  rewrite X. reflexivity.
Qed.

(** *** C39 *)

Theorem C39_unitarize : forall s s1 : sysT,
  XbuildHam s = (s1, Ok tt) -> wfs seqb s1 ->
  let lab k := v_label (map snd (states s1)) (fun i => at_ (bv s1) i k) (nr (bv s1)) in
  forall s', Xexec CUnitarize s = (s', Ok tt) ->
  states s' = map (fun k => (k, lab k)) (seq 0 (nc (bv s1))) /\
  ForallOrdPairs (fun a b => seqb a b = false) (map lab (seq 0 (nc (bv s1)))) /\
  meq (bv s') (mid (nc (bv s1))) /\ ham s' = ham s1.
Proof.
  intros s s1 E W lab s' H. simpl in H. unfold unitarize, andThen in H. rewrite E in H. cbn zeta in H.
  cbn [states set_states] in H. fold lab in H.
  destruct (negb (nc (bv s1) =? length (label_push seqb lab [] 0 (nc (bv s1))))) eqn:En; [discriminate|].
  apply negb_false_iff, Nat.eqb_eq in En.
  destruct (@label_push_full State seqb lab (nc (bv s1)) [] 0 eq_refl (@table_nil State seqb)) as [[_ T] EL].
  { simpl. auto. }
  injection H as <-. cbn [states bv ham set_mats set_states]. rewrite EL in *. simpl app in *.
  split; [reflexivity|]. split.
  - rewrite map_map in T. exact T.
  - rewrite <- En. split; [reflexivity|reflexivity].
Qed.

(** unitarize() succeeds exactly if the labels are pairwise different. *)
Theorem C39_unitarize_iff : (forall x, seqb x x = true) -> (forall x y, seqb x y = seqb y x) ->
  forall s s1 : sysT,
  XbuildHam s = (s1, Ok tt) ->
  let lab k := v_label (map snd (states s1)) (fun i => at_ (bv s1) i k) (nr (bv s1)) in
  (ForallOrdPairs (fun a b => seqb a b = false) (map lab (seq 0 (nc (bv s1)))) <->
   snd (Xexec CUnitarize s) = Ok tt).
Proof.
  intros Hr Hs s s1 E lab. simpl. unfold unitarize, andThen. rewrite E. cbn zeta.
  cbn [states set_states]. fold lab. split.
  - intro D.
    assert (G : forall n t k, k = length t -> table_ok seqb t ->
       ForallOrdPairs (fun a b => seqb a b = false) (map snd t ++ map lab (seq k n)) ->
       length (label_push seqb lab t k n) = length t + n).
    { induction n; intros t k -> T Dn; simpl; [lia|].
      assert (Fn : tfind seqb t (lab (length t)) = None).
      { destruct (tfind seqb t (lab (length t))) eqn:Ef; auto. apply tfind_some in Ef.
        destruct Ef as (x & Hx & Ex).
        destruct (@distinct_app_inv State seqb (map snd t) (map lab (seq (length t) (S n))) Dn) as (_ & _ & C).
        rewrite C in Ex; [discriminate| |left; auto]. apply in_map_iff. exists (n0, x); auto. }
      unfold tpush. rewrite Fn. rewrite IHn.
      - rewrite app_length. simpl. lia.
      - rewrite app_length. simpl. lia.
      - apply table_snoc; auto.
      - rewrite map_app, <- app_assoc. exact Dn. }
    rewrite (G (nc (bv s1)) [] 0 eq_refl (@table_nil State seqb) D). simpl length.
    rewrite Nat.add_0_l, Nat.eqb_refl. reflexivity.
  - intro H. destruct (negb (nc (bv s1) =? length (label_push seqb lab [] 0 (nc (bv s1))))) eqn:En; [discriminate|].
    apply negb_false_iff, Nat.eqb_eq in En.
    destruct (@label_push_full State seqb lab (nc (bv s1)) [] 0 eq_refl (@table_nil State seqb)) as [[_ T] EL].
    { simpl. auto. }
    rewrite EL, map_app, map_map in T. exact T.
Qed.

(** *** C37 *)

(** add() gives the direct sum.  The states are those of the first system followed by the
    unknown ones of the second; the basis vectors of both keep their coefficients (a state
    a system does not have gets 0); H is block-diagonal. *)
Theorem C37_add_direct_sum : 
  (forall x, seqb x x = true) -> (forall x y, seqb x y = seqb y x) ->
  (forall x y z, seqb x y = true -> seqb y z = true -> seqb x z = true) ->
  forall s s1 o s' orth,
  XbuildBasis s = (s1, Ok tt) -> fit seqb s1 -> wfs seqb o ->
  Xexec (CAdd o orth) s = (s', Ok tt) ->
  map snd (states s') = map snd (states s1) ++ unknown seqb (map snd (states s1)) (map snd (states o)) /\
  map fst (states s') = seq 0 (length (states s')) /\
  nc (bv s') = nc (bv s1) + nc (bv o) /\
  (forall i x j, nth_error (map snd (states s')) i = Some x -> j < nc (bv s1) ->
     at_ (bv s') i j = row_of seqb (states s1) (bv s1) x j) /\
  (forall i x j, nth_error (map snd (states s')) i = Some x -> j < nc (bv o) ->
     at_ (bv s') i (nc (bv s1) + j) = row_of seqb (states o) (bv o) x j) /\
  nr (ham s') = nr (ham s1) + nr (ham o) /\ nc (ham s') = nc (ham s1) + nc (ham o) /\
  (forall i j, i < nr (ham s1) -> j < nc (ham s1) -> at_ (ham s') i j = at_ (ham s1) i j) /\
  (forall i j, i < nr (ham o) -> j < nc (ham o) ->
     at_ (ham s') (nr (ham s1) + i) (nc (ham s1) + j) = at_ (ham o) i j) /\
  (forall i j, i < nr (ham s1) -> j < nc (ham o) -> at_ (ham s') i (nc (ham s1) + j) = s0) /\
  (forall i j, i < nr (ham o) -> j < nc (ham s1) -> at_ (ham s') (nr (ham s1) + i) j = s0).
Proof.
  intros Hr Hs Ht s s1 o s' orth E F Wo H.
  destruct F as ((T & R & H1 & H2 & RU) & C & E0 & O & N).
  destruct Wo as (oT & oR & oH1 & oH2 & oRU).
  simpl in H. unfold add, andThen in H. rewrite E in H.
  destruct (v_compat (par s1) (par o)) as [p| |]; try discriminate.
  cbn zeta in H. cbn [memsave contained required deleteInteraction set_par set_ops states] in H.
  destruct (negb (Bool.eqb (memsave s1) (memsave o))); [discriminate|].
  destruct (negb (Bool.eqb (contained s1) (contained o))); [discriminate|].
  destruct (negb (Bool.eqb (required s1) (required o))); [discriminate|].
  pose proof (@merge_table State seqb K (states o) (states s1) T) as MT.
  pose proof (@merge_states_list K State seqb (states o) (states s1) (proj2 oT)) as ML.
  pose proof (@merge_prefix K State seqb (states o) (states s1)) as (ext & MP).
  assert (MR : forall i x j, nth_error (map snd (fst (merge_states (K:=K) seqb (states s1) (states o)))) i = Some x ->
     at_ (mmul (mtrip (length (fst (merge_states (K:=K) seqb (states s1) (states o)))) (nr (bv o))
        (snd (merge_states (K:=K) seqb (states s1) (states o)))) (bv o)) i j = row_of seqb (states o) (bv o) x j).
  { intros. apply merge_row; auto. }
  destruct (merge_states seqb (states s1) (states o)) as [tbl tr] eqn:Em. cbn [fst snd] in *.
  assert (BV : forall s'' : sysT, bv s'' = mappend (length tbl) (bv s1) (mmul (mtrip (length tbl) (nr (bv o)) tr) (bv o)) ->
     states s'' = tbl ->
     (forall i x j, nth_error (map snd (states s'')) i = Some x -> j < nc (bv s1) ->
       at_ (bv s'') i j = row_of seqb (states s1) (bv s1) x j) /\
     (forall i x j, nth_error (map snd (states s'')) i = Some x -> j < nc (bv o) ->
       at_ (bv s'') i (nc (bv s1) + j) = row_of seqb (states o) (bv o) x j)).
  { intros s'' Eb Es. rewrite Eb, Es. unfold mappend. cbn [at_]. split; intros i x j Hi Hj.
    - apply Nat.ltb_lt in Hj. rewrite Hj. pose proof MT as [MA MD].
      pose proof (@tfind_aligned State seqb Hr Hs tbl i x MT Hi) as Ft.
      rewrite MP, tfind_app in Ft. unfold row_of. rewrite R.
      destruct (i <? length (states s1)) eqn:Ei.
      + apply Nat.ltb_lt in Ei.
        rewrite MP, map_app, nth_error_app1 in Hi by (rewrite map_length; auto).
        rewrite (@tfind_aligned State seqb Hr Hs (states s1) i x T Hi). reflexivity.
      + apply Nat.ltb_ge in Ei. destruct (tfind seqb (states s1) x) eqn:Ef; auto.
        injection Ft as ->. apply tfind_some in Ef. destruct Ef as (y & Hy & _).
        apply (@aligned_nth State (states s1) i y (proj1 T)) in Hy. lia.
    - assert (X : nc (bv s1) + j <? nc (bv s1) = false) by (apply Nat.ltb_ge; lia). rewrite X.
      replace (nc (bv s1) + j - nc (bv s1)) with j by lia. apply MR; auto. }
  assert (HM : forall h : mat K, h = mappend (nr (ham s1) + nr (ham o)) (ham s1) (mmul (shifter (nr (ham s1)) (nr (ham o))) (ham o)) ->
    nr h = nr (ham s1) + nr (ham o) /\ nc h = nc (ham s1) + nc (ham o) /\
    (forall i j, i < nr (ham s1) -> j < nc (ham s1) -> at_ h i j = at_ (ham s1) i j) /\
    (forall i j, i < nr (ham o) -> j < nc (ham o) -> at_ h (nr (ham s1) + i) (nc (ham s1) + j) = at_ (ham o) i j) /\
    (forall i j, i < nr (ham s1) -> j < nc (ham o) -> at_ h i (nc (ham s1) + j) = s0) /\
    (forall i j, i < nr (ham o) -> j < nc (ham s1) -> at_ h (nr (ham s1) + i) j = s0)).
  { intros h ->. split; [reflexivity|]. split; [reflexivity|].
    assert (X : forall j, nc (ham s1) + j <? nc (ham s1) = false) by (intro; apply Nat.ltb_ge; lia).
    assert (Y : forall j, nc (ham s1) + j - nc (ham s1) = j) by (intro; lia).
    unfold mappend. cbn [at_]. split; [|split; [|split]]; intros i j Hi Hj.
    - apply Nat.ltb_lt in Hi, Hj. rewrite Hi, Hj. reflexivity.
    - rewrite X, Y, (@shifter_row K (nr (ham s1)) (nr (ham o)) (ham o)) by reflexivity.
      assert (L1 : nr (ham s1) <=? nr (ham s1) + i = true) by (apply Nat.leb_le; lia).
      assert (L2 : nr (ham s1) + i <? nr (ham s1) + nr (ham o) = true) by (apply Nat.ltb_lt; lia).
      rewrite L1, L2. simpl. f_equal. lia.
    - rewrite X, Y, (@shifter_row K (nr (ham s1)) (nr (ham o)) (ham o)) by reflexivity.
      assert (L1 : nr (ham s1) <=? i = false) by (apply Nat.leb_gt; lia). rewrite L1. reflexivity.
    - apply Nat.ltb_lt in Hj. rewrite Hj.
      assert (L1 : nr (ham s1) + i <? nr (ham s1) = false) by (apply Nat.ltb_ge; lia). rewrite L1. reflexivity. }
  cut (exists s'' : sysT, states s'' = tbl /\
     bv s'' = mappend (length tbl) (bv s1) (mmul (mtrip (length tbl) (nr (bv o)) tr) (bv o)) /\
     ham s'' = mappend (nr (ham s1) + nr (ham o)) (ham s1) (mmul (shifter (nr (ham s1)) (nr (ham o))) (ham o)) /\
     s'' = s').
  { intros (s'' & A1 & A2 & A3 & A4). subst s''.
    destruct (BV s' A2 A1) as [B1 B2]. destruct (HM _ A3) as (M1 & M2 & M3 & M4 & M5 & M6).
    split; [rewrite A1; exact ML|]. split; [rewrite A1; exact (proj1 MT)|].
    split; [rewrite A2; reflexivity|]. repeat (split; [assumption|]). assumption. }
  cbn -[nonempty negb Bool.eqb mmul mappend Nat.eqb shifter] in H.
  destruct (negb (Bool.eqb (nonempty (bv_up s1)) (nonempty (bv_up o)))); [discriminate|].
  destruct (nonempty (bv_up s1)); cbn -[nonempty negb Bool.eqb mmul mappend Nat.eqb shifter] in H;
    (destruct (negb orth); [discriminate|]); cbn -[nonempty negb Bool.eqb mmul mappend Nat.eqb shifter] in H;
    (destruct (negb (Bool.eqb (nonempty (ham_up s1)) (nonempty (ham_up o)))); [discriminate|]);
    (destruct (nonempty (ham_up s1)); [match type of H with context [if ?b then _ else _] => destruct b end; [discriminate|]|]);
    injection H as H; eexists; (split; [|split; [|split; [|exact H]]]); reflexivity.
Qed.
End P.

(** *** Examples and counterexamples, on the instance of SystemDemo.v *)
From Verif Require Import SystemDemo.

Lemma d_init_ok : init_ok Nat.eqb d_init.
Proof.
  intros p rq tbl b h E. unfold d_init in E. destruct (rq_add rq) as [|x l0] eqn:El; [discriminate|].
  remember (x :: l0) as l. clear El Heql.
  destruct (has_dup l) eqn:Ed; [discriminate|]. injection E as <- <- <-.
  apply has_dup_iff in Ed.
  assert (Hs : map snd (combine (seq 0 (length l)) l) = l) by apply combine_snd.
  split; [split|].
  - unfold aligned. rewrite combine_length, seq_length, Nat.min_id. apply combine_fst.
  - rewrite Hs. clear Hs. induction Ed; constructor; auto. apply Forall_forall. intros y Hy. apply Nat.eqb_neq. intros <-; auto.
  - rewrite combine_length, seq_length, Nat.min_id. auto.
Qed.

(** C23 with the initializeBasis of SystemOne (any energies, any symmetry). *)
Theorem C23_one_atom_partial : forall (K : StarRing) hs hi hf (rt : K) iu energy sp (P : Type) (sref : P -> parity) srot
  (Key Angle : Type) sgen (keqb : Key -> Key -> bool) qvalid v_keys v_op v_rot v_compat v_label,
  let vi := init_one hs hi hf rt iu energy sp sref srot in
  forall p ms th (l : list (@call K state1 P Key Angle)),
  history eq1 sgen keqb qvalid vi v_keys v_op v_rot v_compat v_label l (new_sys p ms th) ->
  forall s, buildBasis eq1 qvalid vi
     (fst (run eq1 sgen keqb qvalid vi v_keys v_op v_rot v_compat v_label l (new_sys p ms th))) = (s, Ok tt) ->
  map fst (states s) = seq 0 (length (states s)) /\
  ForallOrdPairs (fun a b => eq1 a b = false) (map snd (states s)) /\
  nr (bv s) = length (states s) /\ nr (ham s) = nc (bv s) /\ nc (ham s) = nc (bv s).
Proof. intros. eapply C23_aligned_partial; eauto. apply init_one_ok. Qed.

(** A history that satisfies the hypotheses of C23, C25, C58: add states, build, restrict, rotate,
    constrain, change the field, rebuild, unitarize. *)
Definition demo_hist : list dcall :=
  [CAddStates [10; 11; 12]; CSet [(1%nat, 5%Z)]; CBuild; CRestrict no_ranges None (Some (12%Z : ZR));
   CBasis; CRotate tt; CConstrain [1%nat; 0%nat]; CSet [(1%nat, 7%Z)]; CBuild; CUnitarize]%nat.
Example demo_history :
  history Nat.eqb (fun _ => false) Nat.eqb d_valid d_init d_keys d_op d_rot d_compat d_label demo_hist (dnew []) /\
  good_history Nat.eqb (fun _ => false) Nat.eqb d_valid d_init d_keys d_op d_rot d_compat d_label demo_hist (dnew []) /\
  forallb (fun r => match r with Ok _ => true | _ => false end) (snd (drun demo_hist (dnew []))) = true /\
  view (fst (drun demo_hist (dnew []))) = ([100; 101]%nat, [[1; 0]; [0; 1]]%Z, [[11; 7]; [7; 10]]%Z).
Proof. split; [|split; [|split]]; vm_compute; intuition (try reflexivity; discriminate). Qed.

(** C24: the three states 10, 11, 12; the window keeps energies below 12. *)
Example C24_example :
  let s := fst (drun [CAddStates [10; 11; 12]; CBasis; CRestrict no_ranges None (Some (12%Z : ZR))] (dnew [])) in
  wfs Nat.eqb s /\ toadd s = [] /\ snd (updateEverything Nat.eqb d_valid s) = Ok tt /\
  view (fst (updateEverything Nat.eqb d_valid s)) = ([10; 11], [[1; 0]; [0; 1]]%Z, [[10; 0]; [0; 11]]%Z).
Proof.
  cbv zeta. split; [|vm_compute; auto].
  split; [split|]; [vm_compute; reflexivity|vm_compute; repeat constructor|].
  vm_compute. split; [reflexivity|]. split; [reflexivity|]. split; [reflexivity|]. intro H; discriminate H.
Qed.

(** C23 is false after an exception of add(): states and basis vectors are already enlarged when
    the bases turn out not to be orthogonal, H is not.  The next access reports no error. *)
Theorem C23_add_refuted : exists (s o s' : dsys),
  s = fst (drun [CAddStates [10; 11]; CBasis] (dnew [])) /\
  o = fst (drun [CAddStates [11; 12]; CBasis] (dnew [])) /\
  (* the bases share state 11: the orthogonality check fails *)
  dexec (CAdd o false) s = (s', Throw) /\
  dexec CBasis s' = (s', Ok tt) /\
  nc (bv s') = 4 /\ nr (ham s') = 2.
Proof. do 3 eexists. split; [reflexivity|]. split; [reflexivity|]. split; [vm_compute; reflexivity|]. vm_compute. auto. Qed.

(** C23 is false after an exception of unitarize(): a collision of the labels leaves fewer states
    than rows of the basis matrix. *)
Theorem C23_unitarize_refuted : exists s' : dsys,
  dexec CUnitarize (fst (drun [CAddStates [10; 11; 12]] (dnew []))) = (s', Throw) /\
  dexec CBasis s' = (s', Ok tt) /\
  length (states s') = 2 /\ nr (bv s') = 3.
Proof. eexists. split; [vm_compute; reflexivity|]. vm_compute. auto. Qed.

(** C58 is false with canonicalize(): the data kept for the next change of the fields have the old
    dimension.  Here a basis with 2 states and 1 vector is canonicalised and then constrained. *)
Theorem C58_canonicalize_refuted :
  snd (drun [CAddStates [10; 11]; CBasis; CConstrain [0%nat]; CSet [(1%nat, 5%Z)]; CBuild; CCanon; CConstrain [0%nat]]
    (dnew [])) = [Ok tt; Ok tt; Ok tt; Ok tt; Ok tt; Ok tt; UB].
Proof. vm_compute. reflexivity. Qed.

(** C33, non-vacuity: the hypotheses hold for the demo system. *)
Example C33_example :
  let s := fst (drun [CAddStates [10; 11; 12]; CSet [(1%nat, 5%Z)]; CBuild; CConstrain [2%nat; 0%nat]] (dnew [])) in
  view s = ([10; 11; 12], [[0; 1]; [0; 0]; [1; 0]]%Z, [[12; 0]; [0; 10]]%Z).
Proof. vm_compute. reflexivity. Qed.

(** C37: the sum of two built systems lacks the coupling of the field between them, which the
    system with both states has. *)
Theorem C89_coupling_refuted : exists s o s' t : dsys,
  s = fst (drun [CSet [(1%nat, 5%Z)]; CAddStates [10]; CBuild] (dnew [])) /\
  o = fst (drun [CSet [(1%nat, 5%Z)]; CAddStates [11]; CBuild] (dnew [])) /\
  t = fst (drun [CSet [(1%nat, 5%Z)]; CAddStates [10; 11]; CBuild] (dnew [])) /\
  dexec (CAdd o true) s = (s', Ok tt) /\ par s' = par t /\
  view (fst (dexec CBuild s')) = ([10; 11], [[1; 0]; [0; 1]]%Z, [[10; 0]; [0; 11]]%Z) /\
  view t                       = ([10; 11], [[1; 0]; [0; 1]]%Z, [[10; 5]; [5; 11]]%Z).
Proof.
  do 4 eexists. split; [reflexivity|]. split; [reflexivity|]. split; [reflexivity|].
  split; [vm_compute; reflexivity|]. vm_compute. auto.
Qed.

(** If the fields are set after the sum, the coupling is there. *)
Example C37_example :
  let o := fst (drun [CAddStates [11; 12]; CBasis] (dnew [])) in
  view (fst (drun [CAddStates [10]; CBasis; CAdd o true; CSet [(1%nat, 5%Z)]; CBuild] (dnew []))) =
  ([10; 11; 12], [[1; 0; 0]; [0; 1; 0]; [0; 0; 1]]%Z, [[10; 5; 0]; [5; 11; 5]; [0; 5; 12]]%Z).
Proof. vm_compute. reflexivity. Qed.

(** C39 on a mixed basis. *)
Example C39_example :
  view (fst (drun [CAddStates [10; 11]; CConstrain [1%nat]; CUnitarize] (dnew []))) = ([100], [[1]]%Z, [[11]]%Z).
Proof. vm_compute. reflexivity. Qed.

Print Assumptions C23_aligned_partial.
Print Assumptions C23_one_atom_partial.
Print Assumptions C24_late_restriction.
Print Assumptions C24_nothing_left.
Print Assumptions C24_never_empty.
Print Assumptions C25_idempotent.
Print Assumptions C25_late_states_reported.
Print Assumptions C91_basis_refuted.
Print Assumptions C58_dimensions_partial.
Print Assumptions C33_constrain_exact.
Print Assumptions C33_constrain_throws.
Print Assumptions C37_add_direct_sum.
Print Assumptions C39_unitarize.
Print Assumptions C39_unitarize_iff.
