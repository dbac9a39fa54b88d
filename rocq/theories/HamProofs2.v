(** Constraining (C28) and discarded data (C29). *)
From Verif Require Import Base Matrix LookupModel LookupProofs SystemModel SystemProofs SystemExact SystemInv AddProofs HamProofs.
From Coq Require Import ZArith Lia Bool Arith Setoid Morphisms List.
Import ListNotations.
Set Implicit Arguments.

Section Constrain.
Context {K : StarRing} {State Param Key Angle : Type}.
Variable seqb : State -> State -> bool.
Variable sgen : State -> bool.
Variable keqb : Key -> Key -> bool.
Variable qvalid : ranges -> State -> bool.
Variable v_init : Param -> @request K State -> list (nat * State) * res (mat K * mat K).
Variable v_keys : Param -> list (Key * K).
Variable v_op : Key -> State -> State -> K.
Variable v_rot : Angle -> list (nat * State) -> list (nat * nat * K).
Variable v_compat : Param -> Param -> res Param.
Variable v_label : list State -> (nat -> K) -> nat -> State.
Notation sysT := (@sys K State Param Key).
Notation callT := (@call K State Param Key Angle).
Notation Xexec := (exec (Angle := Angle) seqb sgen keqb qvalid v_init v_keys v_op v_rot v_compat v_label).
Notation Xrun := (run (Angle := Angle) seqb sgen keqb qvalid v_init v_keys v_op v_rot v_compat v_label).
Notation XbuildHam := (buildHamiltonian seqb keqb qvalid v_init v_keys v_op).
Local Open Scope mat_scope.

Lemma sel_isometry : forall n idxs, NoDup idxs -> (forall i, In i idxs -> i < n) -> isometry (msel (K := K) n idxs).
Proof.
  intros n idxs Nd Hb. unfold isometry. split; [reflexivity|]. split; [reflexivity|].
  intros k l Hk Hl. simpl in Hk, Hl. simpl. rewrite Nat.min_id.
  rewrite (@bsum_ext K n _ (fun i => smul (delta (nth k idxs n) i) (delta i (nth l idxs n)))).
  2:{ intros i _. rewrite delta_conj, delta_sym. reflexivity. }
  rewrite (@bsum_delta_l K n (nth k idxs n) (fun i => delta i (nth l idxs n))) by (apply Hb, nth_In; auto).
  unfold delta. destruct (Nat.eqb_spec k l) as [->|N]; [rewrite Nat.eqb_refl; auto|].
  destruct (Nat.eqb_spec (nth k idxs n) (nth l idxs n)); auto.
  exfalso. apply N. eapply NoDup_nth; eauto.
Qed.

Variable st0 : list (nat * State).
Variables B0 H0 : mat K.
Notation n := (length st0).
Notation hinv := (hinv v_keys v_op st0).
Notation Htot := (Htot v_keys v_op st0).

(** The chosen vectors span a subspace with projector P1; the new total operator is the compression. *)
Lemma constrain_Htot : forall B h T p,
  start_ok st0 B0 H0 -> nr B = n -> nr h = nc B -> nc h = nc B ->
  isometry B -> B * B^+ == proj B0 -> lift B h == A0 B0 H0 -> nr T = nc B ->
  let B1 := B * T in let H1 := mconj T h in
  Htot B1 H1 p == proj B1 * Htot B0 H0 p * proj B1.
Proof.
  intros B h T p SO R R1 C1 I BP L RT B1 H1. unfold isometry in I.
  assert (PB : proj B1 * B == B * T * T^+).
  { unfold proj, B1. rewrite madj_mul, !mmul_assoc, I, (@mmul_id_r K (nc B) T^+) by (simpl; auto). reflexivity. }
  assert (PBa : B^+ * proj B1 == T * T^+ * B^+).
  { unfold proj, B1. rewrite madj_mul, !mmul_assoc. rewrite <- (mmul_assoc B^+ B), I, mmul_id_l by (simpl; auto). reflexivity. }
  assert (PP : proj B1 * proj B0 == proj B1).
  { rewrite <- BP, <- mmul_assoc, PB. unfold proj, B1. rewrite madj_mul, !mmul_assoc. reflexivity. }
  assert (PPa : proj B0 * proj B1 == proj B1).
  { rewrite <- BP, mmul_assoc, PBa. unfold proj, B1. rewrite madj_mul, !mmul_assoc. reflexivity. }
  assert (E0 : proj B1 * A0 B0 H0 * proj B1 == A0 B1 H1).
  { rewrite <- L. unfold lift. rewrite !mmul_assoc. rewrite PBa, <- (mmul_assoc (proj B1) B), PB.
    unfold A0, lift, B1, H1, mconj. rewrite madj_mul, !mmul_assoc. reflexivity. }
  unfold HamProofs.Htot.
  destruct (A0_facts SO) as (X1 & X2 & _). destruct (proj_facts SO) as (X3 & X4 & _).
  assert (Padj : (proj B1)^+ == proj B1) by (unfold proj; rewrite madj_mul, madj_adj; reflexivity).
  transitivity (lift (proj B1) (Hsum (A0 B0 H0) (fun k => proj B0 * op_matrix v_op k st0 * proj B0) (v_keys p))).
  2:{ unfold lift. rewrite Padj. reflexivity. }
  rewrite (@lift_Hsum K Key (proj B1) _ (v_keys p) (A0 B0 H0) n n); auto.
  apply Hsum_ext.
  - unfold lift. rewrite Padj, E0. reflexivity.
  - intros e _. unfold lift. rewrite Padj, !mmul_assoc, PPa. rewrite <- (mmul_assoc (proj B1) (proj B0)), PP. reflexivity.
Qed.

Lemma constrain_hinv : forall s idxs,
  start_ok st0 B0 H0 -> hinv B0 H0 s -> required s = false -> isometry (bv s) ->
  (contained s = true -> nonempty (bv_up s) = true /\ bv s == bv_up s) ->
  NoDup idxs -> (forall i, In i idxs -> i < nc (bv s)) -> idxs <> [] ->
  let T := msel (nc (bv s)) idxs in
  let B1 := bv s * T in let H1 := mconj T (if contained s then ham_up s else ham s) in
  right_fits (nc (bv s)) s = true /\
  start_ok st0 B1 H1 /\ hinv B1 H1 (applyRight T s) /\
  (forall p, Htot B1 H1 p == proj B1 * Htot B0 H0 p * proj B1).
Proof.
  intros s idxs SO H Er I Hc Nd Hb Ne T B1 H1.
  pose proof H as (Hs & Hset & Hreq & Hnc & Hcd & Hcu & Hcn & Hne & Hms & Hcf).
  pose proof (Hreq Er) as (R & R1 & C1 & BP & L).
  assert (TI : isometry T) by (apply sel_isometry; auto).
  assert (TR : nr T = nc (bv s)) by reflexivity.
  assert (SO' := SO). destruct SO' as (_ & _ & _ & _ & Nn & _).
  assert (Tn : nc T <> 0) by (destruct idxs; [congruence|discriminate]).
  set (h := if contained s then ham_up s else ham s) in *.
  assert (Hh : nr h = nc (bv s) /\ nc h = nc (bv s) /\ lift (bv s) h == A0 B0 H0).
  { unfold h. destruct (contained s) eqn:Ec.
    - destruct (Hc eq_refl) as [N E]. destruct (Hcu eq_refl N) as ((Q1 & Q2 & Q3 & Q4 & Q5) & _).
      pose proof E as (_ & E2 & _). split; [lia|]. split; [lia|]. rewrite E. exact Q5.
    - destruct (Hnc eq_refl) as ((Q1 & Q2 & Q3 & Q4 & Q5) & _). auto. }
  destruct Hh as (Hh1 & Hh2 & Hh3).
  assert (CT : forall p, Htot B1 H1 p == proj B1 * Htot B0 H0 p * proj B1).
  { intro p. apply constrain_Htot; auto. }
  assert (IB1 : isometry B1).
  { unfold isometry, B1. rewrite madj_mul, mmul_assoc, <- (mmul_assoc (bv s)^+ (bv s)).
    unfold isometry in I. rewrite I, mmul_id_l by auto. exact TI. }
  assert (SO1 : start_ok st0 B1 H1).
  { split; [exact R|]. split; [reflexivity|]. split; [reflexivity|]. split; [exact IB1|]. split; auto. }
  (* dimensions *)
  assert (RF : right_fits (nc (bv s)) s = true).
  { assert (OF : forall e, In e (ops s) -> square (nc (bv s)) (snd e) = true).
    { intros e He. assert (X : exists B, nc B = nc (bv s) /\ snd e == mconj B (op_matrix v_op (fst e) st0)).
      { destruct (contained s) eqn:Ec.
        - destruct (Hc eq_refl) as [N E]. destruct (Hcu eq_refl N) as [_ Ro]. exists (bv_up s).
          split; [symmetry; apply E|apply Ro; auto].
        - destruct (Hnc eq_refl) as (_ & Ro & _). exists (bv s). split; auto. }
      destruct X as (B & X1 & X2 & X3 & _). unfold square. rewrite X2, X3. simpl. rewrite X1, Nat.eqb_refl. reflexivity. }
    unfold right_fits. apply andb_true_iff. split. { apply forallb_forall. auto. }
    unfold caches_fit. destruct (nonempty (bv_up s)) eqn:N.
    - destruct (contained s) eqn:Ec; [|first [discriminate (Hcf eq_refl)|rewrite (Hcf eq_refl) in N; discriminate N]].
      destruct (Hc eq_refl) as [_ E]. destruct (Hcu eq_refl eq_refl) as ((_ & Q2 & Q3 & _) & _).
      pose proof E as (_ & E2 & _). rewrite Hne. unfold square. rewrite Q2, Q3, <- E2, Nat.eqb_refl. reflexivity.
    - rewrite Hne. reflexivity. }
  split; [exact RF|]. split; [exact SO1|]. split; [|exact CT].
  (* the total operator of the shown matrices *)
  assert (SH : forall X A, nr X = nc (bv s) -> nc X = nc (bv s) -> lift (bv s) X == A -> rep st0 B1 B1 (mconj T X) (proj B1 * A * proj B1)).
  { intros X A RX CX LX. split; [exact R|]. split; [reflexivity|]. split; [reflexivity|]. split; [reflexivity|].
    rewrite <- LX. unfold isometry in I. unfold lift, mconj, proj, B1. rewrite madj_mul, !mmul_assoc.
    rewrite <- (mmul_assoc (bv s)^+ (bv s)), I, (@mmul_id_l K (nc (bv s)) (X * _)) by auto.
    rewrite <- (mmul_assoc (bv s)^+ (bv s)), I, (@mmul_id_l K (nc (bv s)) (T * _)) by auto. reflexivity. }
  assert (RB : rep st0 B1 B1 (mconj T (ham s)) (Htot B1 H1 (par s))).
  { destruct (SH (ham s) (Htot B0 H0 (par s)) R1 C1 L) as (Q1 & Q2 & Q3 & Q4 & Q5).
    split; [exact Q1|]. split; [exact Q2|]. split; [exact Q3|]. split; [exact Q4|]. rewrite Q5. symmetry. apply CT. }
  assert (NZ : msize B1 <> 0 /\ msize (mconj T (ham s)) <> 0).
  { split; unfold msize; simpl; [rewrite R|]; simpl in Tn; nia. }
  assert (NE : nonempty (bv_up (applyRight T s)) = nonempty (bv_up s)).
  { unfold applyRight. cbn -[nonempty mmul mconj]. destruct (nonempty (bv_up s)) eqn:N; auto.
    destruct (contained s) eqn:Ec; [|first [discriminate (Hcf eq_refl)|rewrite (Hcf eq_refl) in N; discriminate N]].
    destruct (Hc eq_refl) as [_ E]. pose proof E as (E1 & _).
    unfold nonempty, msize. simpl. apply negb_true_iff, Nat.eqb_neq. simpl in Tn. nia. }
  split; [exact Hs|]. split. { eapply settled_same; [exact Hset|..]; auto; apply NZ. }
  split; [intros _; exact RB|].
  split. { intros Ec. destruct (Hnc Ec) as (Q & Ro & Hk).
    destruct (Hk Er) as [K1 K2].
    split.
    - change (rep st0 B1 B1 (mconj T (ham s)) (A0 B1 H1)).
      unfold HamProofs.Htot in RB. rewrite K1 in RB. exact RB.
    - split; [|intros _; split; auto; cbn [ops applyRight set_mats transformInteraction set_ops]; rewrite K2; reflexivity].
      intros e He. cbn [ops applyRight set_mats transformInteraction set_ops] in He. rewrite K2 in He. destruct He. }
  split. { intros _. destruct RB as (Q1 & Q2 & Q3 & Q4 & _). auto. }
  split. { intros Ec N. change (contained s = true) in Ec. rewrite NE in N.
    destruct (Hc Ec) as [_ E]. destruct (Hcu Ec N) as ((Q1 & Q2 & Q3 & Q4 & Q5) & Ro).
    assert (Eu : bv_up (applyRight T s) = bv_up s * T).
    { unfold applyRight. cbn -[nonempty mmul mconj]. rewrite N. reflexivity. }
    assert (Ev : ham_up (applyRight T s) = mconj T (ham_up s)).
    { unfold applyRight. cbn -[nonempty mmul mconj]. rewrite Hne, N. reflexivity. }
    rewrite Eu, Ev. split.
    - split; [exact Q1|]. split; [reflexivity|]. split; [reflexivity|].
      split; [unfold proj, B1; rewrite E; reflexivity|].
      unfold A0, H1, h, B1. rewrite Ec, E. reflexivity.
    - intros e He. cbn [ops applyRight set_mats transformInteraction set_ops] in He.
      apply in_map_iff in He. destruct He as (e0 & <- & He0). cbn [fst snd]. rewrite (Ro e0 He0), mconj_mul. reflexivity. }
  split. { intros Ec N. rewrite NE in N. apply Hcn; auto. }
  split. { rewrite NE. unfold applyRight. cbn -[nonempty mmul mconj]. rewrite Hne.
    destruct (nonempty (bv_up s)) eqn:N; [|rewrite Hne; reflexivity].
    unfold nonempty, msize. simpl. apply negb_true_iff, Nat.eqb_neq. simpl in Tn. nia. }
  split. { intro X. rewrite NE. apply Hms. exact X. }
  intro X. rewrite NE. apply Hcf. exact X.
Qed.

(** ** Discarded data *)
Definition discarded (s : sysT) : Prop := contained s = true /\ nonempty (bv_up s) = false.

Lemma discarded_set : forall p s, discarded s -> setParam p s = (s, Throw).
Proof.
  intros p s [C N]. unfold setParam. rewrite N, C. cbn [negb andb]. destruct (negb _); reflexivity.
Qed.

Definition keepsd (f : sysT -> sysT * res unit) : Prop := forall s, discarded s -> discarded (fst (f s)).

Lemma d_set_mats : forall b h bu hu (s : sysT), contained s = true -> nonempty bu = false -> discarded (set_mats b h bu hu s).
Proof. intros. split; auto. Qed.

Lemma d_left : forall T (s : sysT), discarded s -> discarded (applyLeft T s).
Proof. intros T s [C N]. unfold applyLeft. rewrite N. split; auto. Qed.
Lemma d_right : forall T (s : sysT), discarded s -> discarded (applyRight T s).
Proof. intros T s [C N]. unfold applyRight. cbn -[nonempty mmul mconj]. rewrite N. split; auto. Qed.
Lemma d_remove : forall f (s : sysT), discarded s -> discarded (removeStates seqb f s).
Proof. intros f s [C N]. unfold removeStates. apply d_left. split; auto. Qed.

Lemma d_update : keepsd (updateEverything seqb qvalid).
Proof.
  intros s D. unfold updateEverything.
  assert (D1 : discarded (if ranges_empty (rg s) then s else removeStates seqb (fun e => qvalid (rg s) (snd e)) s)).
  { destruct (ranges_empty (rg s)); auto. apply d_remove; auto. }
  set (t := if ranges_empty (rg s) then s else removeStates seqb (fun e => qvalid (rg s) (snd e)) s) in *.
  assert (FIN : forall u : sysT, discarded u -> discarded (fst (if is_nil (toadd u) then (forget u, Ok tt) else (u, Throw)))).
  { intros u Du. destruct (is_nil (toadd u)); auto. }
  destruct (ranges_empty (rg s) && _ && _). { apply FIN; auto. }
  destruct (negb _); auto. apply FIN. apply d_remove, d_right; auto.
Qed.

Lemma d_basis : keepsd (buildBasis seqb qvalid v_init).
Proof.
  intros s D. unfold buildBasis. destruct (negb _); auto.
  match goal with |- context [if ?b then (s, Ok tt) else _] => destruct b; auto end.
  assert (G : forall x : sysT * res unit, discarded (fst x) -> discarded (fst (let '(s1, r) := x in
    match r with Ok _ => if nr (bv s1) =? 0 then (s1, Throw) else if nc (bv s1) =? 0 then (s1, Throw) else (s1, Ok tt) | _ => (s1, r) end))).
  { intros [s1 [[]| |]] Hx; auto. destruct (nr (bv s1) =? 0); auto. destruct (nc (bv s1) =? 0); auto. }
  apply G. destruct (is_nil (states s)); [|apply d_update; auto].
  destruct (v_init _ _) as [tbl [[b h]| |]]; exact D.
Qed.

Lemma d_then : forall f g, keepsd f -> keepsd g -> keepsd (andThen f g).
Proof. intros f g Hf Hg s D. unfold andThen. pose proof (Hf s D) as D1. destruct (f s) as [s1 [[]| |]]; auto. Qed.

Lemma d_build : keepsd XbuildHam.
Proof.
  unfold buildHamiltonian. apply d_then; [apply d_basis|].
  intros s [C N]. destruct (required s); [|split; auto]. rewrite C, N. cbn [negb orb].
  rewrite orb_true_r. split; auto.
Qed.

Lemma d_exec : forall c, keepsd (Xexec c).
Proof.
  intros c s D. destruct c; simpl exec.
  - rewrite discarded_set; auto.
  - exact D.
  - exact D.
  - apply d_basis; auto.
  - apply d_build; auto.
  - revert s D. apply d_then; [apply d_basis|]. intros s [C N]. split; auto.
  - revert s D. apply d_then; [apply d_build|]. intros s [C N]. destruct isdiag; split; auto.
  - revert s D. apply d_then; [apply d_build|]. intros s [C N]. split; auto.
  - revert s D. apply d_then; [apply d_build|]. intros s [C N]. cbv zeta. destruct (negb _); split; auto.
  - revert s D. apply d_then; [apply d_build|]. intros s [C N]. destruct (negb _); [split; auto|].
    cbv zeta. cbn [fst]. unfold transformInteraction at 1. destruct (@d_left (rotator v_rot a s) (transformInteraction (bv s)^+ s)) as [C1 N1]; split; auto.
  - revert s D. apply d_then; [apply d_build|]. intros s [C N]. destruct (has_dup _); [split; auto|].
    destruct (existsb _ _); [split; auto|]. destruct (negb _); [split; auto|]. apply d_right. split; auto.
  - revert s D. apply d_then; [apply d_basis|]. intros s [C N].
    destruct (v_compat _ _); [|split; auto|split; auto]. cbv zeta.
    destruct (negb _); [split; auto|]. destruct (negb _); [split; auto|]. destruct (negb _); [split; auto|].
    destruct (merge_states _ _ _) as [tbl tr].
    destruct (negb _); [split; auto|].
    cbn -[nonempty mmul mappend]. rewrite N. destruct (negb _); [split; auto|].
    destruct (negb _); [split; auto|].
    match goal with |- context [if ?b then _ else _] => destruct b end; [|split; auto].
    match goal with |- context [if ?b then _ else _] => destruct b end; split; auto.
  - revert s D. apply d_then; [apply d_build|]. intros s [C N]. 
    match goal with |- context [match ?e with Ok _ => _ | _ => _ end] => destruct e as [[i j]| |] end; split; auto.
  - revert s D. apply d_then; [apply d_build|]. intros s [C N]. 
    match goal with |- context [match ?e with Ok _ => _ | _ => _ end] => destruct e as [[i j]| |] end; split; auto.
  - revert s D. apply d_then.
    + apply d_then; [apply d_build|]. intros s [C N]. destruct isdiag; split; auto.
    + intros s [C N]. cbv zeta. destruct (_ <? _); split; auto.
Qed.

Lemma d_run : forall l s, discarded s -> discarded (fst (Xrun l s)).
Proof. induction l as [|c l IH]; intros s D; auto. rewrite run_fst. apply IH, d_exec; auto. Qed.

(** What discards: building in memory saving mode, unitarize() of a system with interaction. *)
Lemma memsave_discards : forall s s1 : sysT, settled s -> memsave s = true -> nonempty (bv_up s) = false ->
  required s = true -> XbuildHam s = (s1, Ok tt) -> discarded s1.
Proof.
  intros s s1 St M N R E. unfold buildHamiltonian, andThen in E.
  rewrite (@settled_build K State Param Key seqb qvalid v_init s St) in E. rewrite R, M in E.
  destruct (contained s). { discriminate. }
  destruct (negb _); [discriminate|]. injection E as <-. cbn -[nonempty]. rewrite M. split; auto.
Qed.

Lemma unitarize_discards : forall s s1 s' : sysT, XbuildHam s = (s1, Ok tt) -> contained s1 = true ->
  Xexec CUnitarize s = (s', Ok tt) -> discarded s'.
Proof.
  intros s s1 s' E C H. simpl in H. unfold unitarize, andThen in H. rewrite E in H. cbv zeta in H.
  destruct (negb _); [discriminate|]. injection H as <-. split; auto.
Qed.

End Constrain.
