(** Invariants of the system life cycle (C23, C24, C25, C33, C37, C39). *)
From Verif Require Import Base Matrix LookupModel LookupProofs SystemModel.
From Coq Require Import ZArith Lia Bool Arith Setoid Morphisms List.
Import ListNotations.
Set Implicit Arguments.

Section Tbl.
Context {State : Type}.
Variable seqb : State -> State -> bool.

Definition aligned (tbl : list (nat * State)) : Prop := map fst tbl = seq 0 (length tbl).
Definition distinct_states (l : list State) : Prop := ForallOrdPairs (fun a b => seqb a b = false) l.
Definition table_ok (tbl : list (nat * State)) : Prop := aligned tbl /\ distinct_states (map snd tbl).

Lemma table_nil : table_ok [].
Proof. split; [reflexivity|constructor]. Qed.

Lemma aligned_snoc : forall tbl x, aligned tbl -> aligned (tbl ++ [(length tbl, x)]).
Proof.
  unfold aligned. intros. rewrite map_app, H, app_length. simpl. rewrite Nat.add_1_r, seq_S. reflexivity.
Qed.

Lemma distinct_snoc : forall l x, distinct_states l -> (forall a, In a l -> seqb a x = false) ->
  distinct_states (l ++ [x]).
Proof.
  unfold distinct_states. induction l; intros x D H; simpl.
  - constructor; [constructor|constructor].
  - inversion D; subst. constructor.
    + rewrite Forall_forall in *. intros y Hy. apply in_app_iff in Hy. destruct Hy as [Hy|[<-|[]]]; auto.
      apply H; left; auto.
    + apply IHl; auto. intros; apply H; right; auto.
Qed.

Lemma table_snoc : forall tbl x, table_ok tbl -> tfind seqb tbl x = None ->
  table_ok (tbl ++ [(length tbl, x)]).
Proof.
  intros tbl x [A D] F. split; [apply aligned_snoc; auto|].
  rewrite map_app. apply distinct_snoc; auto. intros a Ha. apply in_map_iff in Ha.
  destruct Ha as ([i a'] & E & Ha). simpl in E. subst. eapply tfind_none; eauto.
Qed.

Lemma table_push : forall tbl x, table_ok tbl -> table_ok (tpush seqb tbl (length tbl) x).
Proof. intros. unfold tpush. destruct (tfind seqb tbl x) eqn:E; auto. apply table_snoc; auto. Qed.

Lemma distinct_app_inv : forall l1 l2, distinct_states (l1 ++ l2) ->
  distinct_states l1 /\ distinct_states l2 /\ (forall a b, In a l1 -> In b l2 -> seqb a b = false).
Proof.
  induction l1; intros l2 H; simpl in *.
  - split; [constructor|]. split; auto. intros a b [].
  - inversion H as [|? ? H1 H2]; subst. destruct (IHl1 _ H2) as (A & B & C). rewrite Forall_forall in H1.
    split; [constructor; auto|].
    { apply Forall_forall. intros; apply H1. apply in_app_iff; auto. }
    split; auto. intros x y [<-|Hx] Hy; auto. apply H1. apply in_app_iff; auto.
Qed.

Lemma distinct_filter : forall (f : nat * State -> bool) tbl, distinct_states (map snd tbl) ->
  distinct_states (map snd (filter f tbl)).
Proof.
  unfold distinct_states. induction tbl as [|a tbl IH]; intro H; simpl; [constructor|].
  simpl in H. inversion H as [|? ? H1 H2]; subst.
  destruct (f a); simpl; auto. constructor; auto. apply Forall_forall. intros x Hx.
  apply in_map_iff in Hx. destruct Hx as (e & <- & He). apply filter_In in He.
  rewrite Forall_forall in H1. apply H1. apply in_map. tauto.
Qed.

Lemma enum_push_spec : forall l tbl, table_ok tbl -> distinct_states (map snd tbl ++ map snd l) ->
  enum_push seqb tbl (length tbl) l = tbl ++ combine (seq (length tbl) (length l)) (map snd l) /\
  table_ok (enum_push seqb tbl (length tbl) l).
Proof.
  induction l as [|e l IH]; intros tbl T D; simpl.
  - rewrite app_nil_r. auto.
  - assert (F : tfind seqb tbl (snd e) = None).
    { destruct (tfind seqb tbl (snd e)) eqn:E; auto. apply tfind_some in E. destruct E as (s & Hin & E).
      destruct (@distinct_app_inv (map snd tbl) (map snd (e :: l)) D) as (_ & _ & C). rewrite C in E; [discriminate| |left; auto].
      apply in_map_iff. exists (n, s); auto. }
    unfold tpush. rewrite F.
    pose proof (@table_snoc tbl (snd e) T F) as T'.
    specialize (IH (tbl ++ [(length tbl, snd e)]) T').
    rewrite app_length in IH. simpl in IH. rewrite Nat.add_1_r in IH.
    destruct IH as [I1 I2].
    { rewrite map_app, <- app_assoc. simpl. exact D. }
    rewrite I1, <- app_assoc. simpl. split; auto. rewrite I1, <- app_assoc in I2. exact I2.
Qed.

Lemma enum_push_length : forall l, distinct_states (map snd l) ->
  length (enum_push seqb [] 0 l) = length l /\ table_ok (enum_push seqb [] 0 l) /\
  map snd (enum_push seqb [] 0 l) = map snd l.
Proof.
  intros l D. destruct (@enum_push_spec l [] table_nil D) as [E T]. simpl in *.
  split. { rewrite E, combine_length, seq_length, map_length. lia. }
  split; auto. rewrite E. clear. generalize 0%nat. induction l; intros; simpl; auto. f_equal; auto.
Qed.

Lemma label_push_bound : forall lab n tbl k, length (label_push seqb lab tbl k n) <= length tbl + n.
Proof.
  induction n; intros; simpl; [lia|]. specialize (IHn (tpush seqb tbl k (lab k)) (S k)).
  assert (length (tpush seqb tbl k (lab k)) <= S (length tbl)).
  { unfold tpush. destruct (tfind _ _ _); [lia|]. rewrite app_length. simpl. lia. }
  lia.
Qed.

Lemma label_push_full : forall lab n tbl k, k = length tbl -> table_ok tbl ->
  length (label_push seqb lab tbl k n) = length tbl + n ->
  table_ok (label_push seqb lab tbl k n) /\
  label_push seqb lab tbl k n = tbl ++ map (fun i => (i, lab i)) (seq k n).
Proof.
  induction n; intros tbl k -> T E; simpl in *.
  - rewrite app_nil_r. auto.
  - unfold tpush in *. destruct (tfind seqb tbl (lab (length tbl))) eqn:F.
    + pose proof (label_push_bound lab n tbl (S (length tbl))). lia.
    + destruct (IHn (tbl ++ [(length tbl, lab (length tbl))]) (S (length tbl))) as [A B].
      * rewrite app_length; simpl; lia.
      * apply table_snoc; auto.
      * rewrite app_length; simpl; lia.
      * split; auto. rewrite B, <- app_assoc. reflexivity.
Qed.

Lemma merge_table : forall (K : StarRing) l tbl, table_ok tbl ->
  table_ok (fst (merge_states (K:=K) seqb tbl l)).
Proof.
  induction l as [|[i x] l IH]; intros tbl T; simpl; auto.
  destruct (tfind seqb tbl x) eqn:F.
  - specialize (IH tbl T). destruct (merge_states seqb tbl l). auto.
  - specialize (IH (tbl ++ [(length tbl, x)]) (@table_snoc tbl x T F)).
    destruct (merge_states seqb (tbl ++ [(length tbl, x)]) l). auto.
Qed.

Lemma aligned_nth : forall tbl i s, aligned tbl -> In (i, s) tbl ->
  nth_error tbl i = Some (i, s) /\ i < length tbl.
Proof.
  intros tbl i s A H. apply In_nth_error in H. destruct H as [k Hk].
  assert (E : nth_error (map fst tbl) k = Some i) by (rewrite nth_error_map, Hk; auto).
  assert (k < length tbl) by (apply nth_error_Some; congruence).
  rewrite A in E. rewrite (@nth_error_nth' _ (seq 0 (length tbl)) k 0) in E by (rewrite seq_length; auto).
  rewrite seq_nth in E by auto. simpl in E. injection E as <-. auto.
Qed.

Lemma aligned_nth2 : forall tbl k e, aligned tbl -> nth_error tbl k = Some e -> fst e = k.
Proof.
  intros tbl k e A Hk.
  assert (E : nth_error (map fst tbl) k = Some (fst e)) by (rewrite nth_error_map, Hk; auto).
  assert (k < length tbl) by (apply nth_error_Some; congruence).
  rewrite A in E. rewrite (@nth_error_nth' _ (seq 0 (length tbl)) k 0) in E by (rewrite seq_length; auto).
  rewrite seq_nth in E by auto. simpl in E. congruence.
Qed.
End Tbl.

Section SysP.
Context {K : StarRing} {State Param Key Angle : Type}.
Variable seqb : State -> State -> bool.
Variable sgen : State -> bool.
Variable keqb : Key -> Key -> bool.
Variable qvalid : ranges -> State -> bool.
Variable v_init : Param -> @request K State -> list (nat * State) * res (mat K * mat K).
Variable v_keys : Param -> list (Key * K).
Variable v_op : Key -> State -> State -> K.
Variable v_rot : Angle -> list (nat * State) -> list (nat * nat * K).
Variable v_compat : Param -> Param -> res Param.
Variable v_label : list State -> (nat -> K) -> nat -> State.

Notation sysT := (@sys K State Param Key).
Notation Xexec := (exec seqb sgen keqb qvalid v_init v_keys v_op v_rot v_compat v_label).
Notation XbuildBasis := (buildBasis seqb qvalid v_init).
Notation XbuildHam := (buildHamiltonian seqb keqb qvalid v_init v_keys v_op).
Notation XupdateEverything := (updateEverything seqb qvalid).

(** What initializeBasis of a derived class guarantees when it returns normally. *)
Definition init_ok : Prop := forall p rq tbl b h, v_init p rq = (tbl, Ok (b, h)) ->
  table_ok seqb tbl /\ nr b = length tbl /\ nr h = nc b /\ nc h = nc b.

(** Invariant of C23. *)
Definition wfs (s : sysT) : Prop :=
  table_ok seqb (states s) /\ nr (bv s) = length (states s) /\
  nr (ham s) = nc (bv s) /\ nc (ham s) = nc (bv s) /\
  (nonempty (bv_up s) = true -> nr (bv_up s) = length (states s) /\
     (nonempty (ham_up s) = true -> nr (ham_up s) = nc (bv_up s) /\ nc (ham_up s) = nc (bv_up s))).

Lemma nonempty_empty : nonempty (@mempty K) = false.
Proof. reflexivity. Qed.

Lemma wfs_new : forall p ms th, wfs (new_sys p ms th).
Proof. intros. split; [apply table_nil|]. split; [|split; [|split]]; auto. Qed.

Lemma nonempty_nr : forall A : mat K, nonempty A = true -> nr A <> 0 /\ nc A <> 0.
Proof.
  intros A H. unfold nonempty, msize in H. apply negb_true_iff, Nat.eqb_neq in H. nia.
Qed.

Lemma wfs_removeStates : forall f s, wfs s -> wfs (removeStates seqb f s).
Proof.
  intros f s ([A D] & R & H1 & H2 & RU). unfold removeStates.
  destruct (@enum_push_length State seqb (filter f (states s)) (distinct_filter f _ D)) as (E1 & E2 & E3).
  split; [exact E2|]. cbn -[nonempty]. split; [|split; [|split]]; auto.
  - rewrite map_length, E1. auto.
  - destruct (nonempty (bv_up s)) eqn:En.
    + intros _. cbn -[nonempty]. rewrite map_length, E1; split; auto. apply RU; auto.
    + intro H. rewrite H in En. discriminate.
Qed.

Lemma wfs_applyRight : forall T s, wfs s -> wfs (applyRight T s).
Proof.
  intros T s (A & R & H1 & H2 & RU). split; [exact A|]. cbn -[nonempty].
  split; [|split; [|split]]; auto.
  destruct (nonempty (bv_up s)) eqn:En; [|rewrite En; discriminate].
  intros _. destruct (RU eq_refl) as [R1 R2]. split; auto.
  destruct (nonempty (ham_up s)) eqn:Eh; [|rewrite Eh; discriminate].
  intros _. cbn. auto.
Qed.

Lemma wfs_forget : forall s, wfs s -> wfs (forget s).
Proof. intros s H. exact H. Qed.

Lemma wfs_update : forall s, wfs s -> wfs (fst (XupdateEverything s)).
Proof.
  intros s H. unfold updateEverything.
  set (s1 := if ranges_empty (rg s) then s else _).
  assert (W1 : wfs s1) by (unfold s1; destruct (ranges_empty (rg s)); auto; apply wfs_removeStates; auto).
  match goal with |- wfs (fst (if ?b then _ else _)) => destruct b end.
  { destruct (is_nil (toadd s1)); auto. }
  destruct (negb _); auto.
  set (s2 := removeStates _ _ _).
  assert (W2 : wfs s2) by (apply wfs_removeStates, wfs_applyRight; auto).
  destruct (is_nil (toadd s2)); auto.
Qed.

Lemma wfs_buildBasis : init_ok -> forall s, wfs s -> states s <> [] \/ snd (XbuildBasis s) = Ok tt ->
  wfs (fst (XbuildBasis s)).
Proof.
  intros HI s W Hc. unfold buildBasis in *.
  destruct (negb _); auto.
  match goal with |- context [if ?b then (s, Ok tt) else _] => destruct b; auto end.
  destruct (is_nil (states s)) eqn:Es.
  - destruct Hc as [Hc|Hc]. { destruct (states s); [congruence|discriminate]. }
    destruct (v_init _ _) as [tbl [[b h]| |]] eqn:Ei; simpl in Hc; try discriminate.
    destruct (@HI _ _ _ _ _ Ei) as (T & R & R1 & R2).
    assert (W1 : wfs (forget (set_mats b h (bv_up s) (ham_up s) (set_states tbl s)))).
    { split; [exact T|]. split; [exact R|]. split; [exact R1|]. split; [exact R2|].
      destruct W as (_ & _ & _ & _ & W3). cbn -[nonempty].
      destruct (states s); [|discriminate]. intro Hn. destruct (W3 Hn) as [W4 _]. simpl in W4.
      apply nonempty_nr in Hn. lia. }
    destruct (_ =? _); auto. destruct (_ =? _); auto.
  - destruct (XupdateEverything s) as [s1 r] eqn:Eu.
    pose proof (wfs_update W) as W1. rewrite Eu in W1. simpl in W1.
    destruct r; auto. destruct (_ =? _); auto. destruct (_ =? _); auto.
Qed.

Lemma wfs_andThen : forall f g s, wfs (fst (f s)) ->
  (forall s1, wfs s1 -> f s = (s1, Ok tt) -> wfs (fst (g s1))) ->
  wfs (fst (andThen f g s)).
Proof.
  intros f g s H1 H2. unfold andThen. destruct (f s) as [s1 [[]| |]]; auto.
Qed.

Lemma andThen_ok : forall (f g : sysT -> sysT * res unit) s, snd (andThen f g s) = Ok tt ->
  exists s1, f s = (s1, Ok tt) /\ andThen f g s = g s1 /\ snd (g s1) = Ok tt.
Proof.
  intros f g s H. unfold andThen in *. destruct (f s) as [s1 [[]| |]]; try discriminate. eauto.
Qed.

Lemma andThen_fst_ok : forall (f g : sysT -> sysT * res unit) s, snd (andThen f g s) = Ok tt -> snd (f s) = Ok tt.
Proof. intros f g s H. destruct (@andThen_ok f g s H) as (s1 & -> & _). reflexivity. Qed.

Lemma add_dims : forall ks (h : mat K) o n, nr h = n -> nc h = n ->
  forallb (fun e => square n (get_op keqb (fst e) o)) ks = true ->
  let h' := fold_left (fun h e => madd h (mscale (snd e) (get_op keqb (fst e) o))) ks h in
  nr h' = n /\ nc h' = n.
Proof.
  induction ks as [|e ks IH]; intros h o n R C F; simpl in *; auto.
  apply andb_true_iff in F. destruct F as [F1 F2]. unfold square in F1. apply andb_true_iff in F1.
  destruct F1 as [F1 F3]. apply Nat.eqb_eq in F1, F3.
  apply IH; auto; simpl; lia.
Qed.

Lemma wfs_addInteraction : forall s, wfs s -> keys_fit keqb v_keys s = true ->
  wfs (addInteraction keqb v_keys s).
Proof.
  intros s (T & R & H1 & H2 & RU) F. split; [exact T|].
  destruct (@add_dims (v_keys (par s)) (ham s) (ops s) (nr (ham s)) eq_refl) as [A B]; [lia|exact F|].
  split; [exact R|]. cbn -[nonempty]. split; [lia|]. split; [lia|]. exact RU.
Qed.

Lemma wfs_buildHam : init_ok -> forall s, wfs s -> states s <> [] \/ snd (XbuildHam s) = Ok tt ->
  wfs (fst (XbuildHam s)).
Proof.
  intros HI s W Hc. apply wfs_andThen.
  - apply wfs_buildBasis; auto. destruct Hc; auto. right. eapply andThen_fst_ok; eauto.
  - intros s1 W1 _. pose proof W1 as (T & R & H1 & H2 & RU).
    destruct (required s1); auto.
    assert (GO : forall b h bu hu, wfs (set_mats b h bu hu s1) ->
       wfs (fst (let s2 := initializeInteraction keqb v_keys v_op (set_mats b h bu hu s1) in
        if negb (keys_fit keqb v_keys s2) then (s2, UB) else
        let s3 := addInteraction keqb v_keys s2 in
        let s4 := if memsave s3 then deleteInteraction s3 else s3 in
        (set_flags true false s4, Ok tt)))).
    { intros b h bu hu W2. cbn zeta.
      destruct (negb _) eqn:Ek; [exact W2|].
      apply negb_false_iff in Ek. apply wfs_addInteraction in Ek; [|exact W2].
      destruct (memsave _); exact Ek. }
    destruct (contained s1).
    + destruct (memsave s1 || _ || _) eqn:Em; auto.
      apply orb_false_iff in Em. destruct Em as [Em Eh]. apply orb_false_iff in Em. destruct Em as [_ Em].
      apply negb_false_iff in Em, Eh. destruct (RU Em) as [RU1 RU2]. destruct (RU2 Eh) as [RU3 RU4].
      apply GO. split; [exact T|]. split; [exact RU1|]. split; [exact RU3|]. split; [exact RU4|].
      exact RU.
    + destruct (memsave s1) eqn:Em.
      * apply (GO (bv s1) (ham s1) (bv_up s1) (ham_up s1)). exact W1.
      * apply GO. split; [exact T|]. split; [exact R|]. split; [exact H1|]. split; [exact H2|].
        intros _. split; [exact R|]. auto.
Qed.

(** The solver returns square matrices of the dimension of the Hamiltonian;
    the argument of add() is itself a well-formed system. *)
Definition answers_fit (c : @call K State Param Key Angle) (s : sysT) : Prop :=
  match c with
  | CDiag _ U D | CForgetMixing _ U D =>
      let n := nc (bv (fst (XbuildHam s))) in
      nr U = n /\ nc U = n /\ nr D = n /\ nc D = n
  | CAdd o _ => wfs o
  | _ => True
  end.

(** Calls that may throw without disturbing the invariant once the basis is built. *)
Definition keeps (c : @call K State Param Key Angle) : Prop :=
  match c with CAdd _ _ => False | CUnitarize => False | _ => True end.

Lemma wfs_bump : forall i j v s, wfs s -> wfs (bump i j v s).
Proof.
  intros i j v s (T & R & H1 & H2 & RU). split; [exact T|]. split; [exact R|].
  cbn -[nonempty]. split; [lia|]. split; [lia|]. exact RU.
Qed.

Lemma wfs_diag : init_ok -> forall s isdiag U D, wfs s ->
  states s <> [] \/ snd (XbuildHam s) = Ok tt ->
  (let n := nc (bv (fst (XbuildHam s))) in nr U = n /\ nc U = n /\ nr D = n /\ nc D = n) ->
  wfs (fst (diagonalize seqb keqb qvalid v_init v_keys v_op isdiag U D s)).
Proof.
  intros HI s isdiag U D W Hc Hf. apply wfs_andThen.
  - apply wfs_buildHam; auto.
  - intros s1 (T & R & H1 & H2 & RU) E. rewrite E in Hf. simpl in Hf.
    destruct Hf as (F1 & F2 & F3 & F4).
    destruct isdiag; (split; [exact T|]; split; [exact R|]; split; [cbn; lia|]; split; [cbn; lia|exact RU]).
Qed.

Lemma exec_wfs : init_ok -> forall c s, wfs s -> answers_fit c s ->
  snd (Xexec c s) = Ok tt \/ (states s <> [] /\ keeps c) -> wfs (fst (Xexec c s)).
Proof.
  intros HI c s W Ha Hc.
  assert (HB : forall g, snd (Xexec c s) = Ok tt \/ states s <> [] ->
     (forall s0, Xexec c s0 = andThen XbuildHam g s0) -> states s <> [] \/ snd (XbuildHam s) = Ok tt).
  { intros g [H|H] E; auto. right. rewrite E in H. eapply andThen_fst_ok; eauto. }
  assert (Hc' : snd (Xexec c s) = Ok tt \/ states s <> []) by tauto.
  destruct c; simpl exec.
  - unfold setParam. destruct (negb _); auto. destruct (_ && _); auto.
  - exact W.
  - exact W.
  - apply wfs_buildBasis; auto. simpl in Hc'. tauto.
  - apply wfs_buildHam; auto. simpl in Hc'. tauto.
  - apply wfs_andThen; [|intros s1 W1 _; exact W1]. apply wfs_buildBasis; auto. destruct Hc'; auto.
    right. eapply andThen_fst_ok; eauto.
  - apply wfs_diag; auto. eapply HB; eauto. reflexivity.
  - apply wfs_andThen.
    + apply wfs_buildHam; auto. eapply HB; eauto. reflexivity.
    + intros s1 (T & R & H1 & H2 & RU) _. split; [exact T|]; split; [exact R|]. cbn -[nonempty]. auto.
  - destruct Hc as [Hc|[_ []]]. simpl in Hc. destruct (@andThen_ok _ _ _ Hc) as (s1 & E1 & E2 & E3).
    match type of E2 with ?x = _ => change (wfs (fst x)) end. rewrite E2.
    assert (W1 : wfs s1).
    { pose proof (@wfs_buildHam HI s W) as W1. rewrite E1 in W1. apply W1. right; reflexivity. }
    destruct W1 as (T & R & H1 & H2 & RU).
    cbn zeta in *. destruct (negb _) eqn:En; [discriminate|].
    apply negb_false_iff, Nat.eqb_eq in En. cbn in En.
    split; [|split; [reflexivity|split; [cbn; lia|split; [cbn; lia|discriminate]]]]. cbn.
    eapply label_push_full; [reflexivity|apply table_nil|simpl; auto].
  - apply wfs_andThen.
    + apply wfs_buildHam; auto. eapply HB; eauto. reflexivity.
    + intros s1 (T & R & H1 & H2 & RU) _. cbn zeta. destruct (negb _); [split; auto|].
      split; [exact T|]. cbn -[nonempty].
      split; [reflexivity|]. split; [exact H1|]. split; [exact H2|].
      destruct (nonempty (bv_up s1)) eqn:En.
      * intros _. split; [reflexivity|]. apply RU; auto.
      * intro H. rewrite H in En; discriminate.
  - apply wfs_andThen.
    + apply wfs_buildHam; auto. eapply HB; eauto. reflexivity.
    + intros s1 W1 _. destruct (has_dup idxs); auto. destruct (existsb _ _); auto.
      destruct (negb _); auto. apply wfs_applyRight; auto.
  - destruct Hc as [Hc|[_ []]]. simpl in Hc. destruct (@andThen_ok _ _ _ Hc) as (s1 & E1 & E2 & E3).
    match type of E2 with ?x = _ => change (wfs (fst x)) end. rewrite E2.
    assert (W1 : wfs s1).
    { pose proof (@wfs_buildBasis HI s W) as W1. rewrite E1 in W1. apply W1. right; reflexivity. }
    clear E1 E2 Hc. destruct W1 as (T & R & H1 & H2 & RU).
    simpl in Ha. destruct Ha as (oT & oR & oH1 & oH2 & oRU).
    destruct (v_compat _ _); try discriminate. cbn zeta in *.
    destruct (negb _); [discriminate|]. destruct (negb _); [discriminate|]. destruct (negb _); [discriminate|].
    pose proof (@merge_table State seqb K (states other) (states s1) T) as MT.
    cbn [states deleteInteraction set_par set_ops] in *.
    destruct (merge_states seqb (states s1) (states other)) as [tbl tr] eqn:Em.
    simpl in MT. cbn -[nonempty negb Bool.eqb] in *.
    destruct (negb (Bool.eqb (nonempty (bv_up s1)) (nonempty (bv_up other)))) eqn:Eb; [discriminate|].
    apply negb_false_iff, eqb_prop in Eb.
    destruct (nonempty (bv_up s1)) eqn:En; cbn -[nonempty negb Bool.eqb] in *.
    + symmetry in Eb. destruct (RU eq_refl) as [U1 U2]. destruct (oRU Eb) as [oU1 oU2].
      destruct (negb orth); [discriminate|]. cbn -[nonempty negb Bool.eqb] in *.
      destruct (negb _) eqn:Ec in E3 |- *; [discriminate|].
      apply negb_false_iff, eqb_prop in Ec.
      destruct (nonempty (ham_up s1)) eqn:Eh.
      * destruct (U2 eq_refl) as [U3 U4]. symmetry in Ec. destruct (oU2 Ec) as [oU3 oU4].
        cbn -[nonempty negb Bool.eqb Nat.eqb] in *.
        destruct (negb _); [discriminate|].
        split; [exact MT|]; split; [reflexivity|]; split; [cbn; lia|]; split; [cbn; lia|].
        cbn -[nonempty]. intros _. split; [reflexivity|]. intros _. lia.
      * split; [exact MT|]; split; [reflexivity|]; split; [cbn; lia|]; split; [cbn; lia|].
        cbn -[nonempty]. intros _. split; [reflexivity|]. intro H; congruence.
    + destruct (negb orth); [discriminate|]. cbn -[nonempty negb Bool.eqb] in *.
      destruct (negb _) in E3 |- *; [discriminate|].
      destruct (nonempty (ham_up s1)); [cbn -[nonempty negb Bool.eqb Nat.eqb] in *; destruct (negb _); [discriminate|]|];
        (split; [exact MT|]; split; [reflexivity|]; split; [cbn; lia|]; split; [cbn; lia|]; intro H; cbn -[nonempty] in H; congruence).
  - apply wfs_andThen.
    + apply wfs_buildHam; auto. eapply HB; eauto. reflexivity.
    + intros s1 W1 _. destruct (bind _ _) as [[i j]| |]; auto. apply wfs_bump; auto.
  - apply wfs_andThen.
    + apply wfs_buildHam; auto. eapply HB; eauto. reflexivity.
    + intros s1 W1 _. destruct (bind _ _) as [[i j]| |]; auto. apply wfs_bump; auto.
  - apply wfs_andThen.
    + apply wfs_diag; auto. destruct Hc' as [Hc'|Hc']; auto. right.
      apply andThen_fst_ok in Hc'. apply andThen_fst_ok in Hc'. exact Hc'.
    + intros s1 W1 _. cbn zeta. match goal with |- context [if ?b then _ else _] => destruct b end; exact W1.
Qed.

(** Histories in which every call that threw was made on a system with a
    basis and is not add() or unitarize(). *)
Fixpoint tame (l : list (@call K State Param Key Angle)) (s : sysT) : Prop :=
  match l with
  | [] => True
  | c :: l' => answers_fit c s /\ (snd (Xexec c s) = Ok tt \/ (states s <> [] /\ keeps c)) /\
               tame l' (fst (Xexec c s))
  end.

Lemma run_fst : forall c l s,
  fst (run seqb sgen keqb qvalid v_init v_keys v_op v_rot v_compat v_label (c :: l) s) =
  fst (run seqb sgen keqb qvalid v_init v_keys v_op v_rot v_compat v_label l (fst (Xexec c s))).
Proof.
  intros. simpl. destruct (Xexec c s) as [s1 r]. simpl.
  destruct (run _ _ _ _ _ _ _ _ _ _ l s1). reflexivity.
Qed.

Lemma run_wfs : init_ok -> forall l s, wfs s -> tame l s ->
  wfs (fst (run seqb sgen keqb qvalid v_init v_keys v_op v_rot v_compat v_label l s)).
Proof.
  intros HI. induction l as [|c l IH]; intros s W T; [exact W|].
  destruct T as (T0 & T1 & T2). rewrite run_fst. apply IH; auto. apply exec_wfs; auto.
Qed.

End SysP.
