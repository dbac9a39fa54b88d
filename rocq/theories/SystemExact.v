(** Exact effect of restrictions, constrainBasisvectors, add and unitarize
    (used by PropSystem.v). *)
From Verif Require Import Base Matrix LookupModel LookupProofs SystemModel SystemProofs.
From Coq Require Import ZArith Lia Bool Arith Setoid Morphisms List.
Import ListNotations.
Set Implicit Arguments.

(** ** Lists *)

Lemma nth_map_seq : forall A (f : nat -> A) n k d, k < n -> nth k (map f (seq 0 n)) d = f k.
Proof.
  intros. rewrite (@nth_indep _ _ k d (f 0)) by (rewrite map_length, seq_length; auto).
  rewrite map_nth, seq_nth by auto. reflexivity.
Qed.

Lemma list_nth_map : forall A (l : list A) d, l = map (fun k => nth k l d) (seq 0 (length l)).
Proof.
  intros A l d. apply nth_ext with (d := d) (d' := d).
  - rewrite map_length, seq_length. auto.
  - intros k Hk. rewrite nth_map_seq; auto.
Qed.

Lemma filter_map_comm : forall A B (g : A -> B) (f : B -> bool) l,
  filter f (map g l) = map g (filter (fun a => f (g a)) l).
Proof. induction l; simpl; auto. rewrite IHl. destruct (f (g a)); auto. Qed.

Lemma filter_ext_in : forall A (f g : A -> bool) l, (forall a, In a l -> f a = g a) -> filter f l = filter g l.
Proof.
  induction l; simpl; intros; auto. rewrite (H a) by auto. rewrite IHl; auto.
Qed.

(** The entries kept by a filter on an aligned table, by their positions. *)
Lemma filter_aligned : forall A (f : nat * A -> bool) tbl d, aligned tbl ->
  map fst (filter f tbl) = filter (fun i => f (i, nth i (map snd tbl) d)) (seq 0 (length tbl)) /\
  map snd (filter f tbl) = map (fun i => nth i (map snd tbl) d)
     (filter (fun i => f (i, nth i (map snd tbl) d)) (seq 0 (length tbl))).
Proof.
  intros A f tbl d Al.
  assert (E : tbl = map (fun i => (i, nth i (map snd tbl) d)) (seq 0 (length tbl))).
  { apply nth_ext with (d := (0, d)) (d' := (0, d)).
    - rewrite map_length, seq_length. auto.
    - intros k Hk. rewrite nth_map_seq by auto.
      assert (Hf : nth k (map fst tbl) 0 = k) by (rewrite Al, seq_nth; auto).
      pose proof (map_nth fst tbl (0, d) k) as M1. pose proof (map_nth snd tbl (0, d) k) as M2.
      simpl in M1, M2. destruct (nth k tbl (0, d)) as [a b]. simpl in *. congruence. }
  set (g := fun i => (i, nth i (map snd tbl) d)) in *.
  assert (F : filter f tbl = map g (filter (fun i => f (g i)) (seq 0 (length tbl)))).
  { rewrite E at 1. apply filter_map_comm. }
  rewrite F, !map_map. split.
  - unfold g at 1. simpl. rewrite map_id. reflexivity.
  - reflexivity.
Qed.

Section Ex.
Context {K : StarRing}.
Local Open Scope star_scope.
Add Ring Kr2 : (s_ring K).

(** Sum over a list of positions. *)
Fixpoint lsum (l : list nat) (f : nat -> K) : K :=
  match l with [] => 0 | x :: l' => f x + lsum l' f end.

Lemma lsum_app : forall l1 l2 f, lsum (l1 ++ l2) f = lsum l1 f + lsum l2 f.
Proof. induction l1; intros; simpl; [ring|]. rewrite IHl1; ring. Qed.

Lemma bsum_list : forall l f d, bsum (length l) (fun k => f (nth k l d)) = lsum l f.
Proof.
  intros l f d. induction l as [|x l IH] using rev_ind; simpl; auto.
  rewrite app_length, lsum_app. simpl. rewrite Nat.add_1_r. simpl.
  rewrite app_nth2, Nat.sub_diag by auto. simpl. rewrite <- IH.
  rewrite (@bsum_ext K (length l) (fun k => f (nth k (l ++ [x]) d)) (fun k => f (nth k l d))).
  - ring.
  - intros. rewrite app_nth1; auto.
Qed.

Lemma bsum_lsum : forall n f, bsum n f = lsum (seq 0 n) f.
Proof.
  intros. rewrite <- (@bsum_list (seq 0 n) f 0%nat), seq_length. apply bsum_ext.
  intros. rewrite seq_nth; auto.
Qed.

(** Left multiplication by the adjoint of a selection matrix picks rows. *)
Lemma sel_rows : forall (A : mat K) L i j, (i < length L)%nat -> (nth i L (nr A) < nr A)%nat ->
  at_ (mmul (madj (msel (nr A) L)) A) i j = at_ A (nth i L (nr A)) j.
Proof.
  intros A L i j Hi Hn. simpl. rewrite Nat.min_id.
  rewrite <- (@bsum_delta_l K (nr A) (nth i L (nr A)) (fun k => at_ A k j)) by auto.
  apply bsum_ext. intros. rewrite delta_conj, delta_sym. reflexivity.
Qed.

Lemma sel_cols : forall (A : mat K) n L i k, nc A = n -> (k < length L)%nat -> (nth k L n < n)%nat ->
  at_ (mmul A (msel n L)) i k = at_ A i (nth k L n).
Proof. intros A n L i k <- Hk Hn. apply mmul_sel; auto. Qed.

Lemma sel_conj : forall (A : mat K) n L i j, nr A = n -> nc A = n ->
  (i < length L)%nat -> (j < length L)%nat -> (nth i L n < n)%nat -> (nth j L n < n)%nat ->
  at_ (mconj (msel n L) A) i j = at_ A (nth i L n) (nth j L n).
Proof.
  intros A n L i j R C Hi Hj Hi' Hj'. unfold mconj.
  rewrite sel_cols; auto. subst n. rewrite sel_rows; auto.
Qed.

(** Block of a matrix given by lists of rows and columns. *)
Definition block (A : mat K) (R C : list nat) : mat K :=
  Mat (length R) (length C) (fun i j => at_ A (nth i R (nr A)) (nth j C (nc A))).

Lemma sel_rows_block : forall (A : mat K) L, (forall i, In i L -> (i < nr A)%nat) ->
  meq (mmul (madj (msel (nr A) L)) A) (block A L (seq 0 (nc A))).
Proof.
  intros A L H. split; [reflexivity|]. split; [simpl; rewrite seq_length; auto|].
  intros i j Hi Hj. simpl nr in Hi. simpl nc in Hj. rewrite sel_rows; auto.
  - simpl. rewrite seq_nth; auto.
  - apply H, nth_In; auto.
Qed.

Lemma sel_cols_block : forall (A : mat K) L, (forall i, In i L -> (i < nc A)%nat) ->
  meq (mmul A (msel (nc A) L)) (block A (seq 0 (nr A)) L).
Proof.
  intros A L H. split; [simpl; rewrite seq_length; auto|]. split; [reflexivity|].
  intros i j Hi Hj. simpl nr in Hi. simpl nc in Hj. rewrite sel_cols; auto.
  - simpl. rewrite seq_nth; auto.
  - apply H, nth_In; auto.
Qed.

Lemma sel_conj_block : forall (A : mat K) n L, nr A = n -> nc A = n -> (forall i, In i L -> (i < n)%nat) ->
  meq (mconj (msel n L) A) (block A L L).
Proof.
  intros A n L R C H. split; [reflexivity|]. split; [reflexivity|].
  intros i j Hi Hj. simpl in Hi, Hj. rewrite sel_conj; auto; try (apply H, nth_In; auto).
  simpl. rewrite R, C. reflexivity.
Qed.
End Ex.

Section Upd.
Context {K : StarRing} {State Param Key : Type}.
Variable seqb : State -> State -> bool.
Variable qvalid : ranges -> State -> bool.
Notation sysT := (@sys K State Param Key).

(** *** Specification of what a late restriction keeps (C24) *)
Section Spec.
Variable s : sysT.
Variable d : State.

(** Weight of one coefficient. *)
Definition weight (i j : nat) : K := smul (sconj (at_ (bv s) i j)) (at_ (bv s) i j).
(** States whose quantum numbers are allowed. *)
Definition rows1 : list nat :=
  if ranges_empty (rg s) then seq 0 (length (states s))
  else filter (fun i => qvalid (rg s) (nth i (map snd (states s)) d)) (seq 0 (length (states s))).
(** The energy window: open at both ends, a missing bound does not restrict. *)
Definition in_window (lower upper : option K) (e : K) : bool :=
  match lower, upper with
  | None, None => true
  | Some a, None => sltre a e
  | None, Some b => sltre e b
  | Some a, Some b => sltre a e && sltre e b
  end.
(** Basis vectors of allowed energy whose norm on the allowed states exceeds the threshold. *)
Definition cols : list nat :=
  filter (fun j => in_window (emin s) (emax s) (at_ (ham s) j j) && sltre (thr s) (lsum rows1 (fun i => weight i j)))
    (seq 0 (nc (bv s))).
(** Allowed states with enough weight in the kept basis vectors. *)
Definition rows2 : list nat :=
  filter (fun i => sltre (thr s) (lsum cols (fun j => weight i j))) rows1.
End Spec.

Lemma rows1_lt : forall s d i, In i (rows1 s d) -> i < length (states s).
Proof.
  intros s d i. unfold rows1. destruct (ranges_empty _); [|rewrite filter_In]; rewrite in_seq; lia.
Qed.
Lemma cols_lt : forall s d i, In i (cols s d) -> i < nc (bv s).
Proof. intros s d i. unfold cols. rewrite filter_In, in_seq. lia. Qed.
Lemma rows2_sub : forall s d i, In i (rows2 s d) -> In i (rows1 s d).
Proof. intros s d i. unfold rows2. rewrite filter_In. tauto. Qed.

Lemma combine_seq_map : forall A (l : list A) d k,
  combine (seq k (length l)) l = map (fun i => (k + i, nth i l d)) (seq 0 (length l)).
Proof.
  induction l; intros; simpl; auto. rewrite Nat.add_0_r. f_equal.
  rewrite (IHl d (S k)), <- seq_shift, map_map. apply map_ext. intros. f_equal. lia.
Qed.

(** removeStates by positions. *)
Lemma remove_exact : forall f (s : sysT) d, table_ok seqb (states s) -> nr (bv s) = length (states s) ->
  let L := filter (fun i => f (i, nth i (map snd (states s)) d)) (seq 0 (length (states s))) in
  states (removeStates seqb f s) = combine (seq 0 (length L)) (map (fun i => nth i (map snd (states s)) d) L) /\
  bv (removeStates seqb f s) = mmul (madj (msel (nr (bv s)) L)) (bv s) /\
  bv_up (removeStates seqb f s) = (if nonempty (bv_up s) then mmul (madj (msel (nr (bv s)) L)) (bv_up s) else bv_up s).
Proof.
  intros f s d [A D] R L.
  destruct (@filter_aligned State f (states s) d A) as [F1 F2]. fold L in F1, F2.
  pose proof (@enum_push_spec State seqb (filter f (states s)) [] (@table_nil State seqb)) as EP. simpl in EP.
  destruct EP as [E _]. { apply distinct_filter; auto. }
  split.
  - unfold removeStates. cbn [states applyLeft set_mats set_states]. rewrite E, F2.
    f_equal. f_equal. rewrite <- (map_length snd), F2, map_length. reflexivity.
  - unfold removeStates. cbn [bv bv_up applyLeft set_mats set_states]. rewrite F1. auto.
Qed.

Lemma filter_nth_map : forall (p : nat -> bool) L d,
  map (fun k => nth k L d) (filter (fun k => p (nth k L d)) (seq 0 (length L))) = filter p L.
Proof.
  intros. rewrite <- filter_map_comm. f_equal. symmetry. apply list_nth_map.
Qed.

Lemma combine_snd : forall A (l : list A) k, map snd (combine (seq k (length l)) l) = l.
Proof. induction l; intros; simpl; f_equal; auto. Qed.
Lemma combine_fst : forall A (l : list A) k, map fst (combine (seq k (length l)) l) = seq k (length l).
Proof. induction l; intros; simpl; f_equal; auto. Qed.

Lemma nth_map_in : forall A (f : nat -> A) L k d1 d2, k < length L -> nth k (map f L) d1 = f (nth k L d2).
Proof.
  intros. rewrite (@nth_indep _ _ k d1 (f d2)) by (rewrite map_length; auto). apply map_nth.
Qed.


(** First step: rows excluded by quantum numbers are removed. *)
Lemma step1_exact : forall (s : sysT) d, wfs seqb s ->
  let t1 := if ranges_empty (rg s) then s else removeStates seqb (fun e => qvalid (rg s) (snd e)) s in
  states t1 = combine (seq 0 (length (rows1 s d))) (map (fun i => nth i (map snd (states s)) d) (rows1 s d)) /\
  nr (bv t1) = length (rows1 s d) /\ nc (bv t1) = nc (bv s) /\
  (forall k j, k < length (rows1 s d) -> at_ (bv t1) k j = at_ (bv s) (nth k (rows1 s d) (nr (bv s))) j).
Proof.
  intros s d (T & RB & _) t1. unfold t1, rows1. clear t1.
  destruct (ranges_empty (rg s)) eqn:Er.
  - rewrite seq_length. split; [|split; [|split]]; auto.
    + pose proof (@list_nth_map State (map snd (states s)) d) as M. rewrite map_length in M.
      rewrite <- M. destruct T as [A _]. rewrite <- A.
      clear. induction (states s) as [|[a b] l IH]; simpl; f_equal; auto.
    + intros. rewrite seq_nth; auto.
  - destruct (@remove_exact (fun e => qvalid (rg s) (snd e)) s d T RB) as (E1 & E2 & _).
    cbn [snd] in E1, E2. revert E1 E2.
    set (L := filter (fun i => qvalid (rg s) (nth i (map snd (states s)) d)) (seq 0 (length (states s)))).
    intros E1 E2.
    assert (HL : forall i, In i L -> i < nr (bv s)).
    { intros i Hi. unfold L in Hi. apply filter_In in Hi. rewrite in_seq in Hi. lia. }
    split; [exact E1|]. rewrite E2. split; [reflexivity|]. split; [reflexivity|].
    intros k j Hk. apply sel_rows; auto. apply HL, nth_In; auto.
Qed.

Lemma kept_cols_exact : forall (s : sysT) d, wfs seqb s ->
  let t1 := if ranges_empty (rg s) then s else removeStates seqb (fun e => qvalid (rg s) (snd e)) s in
  kept_cols t1 = cols s d.
Proof.
  intros s d W t1. destruct (@step1_exact s d W) as (_ & S2 & S3 & S4). fold t1 in S2, S3, S4.
  assert (E : ham t1 = ham s /\ emin t1 = emin s /\ emax t1 = emax s /\ thr t1 = thr s)
    by (unfold t1; destruct (ranges_empty (rg s)); auto).
  destruct E as (E1 & E2 & E3 & E4).
  unfold kept_cols, cols. rewrite S3. apply filter_ext_in. intros j _.
  assert (EV : energyValid t1 (at_ (ham t1) j j) = in_window (emin s) (emax s) (at_ (ham s) j j)).
  { unfold energyValid, in_window. rewrite E1, E2, E3.
    destruct (emin s), (emax s); auto. apply andb_true_r. }
  rewrite EV, E4. f_equal. f_equal. unfold colsq. rewrite S2.
  rewrite <- (@bsum_list K (rows1 s d) (fun i => weight s i j) (nr (bv s))).
  apply bsum_ext. intros k Hk. unfold weight. rewrite S4; auto.
Qed.

Theorem update_exact : forall (s : sysT) d,
  wfs seqb s -> toadd s = [] ->
  ranges_empty (rg s) && (match emin s with None => true | _ => false end)
                      && (match emax s with None => true | _ => false end) = false ->
  snd (updateEverything seqb qvalid s) <> UB ->
  let R := rows2 s d in let C := cols s d in
  let s' := fst (updateEverything seqb qvalid s) in
  snd (updateEverything seqb qvalid s) = Ok tt /\
  states s' = combine (seq 0 (length R)) (map (fun i => nth i (map snd (states s)) d) R) /\
  meq (bv s') (block (bv s) R C) /\ meq (ham s') (block (ham s) C C) /\
  rg s' = no_ranges /\ emin s' = None /\ emax s' = None /\ toadd s' = [] /\
  par s' = par s /\ contained s' = contained s /\ required s' = required s.
Proof.
  intros s d W Ht Hr Hub R C s'.
  destruct (@step1_exact s d W) as (S1 & S2 & S3 & S4).
  pose proof (@kept_cols_exact s d W) as KC.
  unfold s' in *. clear s'. unfold updateEverything in *. rewrite Hr in *.
  set (t1 := if ranges_empty (rg s) then s else removeStates seqb (fun e => qvalid (rg s) (snd e)) s) in *.
  assert (W1 : wfs seqb t1) by (unfold t1; destruct (ranges_empty (rg s)); auto; apply wfs_removeStates; auto).
  assert (E : ham t1 = ham s /\ thr t1 = thr s /\ toadd t1 = [] /\ par t1 = par s /\
     contained t1 = contained s /\ required t1 = required s)
    by (unfold t1; destruct (ranges_empty (rg s)); repeat split; auto).
  destruct E as (E1 & E2 & E3 & E4 & E5 & E6).
  destruct (negb (right_fits (nc (bv t1)) t1)). { simpl in Hub. congruence. }
  cbn zeta in *. rewrite KC in *. fold C in Hub |- *.
  set (t := applyRight (msel (nc (bv t1)) C) t1) in *.
  assert (Wt : wfs seqb t) by (apply wfs_applyRight; auto).
  assert (HC : forall i, In i C -> i < nc (bv t1)) by (intros; rewrite S3; eapply cols_lt; eauto).
  destruct Wt as (Tt & Rt & _).
  assert (St : states t = states t1) by reflexivity.
  assert (Lt : length (states t) = length (rows1 s d)).
  { rewrite St, S1, combine_length, seq_length, map_length, Nat.min_id. auto. }
  set (f := fun e : nat * State => sltre (thr t) (rowsq (bv t) (fst e))).
  destruct (@remove_exact f t d Tt Rt) as (F1 & F2 & _). cbn zeta in F1, F2.
  change (toadd (removeStates seqb f t)) with (toadd t1). rewrite E3.
  cbn [is_nil fst snd].
  assert (AT : forall k j, k < length (rows1 s d) -> j < length C ->
     at_ (bv t) k j = at_ (bv s) (nth k (rows1 s d) (nr (bv s))) (nth j C (nc (bv s)))).
  { intros k j Hk Hj. unfold t. cbn [bv applyRight set_mats transformInteraction set_ops].
    rewrite sel_cols; auto; [|apply HC, nth_In; auto]. rewrite S4 by auto. f_equal. rewrite S3. auto. }
  (* rows of the second removal *)
  set (L := filter (fun i => f (i, nth i (map snd (states t)) d)) (seq 0 (length (states t)))) in *.
  assert (EL : map (fun k => nth k (rows1 s d) (nr (bv s))) L = R).
  { unfold R, rows2. rewrite <- (@filter_nth_map _ (rows1 s d) (nr (bv s))). f_equal.
    unfold L. rewrite Lt. apply filter_ext_in. intros k Hk. apply in_seq in Hk. unfold f. cbn [fst].
    f_equal. { exact E2. }
    unfold rowsq. rewrite <- (@bsum_list K (cols s d) _ (nc (bv s))).
    apply bsum_ext. intros j Hj. unfold weight. rewrite AT; auto. lia. }
  assert (LL : length L = length R) by (rewrite <- EL, map_length; auto).
  assert (HL : forall k, In k L -> k < length (rows1 s d)).
  { intros k Hk. unfold L in Hk. apply filter_In in Hk. rewrite in_seq in Hk. lia. }
  assert (NL : forall k, k < length R -> nth k R (nr (bv s)) = nth (nth k L (nr (bv t))) (rows1 s d) (nr (bv s))).
  { intros k Hk. rewrite <- EL. rewrite (@nth_map_in _ _ L k (nr (bv s)) (nr (bv t))); auto. lia. }
  split; [reflexivity|].
  split; [|split; [|split]].
  - cbn [states forget set_restr]. rewrite F1, LL. f_equal. rewrite <- EL, map_map.
    apply map_ext_in. intros k Hk. rewrite St, S1.
    rewrite <- (@map_length _ _ (fun i => nth i (map snd (states s)) d) (rows1 s d)).
    rewrite combine_snd.
    apply (@nth_map_in _ (fun i => nth i (map snd (states s)) d)). auto.
  - cbn [bv forget set_restr]. rewrite F2. split; [simpl; auto|]. split; [reflexivity|].
    intros i j Hi Hj. simpl nr in Hi. simpl nc in Hj.
    assert (Hi' : nth i L (nr (bv t)) < length (rows1 s d)) by (apply HL, nth_In; auto).
    rewrite sel_rows; auto.
    + rewrite AT; auto. cbn [block at_]. rewrite NL; [reflexivity|]. simpl in Hi; lia.
    + eapply Nat.lt_le_trans; [exact Hi'|]. lia.
  - cbn [ham forget set_restr]. change (ham (removeStates seqb f t)) with (mconj (msel (nc (bv t1)) C) (ham t1)).
    rewrite E1. destruct W as (_ & _ & H1 & H2 & _). apply sel_conj_block; auto; congruence.
  - repeat split; auto.
Qed.
End Upd.
