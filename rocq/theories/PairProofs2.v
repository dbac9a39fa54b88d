(** SystemTwo::initializeBasis: the loops, and the coefficients of the columns. *)
From Verif Require Import Base StateModel StateProofs Matrix LookupModel LookupProofs SystemModel RangeModel BasisProofs
  SystemProofs OverlapProofs OverlapProofs2 PairModel PairProofs.
From Coq Require Import ZArith Lia Bool String Arith List.
Import ListNotations.
Set Implicit Arguments.
Local Open Scope nat_scope.
Local Open Scope list_scope.

Section Loops.
Context {K : StarRing}.
Add Ring Kr7 : (s_ring K).
Variable hs : string -> N.
Variable hi : Z -> N.
Variable hf : Z -> N.
Variable rt : K.
Variable energy : state1 -> res K.
Variables sys1 sys2 : @onesys K.
Variables species1 species2 : string.
Variables sinv sref sperm : parity.
Variable srot : option (list Z).
Variable chosen : list (nat * nat).
Variable thr : K.
Variable rq : @request K state2.
Notation entriesK := (entries hs hi hf rt sinv sref sperm srot).
Notation pair_stepK := (pair_step hs hi hf rt sys1 sys2 sinv sref sperm srot rq).
Notation user_stepK := (user_step rt energy sinv sperm srot rq).

(** The entries of one column, as a list. *)
Definition col_entries (i j : nat) (art : bool) (c1 c2 : list (nat * K)) : res (list (state2 * K)) :=
  fold_right (fun e r => let '((r1, v1), (r2, v2)) := e in
    match nth_error (o_states sys1) r1, nth_error (o_states sys2) r2 with
    | Some a, Some b => do! es <- entriesK i j art a b (smul v1 v2) ; do! rest <- r ; Ok (es ++ rest)
    | _, _ => UB
    end) (Ok []) (list_prod c1 c2).

(** What one pair of columns leads to. *)
Definition pair_plan (ij : nat * nat) : res (option (K * list (state2 * K))) :=
  let '(i, j) := ij in
  match nth_error (o_cols sys1) i, nth_error (o_cols sys2) j, nth_error (o_en sys1) i, nth_error (o_en sys2) j with
  | Some c1, Some c2, Some e1, Some e2 =>
      let art := artificial sys1 c1 || artificial sys2 c2 in
      if skipped (if art then NA else sinv) sperm (Nat.leb i j) (Nat.ltb i j) then Ok None
      else if enValid2 rq (sadd e1 e2) then do! es <- col_entries i j art c1 c2 ; Ok (Some (sadd e1 e2, es))
      else Ok None
  | _, _, _, _ => UB
  end.

Definition planned (U : list state2) (cols : list (list (state2 * K))) (ens : list K) (c : @acc2 K) : Prop :=
  inv (length (p_sq c)) (flatten 0 cols) c /\ p_col c = length cols /\ length ens = length cols /\
  p_ht c = diag_from 0 ens /\ length U <= length (p_sq c) /\ (forall es e, In es cols -> In e es -> inU U (fst e)).

Lemma in_flatten : forall (cols : list (list (state2 * K))) k f, In f (flatten k cols) -> exists es e, In es cols /\ In e es /\ fst e = fst (fst f).
Proof.
  induction cols as [|es cols IH]; intros k f H; cbn in H; [destruct H|]. apply in_app_iff in H. destruct H as [H|H].
  - unfold at_col in H. apply in_map_iff in H. destruct H as (e & <- & He). exists es, e. cbn. auto.
  - destruct (IH _ _ H) as (es' & e & H1 & H2 & H3). exists es', e. cbn. auto.
Qed.

Lemma planned_fl : forall U cols ens c f, planned U cols ens c -> In f (flatten 0 cols) -> inU U (fst (fst f)).
Proof.
  intros U cols ens c f (_ & _ & _ & _ & _ & H) Hf. destruct (in_flatten _ _ _ Hf) as (es & e & H1 & H2 & H3). rewrite <- H3. eauto.
Qed.

Lemma column_spec : forall U i j art xs es fl c, (forall f, In f fl -> inU U (fst (fst f))) -> (forall e, In e es -> inU U (fst e)) ->
  inv (length (p_sq c)) fl c -> length U <= length (p_sq c) ->
  fold_right (fun e r => let '((r1, v1), (r2, v2)) := e in
    match nth_error (o_states sys1) r1, nth_error (o_states sys2) r2 with
    | Some a, Some b => do! es <- entriesK i j art a b (smul v1 v2) ; do! rest <- r ; Ok (es ++ rest)
    | _, _ => UB
    end) (Ok []) xs = Ok es ->
  exists c', loop2 (fun e c =>
    let '((r1, v1), (r2, v2)) := e in
    match nth_error (o_states sys1) r1, nth_error (o_states sys2) r2 with
    | Some a, Some b =>
        match entriesK i j art a b (smul v1 v2) with
        | Ok es => addAll es c
        | Throw => (c, Throw)
        | UB => (c, UB)
        end
    | _, _ => (c, UB)
    end) xs c = (c', Ok tt) /\ inv (length (p_sq c')) (fl ++ at_col (p_col c) es) c' /\ p_col c' = p_col c /\ p_ht c' = p_ht c /\
    length (p_sq c') = length (p_sq c).
Proof.
  intros U i j art. induction xs as [|[[r1 v1] [r2 v2]] xs IH]; intros es fl c Hf He I HU H.
  - cbn in H. injection H as <-. exists c. cbn. rewrite app_nil_r. auto.
  - cbn [fold_right] in H. cbn [loop2]. destruct (nth_error (o_states sys1) r1) as [a|]; [|discriminate].
    destruct (nth_error (o_states sys2) r2) as [b|]; [|discriminate].
    destruct (entriesK i j art a b (smul v1 v2)) as [es0| |]; try discriminate. cbn [bind] in H.
    destruct (fold_right _ _ xs) as [rest| |] eqn:F; try discriminate. cbn [bind] in H. injection H as <-.
    destruct (@addAll_inv K (length (p_sq c)) U es0 fl c I HU Hf) as (c1 & E1 & I1 & C1 & H1).
    { intros e Hin. apply He. apply in_app_iff. auto. }
    rewrite E1. pose proof (i_cap I1) as L1.
    destruct (IH rest (fl ++ at_col (p_col c) es0) c1) as (c2 & E2 & I2 & C2 & H2 & L2); auto.
    + intros f Hin. apply in_app_iff in Hin. destruct Hin as [Hin|Hin]; auto. unfold at_col in Hin. apply in_map_iff in Hin.
      destruct Hin as (e & <- & Hin). cbn. apply He. apply in_app_iff. auto.
    + intros e Hin. apply He. apply in_app_iff. auto.
    + rewrite L1. auto.
    + lia.
    + exists c2. split; [exact E2|]. rewrite at_col_app, app_assoc, <- C1. split; [rewrite <- C1 in I2; exact I2|]. split; [congruence|]. split; [congruence|]. congruence.
Qed.

Lemma inv_frame : forall cap fl (c : @acc2 K) ht col, inv cap fl c -> inv cap fl (Acc2 (p_tbl c) (p_bt c) ht (p_sq c) col).
Proof. intros cap fl c ht col [I1 I2 I3 I4 I5 I6]. constructor; auto. Qed.

Lemma step_planned : forall U cols ens c ij e es, planned U cols ens c -> pair_plan ij = Ok (Some (e, es)) -> (forall x, In x es -> inU U (fst x)) ->
  exists c', pair_stepK ij c = (c', Ok tt) /\ planned U (cols ++ [es]) (ens ++ [e]) c' /\ length (p_sq c') = length (p_sq c).
Proof.
  intros U cols ens c [i j] e es P H Hes. pose proof P as (I & PC & LE & PH & LU & HU). unfold pair_plan in H. unfold pair_step.
  destruct (nth_error (o_cols sys1) i) as [c1|]; [|discriminate]. destruct (nth_error (o_cols sys2) j) as [c2|]; [|discriminate].
  destruct (nth_error (o_en sys1) i) as [e1|]; [|discriminate]. destruct (nth_error (o_en sys2) j) as [e2|]; [|discriminate].
  assert (A : (if artificial sys1 c1 then Ok true else Ok (artificial sys2 c2)) = Ok (artificial sys1 c1 || artificial sys2 c2)) by (destruct (artificial sys1 c1); auto).
  rewrite A. set (art := artificial sys1 c1 || artificial sys2 c2) in *.
  destruct (skipped _ _ _ _); [discriminate|]. destruct (enValid2 rq (sadd e1 e2)); [|discriminate].
  destruct (col_entries i j art c1 c2) as [es0| |] eqn:CE; try discriminate. cbn [bind] in H. injection H as <- <-.
  unfold column. destruct (@column_spec U i j art (list_prod c1 c2) es0 (flatten 0 cols) (next (sadd e1 e2) c)) as (c' & E & I' & C' & H' & L'); auto.
  - intros f Hf. eapply planned_fl; eauto.
  - apply inv_frame. exact I.
  - rewrite E. eexists. split; [reflexivity|]. cbn [closecol p_sq next] in *. split; [|auto].
    split; [|split; [|split; [|split; [|split]]]].
    + apply inv_frame. rewrite flatten_app. cbn [flatten plus]. rewrite app_nil_r, <- PC. exact I'.
    + cbn. rewrite C', app_length. cbn. lia.
    + rewrite !app_length. cbn. lia.
    + cbn [closecol p_ht]. rewrite H'; cbn [p_ht next]; rewrite diag_snoc, PH, LE, PC. reflexivity.
    + cbn [closecol p_sq]. rewrite L'. auto.
    + intros es' x Hin Hx. apply in_app_iff in Hin. destruct Hin as [Hin|[<-|[]]]; eauto.
Qed.

Lemma step_none : forall c ij, pair_plan ij = Ok None -> pair_stepK ij c = (c, Ok tt).
Proof.
  intros c [i j] H. unfold pair_plan in H. unfold pair_step.
  destruct (nth_error (o_cols sys1) i) as [c1|]; [|discriminate]. destruct (nth_error (o_cols sys2) j) as [c2|]; [|discriminate].
  destruct (nth_error (o_en sys1) i) as [e1|]; [|discriminate]. destruct (nth_error (o_en sys2) j) as [e2|]; [|discriminate].
  assert (A : (if artificial sys1 c1 then Ok true else Ok (artificial sys2 c2)) = Ok (artificial sys1 c1 || artificial sys2 c2)) by (destruct (artificial sys1 c1); auto).
  rewrite A. set (art := artificial sys1 c1 || artificial sys2 c2) in *.
  destruct (skipped _ _ _ _); auto. destruct (enValid2 rq (sadd e1 e2)); auto.
  destruct (col_entries i j art c1 c2); discriminate.
Qed.

(** The pairs that give a column, with energy and entries. *)
Fixpoint plan (ps : list (nat * nat)) : res (list ((nat * nat) * (K * list (state2 * K)))) :=
  match ps with
  | [] => Ok []
  | p :: ps' => do! o <- pair_plan p ; do! rest <- plan ps' ; Ok (match o with Some x => (p, x) :: rest | None => rest end)
  end.

Lemma loop_planned : forall U ps cols ens c pl, planned U cols ens c -> plan ps = Ok pl ->
  (forall q x, In q pl -> In x (snd (snd q)) -> inU U (fst x)) ->
  exists c', loop2 pair_stepK ps c = (c', Ok tt) /\
    planned U (cols ++ map (fun q => snd (snd q)) pl) (ens ++ map (fun q => fst (snd q)) pl) c' /\ length (p_sq c') = length (p_sq c).
Proof.
  intros U. induction ps as [|p ps IH]; intros cols ens c pl P H Hq; cbn [plan] in H.
  - injection H as <-. exists c. cbn. rewrite !app_nil_r. auto.
  - destruct (pair_plan p) as [o| |] eqn:PP; try discriminate. cbn [bind] in H. destruct (plan ps) as [rest| |] eqn:PR; try discriminate.
    cbn [bind] in H. injection H as <-. cbn [loop2]. destruct o as [[e es]|].
    + destruct (@step_planned U cols ens c p e es P PP) as (c1 & E1 & P1 & L1).
      { intros x Hx. apply (Hq (p, (e, es))); [left; auto|auto]. }
      rewrite E1. destruct (IH _ _ c1 rest P1 eq_refl) as (c2 & E2 & P2 & L2).
      { intros q x Hin Hx. apply (Hq q x); [right; auto|auto]. }
      exists c2. split; [exact E2|]. split; [|lia]. cbn [map fst snd]. rewrite <- !app_assoc in P2. exact P2.
    + rewrite (step_none c p PP). apply IH; auto.
Qed.

(** Result without user-defined states. *)
Lemma init_spec : forall U pl, rq_add rq = [] -> plan (pairs sys1 sys2 chosen) = Ok pl ->
  length U <= capacity sys1 sys2 rq ->
  (forall q x, In q pl -> In x (snd (snd q)) -> inU U (fst x)) ->
  let cols := map (fun q => snd (snd q)) pl in
  exists ss, distinct2 ss /\ (forall x, In x ss -> exists es e, In es cols /\ In e es /\ fst e = x) /\
    (forall es e, In es cols -> In e es -> exists x, In x ss /\ eq2 x (fst e) = true) /\
  let kept := filter (fun x => sltre thr (weight (concat cols) x)) ss in
  let lk := long thr ss cols in
  exists tbl b h, initBasis2 hs hi hf rt energy sys1 sys2 species1 species2 sinv sref sperm srot chosen thr rq = (tbl, Ok (b, h)) /\
    tbl = combine (seq 0 (length kept)) kept /\
    nr b = length kept /\ nc b = length lk /\ nr h = length lk /\ nc h = length lk /\
    (forall r k x q, nth_error kept r = Some x -> nth_error lk k = Some q -> at_ b r k = coef (nth q cols []) x) /\
    (forall k k' q, nth_error lk k = Some q -> (k' < length lk)%nat ->
       at_ h k k' = if Nat.eqb k k' then nth q (map (fun q => fst (snd q)) pl) s0 else s0).
Proof.
  intros U pl RA PL LU Hq cols. unfold initBasis2.
  destruct (@loop_planned U (pairs sys1 sys2 chosen) [] [] (Acc2 [] [] [] (repeat s0 (capacity sys1 sys2 rq)) 0) pl) as (c & E & P & L); auto.
  { split; [cbn [p_sq]; rewrite repeat_length; apply inv_init|]. cbn. rewrite repeat_length. repeat split; auto. intros es e []. }
  rewrite E, RA. cbn [loop2]. cbn [app] in P. fold cols in P. pose proof P as (I & PC & LE & PH & LU' & HU).
  exists (map snd (p_tbl c)). split; [apply I|]. split.
  { intros x Hx. destruct (i_src I x Hx) as (f & Hf & <-). destruct (in_flatten _ _ _ Hf) as (es & e & H1 & H2 & H3). eauto. }
  split.
  { intros es e He1 He2. pose proof (i_bt I) as F2.
    assert (X : forall f, In f (flatten 0 cols) -> exists x, In x (map snd (p_tbl c)) /\ eq2 x (fst (fst f)) = true).
    { clear - F2. induction F2 as [|t f bt fl R F IH]; [intros f []|]. intros g [<-|Hg]; auto.
      destruct R as (_ & _ & y & Hy & Ey). exists y. split; auto. eapply nth_error_In; eauto. }
    assert (Y : exists f, In f (flatten 0 cols) /\ fst (fst f) = fst e).
    { clear - He1 He2. generalize 0. induction cols as [|es' cs IH]; [destruct He1|]. intros k. destruct He1 as [->|He1].
      - exists (fst e, k, snd e). split; auto. cbn. apply in_app_iff. left. unfold at_col. apply in_map_iff. exists e. auto.
      - destruct (IH He1 (S k)) as (f & Hf & Ef). exists f. split; auto. cbn. apply in_app_iff. auto. }
    destruct Y as (f & Hf & <-). auto. }
  assert (LT : length (p_tbl c) <= length (p_sq c)).
  { rewrite <- (map_length snd). transitivity (length U); auto. apply distinct2_le; [apply I|].
    intros x Hx. destruct (i_src I x Hx) as (f & Hf & <-). eapply planned_fl; eauto. }
  exact (@finish_spec K thr (length (p_sq c)) cols _ c I PC LE PH LT).
Qed.
End Loops.
