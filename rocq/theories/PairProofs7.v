(** SystemTwo::initializeBasis with states added by the user. *)
From Coq Require Import ZArith Lia Bool String Arith List.
Import ListNotations.
From Verif Require Import Base StateModel StateProofs Matrix LookupModel LookupProofs SystemModel RangeModel BasisProofs
  SystemProofs OverlapProofs OverlapProofs2 PairModel PairSpec PairProofs PairProofs2 PairProofs3 UserSpec.
Set Implicit Arguments.
Local Open Scope nat_scope.
Local Open Scope list_scope.

Section A.
Context {K : StarRing}.
Add Ring Kr14 : (s_ring K).
Local Open Scope star_scope.
Notation acc := (@acc2 K).
Notation flat := (list (state2 * nat * K)).

(** ** Successful calls keep the invariant *)
Lemma addB_keeps : forall cap fl (c c' : acc) x v, inv cap fl c -> (length (p_tbl c) <= cap)%nat -> addB x v c = (c', Ok tt) ->
  inv cap (fl ++ [(x, p_col c, v)]) c' /\ p_col c' = p_col c /\ p_ht c' = p_ht c /\ (length (p_tbl c') <= cap)%nat /\
  (forall z, In z (map snd (p_tbl c')) -> In z (map snd (p_tbl c)) \/ z = x).
Proof.
  intros cap fl c c' x v I L E. pose proof I as [I1 I2 I3 I4 I5 I6]. unfold addB in E.
  destruct (tfind eq2 (p_tbl c) x) as [r|] eqn:F.
  - destruct (tfind_idx _ _ I1 F) as (y & Hy & Ey). destruct (Nat.ltb_spec r (length (p_sq c))) as [Hr|]; [|discriminate].
    injection E as <-. split; [|cbn; auto]. constructor; cbn [p_tbl p_bt p_sq p_col p_ht]; auto.
    + apply Forall2_app_; auto. constructor; [|constructor]. repeat split; cbn; auto. exists y. auto.
    + intros z Hz. destruct (I4 z Hz) as (f & Hf1 & Hf2). exists f. split; auto. apply in_app_iff. auto.
    + intros q Hq. rewrite upd_nth by auto. rewrite lsum_app. cbn. rewrite (I5 q Hq). unfold sqv.
      destruct (Nat.eqb r q); ring.
    + rewrite upd_length. auto.
  - assert (N : forall y, In y (map snd (p_tbl c)) -> eq2 y x = false) by (intros; eapply tfind_not; eauto).
    assert (D : distinct2 (map snd (p_tbl c ++ [(length (p_tbl c), x)]))) by (rewrite map_app; apply distinct2_snoc; auto).
    destruct (Nat.ltb_spec (length (p_tbl c)) (length (p_sq c))) as [Hr|]; [|discriminate]. injection E as <-.
    split; [|cbn; rewrite app_length; cbn; repeat split; auto; [rewrite I6 in Hr; clear - Hr; lia|]].
    2:{ intros z Hz. rewrite map_app in Hz. apply in_app_iff in Hz. destruct Hz as [Hz|[<-|[]]]; auto. }
    constructor; cbn [p_tbl p_bt p_sq p_col p_ht]; auto.
    + rewrite map_app, app_length, I1. cbn. rewrite seq_app. reflexivity.
    + apply Forall2_app_.
      * eapply Forall2_impl_; [|apply I3]. intros t f (T1 & T2 & y & T3 & T4). repeat split; auto. exists y. split; auto.
        rewrite map_app, nth_error_app1; auto. apply nth_error_Some. congruence.
      * constructor; [|constructor]. repeat split; cbn; auto. exists x. split; [|apply eq2_refl].
        rewrite map_app, nth_error_app2; rewrite map_length; auto. rewrite Nat.sub_diag. reflexivity.
    + intros z Hz. rewrite map_app in Hz. apply in_app_iff in Hz. destruct Hz as [Hz|[<-|[]]].
      * destruct (I4 z Hz) as (f & Hf1 & Hf2). exists f. split; auto. apply in_app_iff. auto.
      * eexists. split; [apply in_app_iff; right; left; reflexivity|reflexivity].
    + intros q Hq. rewrite upd_nth by auto. rewrite lsum_app. cbn. rewrite (I5 q Hq). unfold sqv.
      destruct (Nat.eqb (length (p_tbl c)) q); ring.
    + rewrite upd_length. auto.
Qed.

Lemma addAll_keeps : forall cap es fl (c c' : acc), inv cap fl c -> (length (p_tbl c) <= cap)%nat -> addAll es c = (c', Ok tt) ->
  inv cap (fl ++ at_col (p_col c) es) c' /\ p_col c' = p_col c /\ p_ht c' = p_ht c /\ (length (p_tbl c') <= cap)%nat /\
  (forall z, In z (map snd (p_tbl c')) -> In z (map snd (p_tbl c)) \/ In z (map fst es)).
Proof.
  intros cap. induction es as [|[x v] es IH]; intros fl c c' I L E.
  - cbn in E. injection E as <-. cbn. rewrite app_nil_r. split; [exact I|]. split; [reflexivity|]. split; [reflexivity|]. split; [exact L|]. auto.
  - unfold addAll in E. cbn [loop2 fst snd] in E. destruct (addB x v c) as [c1 [[]| |]] eqn:E1; try discriminate.
    destruct (@addB_keeps cap fl c c1 x v I L E1) as (I1 & C1 & H1 & L1 & Z1).
    destruct (IH _ c1 c' I1 L1 E) as (I2 & C2 & H2 & L2 & Z2). cbn [at_col map fst snd]. rewrite C1, <- app_assoc in I2.
    split; [exact I2|]. split; [congruence|]. split; [congruence|]. split; [exact L2|]. intros z Hz. destruct (Z2 z Hz) as [Q|Q]; [|cbn; auto].
    destruct (Z1 z Q) as [|<-]; cbn; auto.
Qed.

(** ** A longer sqnorm_list makes no difference *)
Definition padc (m : nat) (c : acc) : acc := Acc2 (p_tbl c) (p_bt c) (p_ht c) (p_sq c ++ repeat 0 m) (p_col c).
Lemma upd_app : forall (f : K -> K) xs ys i, (i < length xs)%nat -> upd i f (xs ++ ys) = upd i f xs ++ ys.
Proof. induction xs as [|x xs IH]; intros ys [|i] H; cbn in *; try lia; auto. rewrite IH by lia. reflexivity. Qed.
Lemma addB_pad : forall m x v c c', addB x v c = (c', Ok tt) -> addB x v (padc m c) = (padc m c', Ok tt).
Proof.
  intros m x v c c' E. unfold addB in *. cbn [padc p_tbl p_sq p_bt p_ht p_col].
  destruct (match tfind eq2 (p_tbl c) x with Some r => (r, p_tbl c) | None => (length (p_tbl c), p_tbl c ++ [(length (p_tbl c), x)]) end) as [row tbl].
  destruct (Nat.ltb_spec row (length (p_sq c))) as [H|]; [|discriminate]. injection E as <-.
  assert (B : Nat.ltb row (length (p_sq c ++ repeat 0 m)) = true) by (apply Nat.ltb_lt; rewrite app_length; lia). rewrite B.
  rewrite upd_app by auto. reflexivity.
Qed.
Lemma loop2_pad : forall X (f : X -> acc -> acc * res unit) m, (forall x c c', f x c = (c', Ok tt) -> f x (padc m c) = (padc m c', Ok tt)) ->
  forall xs c c', loop2 f xs c = (c', Ok tt) -> loop2 f xs (padc m c) = (padc m c', Ok tt).
Proof.
  intros X f m H. induction xs as [|x xs IH]; intros c c' E; cbn [loop2] in *; [injection E as <-; reflexivity|].
  destruct (f x c) as [c1 [[]| |]] eqn:F; try discriminate. rewrite (H _ _ _ F). auto.
Qed.
End A.

Section Users.
Context {K : StarRing}.
Add Ring Kr15 : (s_ring K).
Local Open Scope star_scope.
Variable hs : string -> N.
Variable hi : Z -> N.
Variable hf : Z -> N.
Variable rt : K.
Variable energy : state1 -> res K.
Variables sys1 sys2 : @onesys K.
Variables species1 species2 : string.
Variables sinv sref sperm : parity.
Variable srot : option (list Z).
Variable chosen : list (nat * nat).
Variable thr : K.
Notation acc := (@acc2 K).

Section Request.
Variable rq : @request K state2.
Notation pair_stepK := (pair_step hs hi hf rt sys1 sys2 sinv sref sperm srot rq).
Notation user_stepK := (user_step rt energy sinv sperm srot rq).

Lemma pair_pad : forall m ij c c', pair_stepK ij c = (c', Ok tt) -> pair_stepK ij (padc m c) = (padc m c', Ok tt).
Proof.
  intros m [i j] c c' E. unfold pair_step in *. destruct (nth_error (o_cols sys1) i) as [c1|]; [|discriminate].
  destruct (if artificial sys1 c1 then Ok true else _) as [art| |]; try discriminate.
  destruct (skipped _ _ _ _); [injection E as <-; reflexivity|].
  destruct (nth_error (o_cols sys2) j) as [c2|]; [|discriminate]. destruct (nth_error (o_en sys1) i) as [e1|]; [|discriminate].
  destruct (nth_error (o_en sys2) j) as [e2|]; [|discriminate]. destruct (enValid2 rq (e1 + e2)); [|injection E as <-; reflexivity].
  destruct (column hs hi hf rt sys1 sys2 sinv sref sperm srot i j art c1 c2 (next (e1 + e2) c)) as [c3 [[]| |]] eqn:C; try discriminate. injection E as <-.
  unfold column in *. change (next (e1 + e2) (padc m c)) with (padc m (next (e1 + e2) c)). apply (@loop2_pad K _ _ m) in C.
  - rewrite C. reflexivity.
  - intros [[r1 v1] [r2 v2]] d d' D. destruct (nth_error (o_states sys1) r1); [|discriminate]. destruct (nth_error (o_states sys2) r2); [|discriminate].
    destruct (entries _ _ _ _ _ _ _ _ _ _ _ _ _ _) as [es| |]; try discriminate. unfold addAll in *. apply (@loop2_pad K _ _ m) in D; auto.
    intros. apply addB_pad; auto.
Qed.

(** ** What the loop over the pairs leaves *)
Definition reached (cap : nat) (cols : list (list (state2 * K))) (ens : list K) (c : acc) : Prop :=
  inv cap (flatten 0 cols) c /\ p_col c = length cols /\ length ens = length cols /\ p_ht c = diag_from 0 ens /\ (length (p_tbl c) <= cap)%nat.

Lemma reached_col : forall cap cols ens c e es c1, reached cap cols ens c -> inv cap (flatten 0 cols ++ at_col (p_col c) es) c1 ->
  p_col c1 = p_col c -> p_ht c1 = p_ht (next e c) -> (length (p_tbl c1) <= cap)%nat ->
  reached cap (cols ++ [es]) (ens ++ [e]) (closecol c1).
Proof.
  intros cap cols ens c e es c1 (I & PC & LE & PH & L) I1 C1 H1 L1. split; [|split; [|split; [|split]]].
  - apply inv_frame. rewrite flatten_app. cbn [flatten plus]. rewrite app_nil_r, <- PC. exact I1.
  - cbn. rewrite C1, app_length. cbn. lia.
  - rewrite !app_length. cbn. lia.
  - cbn [closecol p_ht]. rewrite H1; cbn [p_ht next]; rewrite diag_snoc, PH, LE, PC. reflexivity.
  - exact L1.
Qed.

Lemma column_keeps : forall cap i j art xs fl c c', inv cap fl c -> (length (p_tbl c) <= cap)%nat ->
  loop2 (fun e c =>
    let '((r1, v1), (r2, v2)) := e in
    match nth_error (o_states sys1) r1, nth_error (o_states sys2) r2 with
    | Some a, Some b =>
        match entries hs hi hf rt sinv sref sperm srot i j art a b (smul v1 v2) with
        | Ok es => addAll es c
        | Throw => (c, Throw)
        | UB => (c, UB)
        end
    | _, _ => (c, UB)
    end) xs c = (c', Ok tt) ->
  exists es, inv cap (fl ++ at_col (p_col c) es) c' /\ p_col c' = p_col c /\ p_ht c' = p_ht c /\ (length (p_tbl c') <= cap)%nat.
Proof.
  intros cap i j art. induction xs as [|[[r1 v1] [r2 v2]] xs IH]; intros fl c c' I L E; cbn [loop2] in E.
  - injection E as <-. exists []. cbn. rewrite app_nil_r. split; [exact I|]. split; [reflexivity|]. split; [reflexivity|]. exact L.
  - destruct (nth_error (o_states sys1) r1); [|discriminate]. destruct (nth_error (o_states sys2) r2); [|discriminate].
    destruct (entries _ _ _ _ _ _ _ _ _ _ _ _ _ _) as [es| |]; try discriminate.
    destruct (addAll es c) as [c1 [[]| |]] eqn:A; try discriminate.
    destruct (@addAll_keeps K cap es fl c c1 I L A) as (I1 & C1 & H1 & L1 & _).
    destruct (IH _ c1 c' I1 L1 E) as (es' & I2 & C2 & H2 & L2). exists (es ++ es'). rewrite at_col_app, app_assoc, <- C1.
    split; [rewrite <- C1 in I2; exact I2|]. split; [congruence|]. split; [congruence|auto].
Qed.

Lemma pair_reached : forall cap ps cols ens c c', reached cap cols ens c -> loop2 pair_stepK ps c = (c', Ok tt) ->
  exists cols' ens', reached cap cols' ens' c'.
Proof.
  intros cap. induction ps as [|[i j] ps IH]; intros cols ens c c' R E; cbn [loop2] in E; [injection E as <-; eauto|].
  destruct (pair_stepK (i, j) c) as [c1 [[]| |]] eqn:S; try discriminate.
  assert (X : exists cols' ens', reached cap cols' ens' c1); [|destruct X as (cols1 & ens1 & R1); eauto].
  clear E IH. unfold pair_step in S. destruct (nth_error (o_cols sys1) i) as [k1|]; [|discriminate].
  destruct (if artificial sys1 k1 then Ok true else _) as [art| |]; try discriminate.
  destruct (skipped _ _ _ _); [injection S as <-; eauto|].
  destruct (nth_error (o_cols sys2) j) as [k2|]; [|discriminate]. destruct (nth_error (o_en sys1) i) as [e1|]; [|discriminate].
  destruct (nth_error (o_en sys2) j) as [e2|]; [|discriminate]. destruct (enValid2 rq (e1 + e2)); [|injection S as <-; eauto].
  destruct (column hs hi hf rt sys1 sys2 sinv sref sperm srot i j art k1 k2 (next (e1 + e2) c)) as [c3 [[]| |]] eqn:C; try discriminate. injection S as <-.
  unfold column in C. pose proof R as (I & _ & _ & _ & L).
  destruct (@column_keeps cap i j art (list_prod k1 k2) (flatten 0 cols) (next (e1 + e2) c) c3) as (es & I3 & C3 & H3 & L3); auto.
  { apply inv_frame. exact I. }
  exists (cols ++ [es]), (ens ++ [e1 + e2]). eapply reached_col; eauto.
Qed.

(** ** The check of the added states *)
Lemma check_loop : forall xs (c c' : acc), loop2 (check_user species1 species2) xs c = (c', Ok tt) <->
  c' = c /\ forall x, In x xs -> tfind eq2 (p_tbl c) x = None /\ fits species1 species2 x.
Proof using.
  clear - species1 species2.
  induction xs as [|x xs IH]; intros c c'; cbn [loop2].
  - split; [intros E; injection E as <-; split; auto; intros x []|intros (-> & _); reflexivity].
  - unfold check_user at 1. destruct (tfind eq2 (p_tbl c) x) as [r|] eqn:F.
    { split; [discriminate|]. intros (_ & H). destruct (H x (or_introl eq_refl)). congruence. }
    set (bad := (negb (isArtificial (fst1 x)) && negb (String.eqb (species (fst1 x)) species1)) ||
               (negb (isArtificial (snd1 x)) && negb (String.eqb (species (snd1 x)) species2))).
    assert (B : bad = false <-> fits species1 species2 x).
    { unfold bad, fits. rewrite orb_false_iff, !andb_false_iff, !negb_false_iff, !String.eqb_eq.
      destruct (isArtificial (fst1 x)), (isArtificial (snd1 x)); intuition discriminate. }
    destruct bad.
    + split; [discriminate|]. intros (_ & H). destruct (H x (or_introl eq_refl)) as [_ Q]. apply B in Q. discriminate.
    + rewrite IH. split; intros (-> & H); (split; auto).
      * intros y [<-|Hy]; auto. split; auto. apply B. auto.
      * intros y Hy. apply H. right. auto.
Qed.

(** ** What an added state leads to *)
Definition art2 (x : state2) : bool := isArtificial (fst1 x) || isArtificial (snd1 x).
Definition linv2 (x : state2) : parity := if art2 x then NA else sinv.
Definition rot2 (x : state2) : bool :=
  match (if art2 x then None else srot) with None => true | Some ms => existsb (Z.eqb (Z.quot (m2 (fst1 x) + m2 (snd1 x)) 2)) ms end.
Definition agree2 (x : state2) : bool :=
  negb (isS (linv2 x) && isS sperm && neq1 (fst1 x) (snd1 x) && negb (sgn_inv (linv2 x) (pm (l (fst1 x) + l (snd1 x))) =? sgn_perm sperm)%Z).
Definition exch2 (x : state2) : bool := (isS (linv2 x) || isS sperm) && neq1 (fst1 x) (snd1 x).
Definition sX2 (x : state2) : Z := if isS (linv2 x) then sgn_inv (linv2 x) (pm (l (fst1 x) + l (snd1 x))) else sgn_perm sperm.
Definition partner2 (x : state2) : bool := existsb (eq2 (swapped x)) (rq_add rq).
Definition skip2 (x : state2) : bool := skipped (linv2 x) sperm (le1 (fst1 x) (snd1 x)) (lt1 (fst1 x) (snd1 x)).
Definition sel2 (x : state2) : bool := rot2 x && agree2 x && negb (skip2 x).
Definition val2 (x : state2) : K := if exch2 x then rt else 1.
Definition ucol (x : state2) : list (state2 * K) := (x, val2 x) :: (if exch2 x then [(swapped x, kz (sX2 x) (val2 x))] else []).
Definition unew (x : state2) : list state2 := x :: (if exch2 x then [swapped x] else []).
Lemma ucol_states : forall x, map fst (ucol x) = unew x.
Proof. intros x. unfold ucol, unew. destruct (exch2 x); reflexivity. Qed.

Definition uplan (x : state2) : res (option K) :=
  do! e <- user_energy energy x ;
  if rot2 x && agree2 x then if exch2 x && negb (partner2 x) then Throw else Ok (if skip2 x then None else Some e) else Ok None.

Lemma user_step_eq : forall x c, user_stepK x c =
  match uplan x with
  | Ok (Some e) => match addAll (ucol x) (next e c) with (c', Ok _) => (closecol c', Ok tt) | r => r end
  | Ok None => (c, Ok tt)
  | Throw => (c, Throw)
  | UB => (c, UB)
  end.
Proof.
  intros x c. unfold user_step, uplan. destruct (user_energy energy x) as [e| |]; cbn [bind]; auto.
  change (if isArtificial (fst1 x) || isArtificial (snd1 x) then NA else sinv) with (linv2 x).
  assert (R : match (if isArtificial (fst1 x) || isArtificial (snd1 x) then None else srot) with
    | Some ms => negb (existsb (Z.eqb (Z.quot (m2 (fst1 x) + m2 (snd1 x)) 2)) ms) | None => false end = negb (rot2 x)).
  { unfold rot2, art2. destruct (if isArtificial (fst1 x) || isArtificial (snd1 x) then None else srot); reflexivity. }
  rewrite R. destruct (rot2 x); cbn [negb andb]; [|reflexivity].
  change (isS (linv2 x) && isS sperm && neq1 (fst1 x) (snd1 x) && negb (sgn_inv (linv2 x) (pm (l (fst1 x) + l (snd1 x))) =? sgn_perm sperm)%Z)
    with (negb (negb (isS (linv2 x) && isS sperm && neq1 (fst1 x) (snd1 x) && negb (sgn_inv (linv2 x) (pm (l (fst1 x) + l (snd1 x))) =? sgn_perm sperm)%Z)))
    || rewrite <- (negb_involutive (isS (linv2 x) && isS sperm && neq1 (fst1 x) (snd1 x) && _)).
  fold (agree2 x). destruct (agree2 x); cbn [negb]; [|reflexivity].
  change ((isS (linv2 x) || isS sperm) && neq1 (fst1 x) (snd1 x)) with (exch2 x).
  change (existsb (eq2 (mkTwo_pair (snd1 x) (fst1 x))) (rq_add rq)) with (partner2 x).
  destruct (exch2 x && negb (partner2 x)); [reflexivity|]. fold (skip2 x). destruct (skip2 x); reflexivity.
Qed.
End Request.
End Users.
