(** C102: pair states added by the user to a two-atom system.

    [initBasis2 hs hi hf rt energy s1 s2 species1 species2 sinv sref sperm srot chosen thr rq] is SystemTwo::initializeBasis
    (PairModel, see PropPair), [rq_add rq] the states added with addStates, [without rq] the same restrictions without added
    states.  [extended_basis], [stands], [exchange_sign], [pair_energy], [fits], [has_partner]: UserSpec. *)
From Coq Require Import ZArith Lia Bool String Arith List.
Import ListNotations.
From Verif Require Import Base StateModel StateProofs Matrix LookupModel LookupProofs SystemModel RangeModel BasisProofs
  SystemProofs OverlapProofs OverlapProofs2 PairModel PairSpec PairProofs PairProofs2 PairProofs3 PairProofs4 UserSpec PairProofs7 PairProofs8 PairProofs9
  PairDemo PropPair.
Set Implicit Arguments.
Local Open Scope nat_scope.
Local Open Scope list_scope.

Section P.
Context {K : StarRing}.
Add Ring Kr18 : (s_ring K).
Local Open Scope star_scope.
Variable hs : string -> N.
Variable hi : Z -> N.
Variable hf : Z -> N.
Variable rt : K.
Variable energy : state1 -> res K.
Variables species1 species2 : string.
Variable thr : K.

(** [scalars_ok] of PropPair, and the threshold is below 1/2. *)
Definition scalars_half : Prop := scalars_ok rt thr /\ sltre thr (rt * rt) = true.

Lemma loop2_each : forall X (f : X -> @acc2 K -> @acc2 K * res unit) xs c c', loop2 f xs c = (c', Ok tt) ->
  forall x, In x xs -> exists c1 c2, f x c1 = (c2, Ok tt).
Proof.
  induction xs as [|y xs IH]; intros c c' E x H; [destruct H|]. cbn [loop2] in E. destruct (f y c) as [c1 [[]| |]] eqn:F; try discriminate.
  destruct H as [<-|H]; eauto.
Qed.

(** Whatever the symmetries and the pairs: if the pair basis can be built without the added states and with them, then the
    second is the first, extended by one basis vector (with its energy) for each added state that stands for one. *)
Theorem C102_extends : forall s1 s2 sinv sref sperm srot chosen rq tbl0 b0 h0 tbl b h, scalars_half -> distinct_pairs (rq_add rq) ->
  initBasis2 hs hi hf rt energy s1 s2 species1 species2 sinv sref sperm srot chosen thr (without rq) = (tbl0, Ok (b0, h0)) ->
  initBasis2 hs hi hf rt energy s1 s2 species1 species2 sinv sref sperm srot chosen thr rq = (tbl, Ok (b, h)) ->
  extended_basis sinv sperm srot energy rt (rq_add rq) tbl0 b0 h0 tbl b h /\
  forall x, In x (rq_add rq) -> fits species1 species2 x /\ (exists e, pair_energy energy x e) /\ has_partner sinv sperm srot (rq_add rq) x /\
    forall y, In y (map snd tbl0) -> eq2 y x = false.
Proof.
  intros s1 s2 sinv sref sperm srot chosen rq tbl0 b0 h0 tbl b h ((R1 & R2 & T0 & T1) & T2) D E0 E.
  destruct (@without_run K hs hi hf rt energy s1 s2 species1 species2 sinv sref sperm srot chosen thr rq tbl0 b0 h0 E0) as (c0 & S0 & F0 & S1 & cols & ens & RE).
  pose proof E as E'. unfold initBasis2 in E'. rewrite S1 in E'.
  destruct (loop2 (check_user species1 species2) (rq_add rq) (padc (List.length (rq_add rq)) c0)) as [c1 [[]| |]] eqn:C; try discriminate.
  apply check_loop in C. destruct C as [-> C]. cbn [padc p_tbl] in C.
  destruct (loop2 (user_step rt energy sinv sperm srot rq) (rq_add rq) _) as [c2 [[]| |]] eqn:U; try discriminate.
  assert (PL : forall x, In x (rq_add rq) -> exists o, uplan energy sinv sperm srot rq x = Ok o).
  { intros x Hx. destruct (@loop2_each _ _ _ _ _ U x Hx) as (d1 & d2 & Ed). rewrite user_step_eq in Ed. destruct (uplan energy sinv sperm srot rq x) as [o| |]; try discriminate. eauto. }
  destruct (@extend_core K hs hi hf rt energy s1 s2 species1 species2 sinv sref sperm srot chosen thr rq R1 R2 T1 T2 D c0 cols ens tbl0 b0 h0 RE F0 S1 C PL) as (tbl' & b' & h' & E2 & X).
  rewrite E in E2. injection E2 as <- <- <-. split; [exact X|]. intros x Hx. destruct (C x Hx) as [C1 C2]. split; [exact C2|].
  destruct (proj1 (uplan_iff energy sinv sperm srot rq x) (PL x Hx)) as [Q1 Q2]. split; [exact Q1|]. split; [exact Q2|]. intros y Hy.
  pose proof RE as (I & PC & LE & PH & LT). destruct (@finish_spec K thr _ cols ens c0 I PC LE PH LT) as (tA & bA & hA & EA & TA & _).
  rewrite F0 in EA. injection EA as <- <- <-. rewrite TA in Hy. rewrite map_snd_combine_seq in Hy. apply filter_In in Hy.
  apply (@tfind_not (p_tbl c0) x y C1). apply Hy.
Qed.

(** An added state that is in the basis already, or of the wrong species: refused. *)
Lemma check_throws : forall xs (c : @acc2 K) x, In x xs -> (tfind eq2 (p_tbl c) x <> None \/ ~ fits species1 species2 x) ->
  loop2 (check_user species1 species2) xs c = (c, Throw).
Proof.
  induction xs as [|y xs IH]; intros c x H B; [destruct H|]. cbn [loop2].
  assert (Q : check_user species1 species2 y c = (c, Ok tt) \/ check_user species1 species2 y c = (c, Throw)).
  { unfold check_user. destruct (tfind eq2 (p_tbl c) y); auto. destruct (_ || _); auto. }
  destruct Q as [Q|Q]; rewrite Q; [|reflexivity]. destruct H as [->|H]; [|eapply IH; eauto]. exfalso.
  assert (L : loop2 (check_user species1 species2) [x] c = (c, Ok tt)) by (cbn [loop2]; rewrite Q; reflexivity).
  apply check_loop in L. destruct L as [_ L]. destruct (L x (or_introl eq_refl)) as [L1 L2]. destruct B; auto.
Qed.
Theorem C102_refused : forall s1 s2 sinv sref sperm srot chosen rq tbl0 b0 h0 x,
  initBasis2 hs hi hf rt energy s1 s2 species1 species2 sinv sref sperm srot chosen thr (without rq) = (tbl0, Ok (b0, h0)) ->
  In x (rq_add rq) -> ((exists y, In y (map snd tbl0) /\ eq2 y x = true) \/ ~ fits species1 species2 x) ->
  snd (initBasis2 hs hi hf rt energy s1 s2 species1 species2 sinv sref sperm srot chosen thr rq) = Throw.
Proof.
  intros s1 s2 sinv sref sperm srot chosen rq tbl0 b0 h0 x E0 Hx B.
  destruct (@without_run K hs hi hf rt energy s1 s2 species1 species2 sinv sref sperm srot chosen thr rq tbl0 b0 h0 E0) as (c0 & S0 & F0 & S1 & cols & ens & RE).
  unfold initBasis2. rewrite S1. rewrite (@check_throws _ _ x Hx); [reflexivity|]. destruct B as [(y & Hy & Ey)|B]; auto. left. cbn [padc p_tbl].
  pose proof RE as (I & PC & LE & PH & LT). destruct (@finish_spec K thr _ cols ens c0 I PC LE PH LT) as (tA & bA & hA & EA & TA & _).
  rewrite F0 in EA. injection EA as <- <- <-. rewrite TA in Hy. rewrite map_snd_combine_seq in Hy. apply filter_In in Hy.
  intro T. rewrite (@tfind_not (p_tbl c0) x y T (proj1 Hy)) in Ey. discriminate.
Qed.

(** ** Acceptance *)
Definition from_products (s1 s2 : @onesys K) (z : state2) : Prop :=
  exists a b, In a (o_states s1) /\ In b (o_states s2) /\ (eq2 z (mkTwo_pair a b) = true \/ eq2 z (mkTwo_pair b a) = true).

Lemma addB_tbl : forall (P : state2 -> Prop) x v (c c' : @acc2 K), addB x v c = (c', Ok tt) -> P x -> (forall z, In z (map snd (p_tbl c)) -> P z) ->
  forall z, In z (map snd (p_tbl c')) -> P z.
Proof.
  intros P x v c c' E Px H z Hz. unfold addB in E. destruct (tfind eq2 (p_tbl c) x) as [r|]; destruct (Nat.ltb _ _); try discriminate; injection E as <-; cbn [p_tbl] in Hz; auto.
  rewrite map_app in Hz. apply in_app_iff in Hz. destruct Hz as [Hz|[<-|[]]]; auto.
Qed.
Lemma loop2_tbl : forall (P : state2 -> Prop) X (f : X -> @acc2 K -> @acc2 K * res unit) xs,
  (forall x c c', In x xs -> f x c = (c', Ok tt) -> (forall z, In z (map snd (p_tbl c)) -> P z) -> forall z, In z (map snd (p_tbl c')) -> P z) ->
  forall c c', loop2 f xs c = (c', Ok tt) -> (forall z, In z (map snd (p_tbl c)) -> P z) -> forall z, In z (map snd (p_tbl c')) -> P z.
Proof.
  intros P X f. induction xs as [|x xs IH]; intros H c c' E Hc; cbn [loop2] in E; [injection E as <-; auto|].
  destruct (f x c) as [c1 [[]| |]] eqn:F; try discriminate. eapply IH; [|exact E|].
  - intros y d d' Hy. apply H. right. auto.
  - eapply H; [left; reflexivity|exact F|exact Hc].
Qed.
Lemma entries_src : forall sinv sperm srot i j art a b x es, entries hs hi hf rt sinv NA sperm srot i j art a b x = Ok es ->
  forall e, In e es -> fst e = mkTwo_pair a b \/ fst e = mkTwo_pair b a.
Proof.
  intros sinv sperm srot i j art a b x es E e He. unfold entries in E. destruct (negb art && _); [discriminate|].
  match type of E with (if ?c then _ else _) = _ => destruct c; [injection E as <-; destruct He|] end.
  match type of E with (if ?c then _ else _) = _ => destruct c; [injection E as <-; destruct He|] end.
  assert (R : isS (if art then NA else NA) = false) by (destruct art; reflexivity). rewrite R in E. cbn [bind] in E. rewrite andb_false_r in E. cbn [andb] in E.
  injection E as <-. destruct He as [<-|He]; [left; reflexivity|]. rewrite app_nil_r in He.
  match type of He with In e (if ?c then _ else _) => destruct c; [destruct He as [<-|[]]; right; reflexivity|destruct He] end.
Qed.
Lemma table_src : forall s1 s2 sinv sperm srot rq ps c c',
  loop2 (pair_step hs hi hf rt s1 s2 sinv NA sperm srot rq) ps c = (c', Ok tt) ->
  (forall z, In z (map snd (p_tbl c)) -> from_products s1 s2 z) -> forall z, In z (map snd (p_tbl c')) -> from_products s1 s2 z.
Proof.
  intros s1 s2 sinv sperm srot rq ps. apply loop2_tbl. intros [i j] c c' _ E Hc. unfold pair_step in E.
  destruct (nth_error (o_cols s1) i) as [c1|]; [|discriminate].
  destruct (if artificial s1 c1 then Ok true else _) as [art| |]; try discriminate.
  destruct (skipped _ _ _ _); [injection E as <-; auto|].
  destruct (nth_error (o_cols s2) j) as [c2|]; [|discriminate]. destruct (nth_error (o_en s1) i) as [e1|]; [|discriminate].
  destruct (nth_error (o_en s2) j) as [e2|]; [|discriminate]. destruct (enValid2 rq (e1 + e2)); [|injection E as <-; auto].
  destruct (column hs hi hf rt s1 s2 sinv NA sperm srot i j art c1 c2 (next (e1 + e2) c)) as [c3 [[]| |]] eqn:C; try discriminate. injection E as <-.
  cbn [closecol p_tbl]. unfold column in C. refine (@loop2_tbl (from_products s1 s2) _ _ _ _ _ _ C Hc). clear C Hc.
  intros [[r1 v1] [r2 v2]] d d' _ D Hd. destruct (nth_error (o_states s1) r1) as [a|] eqn:Ea; [|discriminate]. destruct (nth_error (o_states s2) r2) as [b|] eqn:Eb; [|discriminate].
  destruct (entries _ _ _ _ _ _ _ _ _ _ _ _ _ _) as [es| |] eqn:En; try discriminate. unfold addAll in D. refine (@loop2_tbl (from_products s1 s2) _ _ _ _ _ _ D Hd). clear D Hd.
  intros e d1 d2 He A H1. refine (@addB_tbl (from_products s1 s2) _ _ _ _ A _ H1). exists a, b. split; [eapply nth_error_In; eauto|]. split; [eapply nth_error_In; eauto|].
  destruct (@entries_src _ _ _ _ _ _ _ _ _ _ En e He) as [->| ->]; [left|right]; apply eq2_refl.
Qed.

(** Added states of the right species, different from the pairs of one-atom states (in both orders), with energies, and with their
    partners if a symmetry is used, are accepted. *)
Theorem C102_accepted : forall s1 s2 sinv sperm srot chosen rq tbl0 b0 h0, scalars_half -> distinct_pairs (rq_add rq) ->
  initBasis2 hs hi hf rt energy s1 s2 species1 species2 sinv NA sperm srot chosen thr (without rq) = (tbl0, Ok (b0, h0)) ->
  (forall x, In x (rq_add rq) -> fits species1 species2 x /\ (exists e, pair_energy energy x e) /\ has_partner sinv sperm srot (rq_add rq) x /\
     ~ from_products s1 s2 x) ->
  exists tbl b h, initBasis2 hs hi hf rt energy s1 s2 species1 species2 sinv NA sperm srot chosen thr rq = (tbl, Ok (b, h)).
Proof.
  intros s1 s2 sinv sperm srot chosen rq tbl0 b0 h0 ((R1 & R2 & T0 & T1) & T2) D E0 H.
  destruct (@without_run K hs hi hf rt energy s1 s2 species1 species2 sinv NA sperm srot chosen thr rq tbl0 b0 h0 E0) as (c0 & S0 & F0 & S1 & cols & ens & RE).
  assert (PL : forall x, In x (rq_add rq) -> exists o, uplan energy sinv sperm srot rq x = Ok o).
  { intros x Hx. apply uplan_iff. destruct (H x Hx) as (_ & A & B & _). auto. }
  assert (C : forall x, In x (rq_add rq) -> tfind eq2 (p_tbl c0) x = None /\ fits species1 species2 x).
  { intros x Hx. destruct (H x Hx) as (A & _ & _ & N). split; auto. apply tfind_fresh. intros y Hy. destruct (eq2 y x) eqn:Q; auto. exfalso. apply N.
    assert (X : from_products s1 s2 y). { revert y Hy Q. intros y Hy _. eapply table_src; [exact S0| |exact Hy]. cbn. intros z []. }
    destruct X as (a & b & Ha & Hb & Hy2). exists a, b. split; auto. split; auto. rewrite eq2_sym in Q. destruct Hy2 as [Z|Z]; [left|right]; eapply eq2_trans; eauto. }
  destruct (@extend_core K hs hi hf rt energy s1 s2 species1 species2 sinv NA sperm srot chosen thr rq R1 R2 T1 T2 D c0 cols ens tbl0 b0 h0 RE F0 S1 C PL) as (tbl' & b' & h' & E2 & X).
  eauto.
Qed.
End P.

(** ** Examples *)
Definition eSP (s : state1) : res R2 := if eq1 s sP then Ok (q2 (QArith_base.Qmake 3 1)) else if eq1 s sS then Ok (q2 (QArith_base.Qmake 1 2)) else Throw.
Definition run_user (xs : list state2) (sperm : parity) :=
  initBasis2 (K:=R2) h0 h0 h0 half_sqrt eSP (pure [sS]) (pure [sS]) "Rb" "Rb" NA NA sperm None [] thr2
    (Request (K:=R2) (State:=state2) (Ranges [] [] [] []) (Some (q2 (QArith_base.Qmake (-1) 1))) (Some (q2 (QArith_base.Qmake 1 1))) xs).
Definition diag_of (r : list (nat * state2) * res (mat R2 * mat R2)) : list r2 :=
  match snd r with Ok (_, h) => map (fun k => at_ h k k : r2) (seq 0 (nc h)) | _ => [] end.

(** The pairs |S,P>, |P,S> and the artificial |a,P> are added to |S,S>: all hypotheses of the theorems hold, and the basis has four states; the
    added pairs are outside of the window of energies (-1, 1). *)
Example C102_nonvacuous : let sp := mkTwo_pair sS sP in let ps := mkTwo_pair sP sS in let ap := mkTwo_pair (arti "a") sP in
  @scalars_half R2 half_sqrt thr2 /\ distinct_pairs [sp; ps; ap] /\
  (forall x, In x [sp; ps; ap] -> fits "Rb" "Rb" x /\ (exists e, pair_energy eSP x e) /\ has_partner NA NA None [sp; ps; ap] x /\ ~ from_products (pure [sS]) (pure [sS]) x) /\
  (forall x, In x [sp; ps] -> has_partner NA ODD None [sp; ps] x) /\
  map (fun x => Qcanon.this (fst x)) (diag_of (run_user [sp; ps; ap] NA)) = [QArith_base.Qmake 0 1; QArith_base.Qmake 7 2; QArith_base.Qmake 7 2; QArith_base.Qmake 3 1] /\
  map (fun x => Qcanon.this (fst x)) (diag_of (run_user [sp; ps] ODD)) = [QArith_base.Qmake 0 1; QArith_base.Qmake 7 2] /\
  (let z := QArith_base.Qmake 0 1 in let e := QArith_base.Qmake 1 1 in let h := QArith_base.Qmake 1 2 in
   map (map (fun x : r2 => (Qcanon.this (fst x), Qcanon.this (snd x)))) (rows2 (run_user [sp; ps] ODD)) = [[(e, z); (z, z)]; [(z, z); (z, h)]; [(z, z); (z, h)]]).
Proof.
  cbv zeta. split; [split; [apply scalars_demo|vm_compute; reflexivity]|]. split; [repeat constructor|]. split.
  { intros x [<-|[<-|[<-|[]]]]; (split; [split; intros; reflexivity || discriminate|split; [|split; [intros s (_ & [(Q & _)|(_ & Q & _)]); congruence|]]]).
    - eexists. exists (q2 (QArith_base.Qmake 1 2)), (q2 (QArith_base.Qmake 3 1)). repeat split.
    - intros (a & b & [<-|[]] & [<-|[]] & [Q|Q]); vm_compute in Q; discriminate.
    - eexists. exists (q2 (QArith_base.Qmake 3 1)), (q2 (QArith_base.Qmake 1 2)). repeat split.
    - intros (a & b & [<-|[]] & [<-|[]] & [Q|Q]); vm_compute in Q; discriminate.
    - eexists. exists (@Matrix.s0 R2), (q2 (QArith_base.Qmake 3 1)). repeat split.
    - intros (a & b & [<-|[]] & [<-|[]] & [Q|Q]); vm_compute in Q; discriminate. }
  split. { intros x [<-|[<-|[]]] s _ _ _; [exists (mkTwo_pair sP sS)|exists (mkTwo_pair sS sP)]; (split; [cbn; auto|vm_compute; reflexivity]). }
  split; [vm_compute; reflexivity|]. split; [vm_compute; reflexivity|].
  vm_compute; reflexivity.
Qed.
Example C102_refused_nonvacuous : let ss := mkTwo_pair sS sS in
  match snd (run_user [ss] NA) with Throw => true | _ => false end = true /\ (exists tbl b h, run_user [] NA = (tbl, Ok (b, h)) /\ exists y, In y (map snd tbl) /\ eq2 y ss = true) /\
  ~ fits "Rb" "Cs" ss.
Proof.
  cbv zeta. split; [vm_compute; reflexivity|]. split.
  - unfold run_user. match goal with |- context [?f = _] => set (r := f) end. assert (T : map snd (fst r) = [mkTwo_pair sS sS]) by (vm_compute; reflexivity).
    assert (Q : match snd r with Ok _ => true | _ => false end = true) by (vm_compute; reflexivity).
    clearbody r. destruct r as [tbl [[b h]| |]]; try discriminate. exists tbl, b, h. split; auto. cbn in T. rewrite T. exists (mkTwo_pair sS sS). split; [left; reflexivity|vm_compute; reflexivity].
  - intros (_ & Q). specialize (Q eq_refl). vm_compute in Q. discriminate.
Qed.

Print Assumptions C102_extends. Print Assumptions C102_refused. Print Assumptions C102_accepted.
