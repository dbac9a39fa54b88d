(** The whole call. *)
From Verif Require Import Base Matrix LookupModel LookupProofs SystemModel SystemProofs AddProofs FieldModel SchriefferModel SchriefferSpec SchriefferProofs SchriefferProofs2 SchriefferProofs3 SchriefferProofs4.
From Coq Require Import ZArith Lia Bool Arith Reals Lra List Setoid Morphisms Permutation.
Import ListNotations.
Set Implicit Arguments.
Local Open Scope R_scope.
Add Ring CRr5 : (s_ring CR).

Lemma columns_sel : forall (B : mat CR) idx, (forall i, In i idx -> (i < nc B)%nat) -> meq (mmul B (msel (nc B) idx)) (columns B idx).
Proof.
  intros B idx H. split; [reflexivity|]. split; [reflexivity|]. intros i c Hi Hc. cbn in Hc.
  assert (Q : (nth c idx (nc B) < nc B)%nat) by (apply H, nth_In; auto).
  rewrite (@mmul_sel CR B idx i c eq_refl Hc Q). cbn [columns at_]. rewrite (nth_indep idx (nc B) 0%nat Hc). reflexivity.
Qed.

Lemma fst_sum : forall (f : nat -> CR) g n a, (forall c, (a <= c < a + n)%nat -> fst (f (c - a)%nat) = g c) ->
  fst (bsum (K := CR) n f) = fold_right Rplus 0 (map g (seq a n)).
Proof.
  intros f g n a H.
  assert (E : fold_right Rplus 0 (map g (seq a n)) = fold_right Rplus 0 (map (fun c => fst (f c)) (seq 0 n))).
  { clear - H. assert (X : map g (seq a n) = map (fun c => fst (f c)) (seq 0 n)); [|congruence].
    apply nth_ext with (d := 0) (d' := 0). { rewrite !map_length, !seq_length. reflexivity. }
    intros k Hk. rewrite map_length, seq_length in Hk. rewrite (nth_indep _ 0 (g 0%nat)) by (rewrite map_length, seq_length; auto).
    rewrite (nth_indep (map (fun c => fst (f c)) (seq 0 n)) 0 (fst (f 0%nat))) by (rewrite map_length, seq_length; auto).
    rewrite map_nth, (map_nth (fun c => fst (f c))), !seq_nth by auto. rewrite <- H by lia. f_equal. f_equal. lia. }
  rewrite E. clear. induction n; [reflexivity|]. rewrite seq_S, map_app, fold_right_app. cbn [bsum map fold_right plus].
  assert (G : forall l z, fold_right Rplus z l = fold_right Rplus 0 l + z) by (induction l; intros; cbn; [lra|rewrite IHl; lra]).
  rewrite G. cbn [sadd CR]. unfold cadd. cbn [fst]. rewrite IHn. ring.
Qed.
Lemma overlap_weight : forall (B B0 : mat CR) b, nr B = nr B0 -> fst (overlap B B0 b) = weight B0 (fun i => at_ B i b).
Proof.
  intros B B0 b H. unfold overlap, weight. apply fst_sum. intros c Hc. rewrite Nat.sub_0_r.
  set (z := bsum (nr B0) (fun i => smul (sconj (at_ B0 i c)) (at_ B i b))).
  assert (E : at_ (mmul (madj B) B0) b c = sconj z).
  { unfold z. rewrite (@bsum_conj CR). cbn [mmul madj at_ nc]. rewrite H, Nat.min_id. apply (@bsum_ext CR). intros. rewrite (@s_conj_mul CR), (s_conj_conj CR). ring. }
  rewrite E, (s_conj_conj CR). destruct z as [x y]. cbn. ring.
Qed.

Section Sys.
Context {State Param Key : Type}.
Variable seqb : State -> State -> bool.
Variable keqb : Key -> Key -> bool.
Variable qvalid : ranges -> State -> bool.
Variable v_init : Param -> @request CR State -> list (nat * State) * res (mat CR * mat CR).
Variable v_keys : Param -> list (Key * CR).
Variable v_op : Key -> State -> State -> CR.
Variable isunitary isdiagonal : mat CR -> bool.
Variable nth_element : nat -> nat -> (nat -> CR) -> list nat.
Variable msqrt : mat CR -> option (mat CR).
Hypothesis seq_refl : forall x, seqb x x = true.
Hypothesis seq_sym : forall x y, seqb x y = seqb y x.
Hypothesis seq_trans : forall x y z, seqb x y = true -> seqb y z = true -> seqb x z = true.
Hypothesis Hi : init_ok seqb v_init.
Hypothesis Hu : forall B, isunitary B = true -> isometry B.
Hypothesis Hd : forall B, isdiagonal B = true -> diagonal B.
Hypothesis Hn : select_ok nth_element.
Hypothesis Hr : root_ok msqrt.
Notation sysT := (@sys CR State Param Key).
Notation XSW := (schriefferWolff (Param := Param) seqb keqb qvalid v_init v_keys v_op isunitary isdiagonal nth_element msqrt).
Notation XbuildHam := (buildHamiltonian seqb keqb qvalid v_init v_keys v_op).
Notation Xdiag := (diagonalize seqb keqb qvalid v_init v_keys v_op).

(** What the eigensolver is asked for. *)
Definition solver_ok (isdiag : bool) (U D H : mat CR) : Prop :=
  if isdiag then diagonal H
  else unitary (nr H) U /\ diagonal D /\ meq D (mconj U H).

Lemma diag_ok : forall isdiag U D (s sb sd : sysT), wfs seqb s -> XbuildHam s = (sb, Ok tt) -> solver_ok isdiag U D (ham sb) ->
  Xdiag isdiag U D s = (sd, Ok tt) ->
  wfs seqb sd /\ states sd = states sb /\ diagonal (ham sd) /\ par sd = par sb /\
  meq (mmul (bv sd) (mmul (ham sd) (madj (bv sd)))) (mmul (bv sb) (mmul (ham sb) (madj (bv sb)))).
Proof.
  intros isdiag U D s sb sd W E S Dg.
  assert (Wb : wfs seqb sb). { pose proof (@wfs_buildHam CR State Param Key seqb keqb qvalid v_init v_keys v_op) as X. specialize (X Hi s W). rewrite E in X. apply X. auto. }
  destruct Wb as (T & R & H1 & H2 & RU).
  unfold diagonalize, andThen in Dg. rewrite E in Dg. destruct isdiag; injection Dg as <-.
  - split; [repeat (split; auto)|]. repeat (split; auto). all: apply S || reflexivity.
  - destruct S as (SU & SD & SE). destruct SU as (rU & cU & U1 & U2).
    assert (rD : nr D = nr (ham sb)) by (rewrite (meq_nr SE); cbn; auto).
    assert (cD : nc D = nr (ham sb)) by (rewrite (meq_nc SE); cbn; auto).
    split. { split; [exact T|]. split; [exact R|]. cbn -[nonempty]. split; [congruence|]. split; [congruence|exact RU]. }
    split; [reflexivity|]. split; [exact SD|]. split; [reflexivity|].
    cbn [bv ham set_mats]. rewrite SE. unfold mconj. rewrite madj_mul, !mmul_assoc.
    rewrite <- (mmul_assoc U (madj U) (madj (bv sb))), U2, (mmul_id_l (madj (bv sb))) by (cbn; auto).
    rewrite <- (mmul_assoc U (madj U)), U2. rewrite mmul_id_l by reflexivity. reflexivity.
Qed.

Lemma sw_inv : forall isdiag U D (s s0 s' s0' : sysT), XSW isdiag U D s s0 = (s', s0', Ok tt) ->
  exists sd E T, Xdiag isdiag U D s = (sd, Ok tt) /\ XbuildHam s0 = (s0', Ok tt) /\ isunitary (bv sd) = true /\ isunitary (bv s0') = true /\
  isdiagonal (ham s0') = true /\ embed seqb (states sd) (states s0') = Ok E /\ (nc (bv s0') <= nc (bv sd))%nat /\
  sw_transformator msqrt (length (states sd)) (bv sd) (mmul E (bv s0'))
     (firstn (nc (bv s0')) (nth_element (nc (bv s0')) (nc (bv sd)) (overlap (bv sd) (mmul E (bv s0'))))) = Some T /\
  s' = applyRight T sd.
Proof.
  intros isdiag U D s s0 s' s0' H. unfold schriefferWolff in H.
  destruct (Xdiag isdiag U D s) as [sd [[]| |]]; try discriminate.
  destruct (XbuildHam s0) as [t0 [[]| |]]; try discriminate.
  destruct (isunitary (bv sd)) eqn:E1; [|discriminate]. destruct (isunitary (bv t0)) eqn:E2; [|discriminate].
  destruct (isdiagonal (ham t0)) eqn:E3; [|discriminate]. cbn [negb] in H.
  destruct (embed seqb (states sd) (states t0)) as [E| |] eqn:E4; try discriminate.
  destruct (nc (bv sd) <? nc (mmul E (bv t0)))%nat eqn:E5; [discriminate|]. apply Nat.ltb_ge in E5.
  destruct (sw_transformator _ _ _ _ _) as [T|] eqn:E6; [|discriminate].
  destruct (negb _); [discriminate|]. injection H as <- <-. exists sd, E, T. cbn [mmul nc] in *. auto 10.
Qed.

Lemma have_dec : forall tbl tbl0 E, embed (K := CR) seqb tbl tbl0 = Ok E -> have seqb tbl tbl0.
Proof.
  intros tbl tbl0 E H. unfold embed in H. destruct (@fold_embed CR State seqb tbl tbl0 []) as [(r & _ & _ & Q)|(X & _)]; [exact Q|]. rewrite X in H. discriminate.
Qed.


Lemma sw_effective : forall isdiag U D (s sb s0 s' s0' : sysT), wfs seqb s -> wfs seqb s0 ->
  XbuildHam s = (sb, Ok tt) -> solver_ok isdiag U D (ham sb) ->
  XSW isdiag U D s s0 = (s', s0', Ok tt) ->
  exists sd B0 idx,
    Xdiag isdiag U D s = (sd, Ok tt) /\
    (nr B0 = length (states sb) /\ nc B0 = nc (bv s0') /\
     forall i x c, nth_error (map snd (states sb)) i = Some x -> at_ B0 i c = row_of seqb (states s0') (bv s0') x c) /\
    (NoDup idx /\ length idx = nc B0 /\ (forall a, In a idx -> (a < nc (bv sd))%nat) /\
     forall a b, In a idx -> (b < nc (bv sd))%nat -> ~ In b idx -> weight B0 (fun i => at_ (bv sd) i b) <= weight B0 (fun i => at_ (bv sd) i a)) /\
    states s' = states sb /\ par s' = par sb /\
    let L := columns (bv sd) idx in
    (transversal L B0 ->
      nr (bv s') = length (states s') /\ nc (bv s') = nc B0 /\ isometry B0 /\ isometry (bv s') /\
      meq (mmul (bv s') (madj (bv s'))) (mmul L (madj L)) /\
      posdef (nc B0) (mmul (madj B0) (bv s')) /\
      meq (ham s') (mconj (bv s') (mmul (bv sb) (mmul (ham sb) (madj (bv sb))))) /\
      exists Q, unitary (nc B0) Q /\ meq (bv s') (mmul L Q) /\
        meq (ham s') (mconj Q (Mat (nc B0) (nc B0) (fun a b => smul (delta a b) (at_ (ham sd) (nth a idx 0%nat) (nth a idx 0%nat)))))).
Proof.
  intros isdiag U D s sb s0 s' s0' W W0 Eb Sv H.
  destruct (sw_inv _ _ _ _ _ H) as (sd & E & T & Dg & Eb0 & U1 & U2 & D0 & Em & Le & Tr & ->). clear H.
  destruct (@diag_ok isdiag U D s sb sd W Eb Sv Dg) as (Wd & Sts & Dd & Pd & Full).
  assert (Wb0 : wfs seqb s0').
  { pose proof (@wfs_buildHam CR State Param Key seqb keqb qvalid v_init v_keys v_op Hi s0 W0) as X. rewrite Eb0 in X. apply X. auto. }
  destruct Wd as (Td & Rd & Hd1 & Hd2 & _). destruct Wb0 as (T0 & Rd0 & _).
  pose proof (have_dec _ _ Em) as Hv.
  destruct (@embed_ok CR State seqb (states sd) (states s0') T0 Hv) as (E' & Em' & Es). rewrite Em' in Em. injection Em as ->.
  set (S := msel (K := CR) (length (states sd)) (map (SchriefferProofs3.pos seqb (states sd)) (map snd (states s0')))) in *.
  assert (iS : isometry S).
  { apply sel_iso; [apply pos_nodup; auto|]. apply pos_lt; auto. }
  set (B0 := mmul E (bv s0')) in *. set (idx := firstn (nc (bv s0')) _) in Tr.
  assert (eB0 : meq B0 (mmul S (bv s0'))) by (unfold B0; rewrite Es; reflexivity).
  assert (r0 : nr B0 = length (states sd)) by (unfold B0; cbn; rewrite (meq_nr Es); reflexivity).
  assert (c0 : nc B0 = nc (bv s0')) by reflexivity.
  assert (i0 : isometry B0).
  { unfold isometry. rewrite c0, eB0, madj_mul, !mmul_assoc. rewrite (assoc_l (bv s0') iS). rewrite mmul_id_l by (cbn; rewrite !map_length; auto). apply Hu. auto. }
  destruct (Hn (overlap (bv sd) B0) Le) as [Pm Ord].
  assert (Li : length idx = nc B0).
  { unfold idx. rewrite firstn_length, (Permutation_length Pm), seq_length, c0. lia. }
  assert (Nd : NoDup (nth_element (nc (bv s0')) (nc (bv sd)) (overlap (bv sd) B0))).
  { eapply Permutation_NoDup; [apply Permutation_sym, Pm|apply seq_NoDup]. }
  assert (Ni : NoDup idx).
  { unfold idx. rewrite <- (firstn_skipn (nc (bv s0')) (nth_element (nc (bv s0')) (nc (bv sd)) (overlap (bv sd) B0))) in Nd.
    clear - Nd. induction (firstn _ _) as [|a l IH]; constructor; cbn in Nd; inversion Nd; subst; auto. intro. apply H1. apply in_app_iff; auto. }
  assert (Lt : forall a, In a idx -> (a < nc (bv sd))%nat).
  { intros a Ha. assert (In a (seq 0 (nc (bv sd)))). { eapply Permutation_in; [exact Pm|]. unfold idx in Ha. rewrite <- (firstn_skipn (nc (bv s0'))). apply in_app_iff; auto. }
    apply in_seq in H. lia. }
  exists sd, B0, idx. split; [exact Dg|]. split.
  { split; [congruence|]. split; [reflexivity|]. intros i x c Hx. rewrite <- Sts in Hx.
    rewrite <- (@embed_at CR State seqb seq_refl seq_sym seq_trans (states sd) (states s0') Td T0 (bv s0') i x c Hv Rd0 Hx).
    unfold B0. cbn [mmul at_]. rewrite (meq_nc Es). apply (@bsum_ext CR). intros k Hk. f_equal.
    assert (Hli : (i < length (states sd))%nat). { rewrite <- (map_length snd). apply nth_error_Some. congruence. }
    destruct Es as (e1 & e2 & Es). apply Es; [rewrite e1; exact Hli|]. rewrite e2. clear - Hk. eapply Nat.lt_le_trans; [exact Hk|apply Nat.le_min_l]. }
  split.
  { split; [exact Ni|]. split; [exact Li|]. split; [exact Lt|]. intros a b Ha Hb Nb.
    rewrite <- !overlap_weight by congruence. apply Ord; [exact Ha|].
    assert (In b (nth_element (nc (bv s0')) (nc (bv sd)) (overlap (bv sd) B0))).
    { eapply Permutation_in; [apply Permutation_sym, Pm|]. apply in_seq. lia. }
    rewrite <- (firstn_skipn (nc (bv s0'))) in H. apply in_app_iff in H. destruct H as [H|H]; [contradiction|exact H]. }
  split; [exact Sts|]. split; [exact Pd|]. intros L Tv.
  unfold sw_transformator in Tr. set (Lm := mmul (bv sd) (msel (nc (bv sd)) idx)) in *.
  set (n := length (states sd)) in *.
  assert (eL : meq Lm L) by (apply columns_sel; auto).
  assert (iSel : isometry (msel (K := CR) (nc (bv sd)) idx)) by (apply sel_iso; auto).
  assert (iB : isometry (bv sd)) by (apply Hu; auto).
  assert (iLm : isometry Lm) by (apply iL; auto).
  assert (rLm : nr Lm = n) by exact Rd.
  assert (Tv' : transversal Lm B0).
  { destruct Tv as [A B]. split.
    - intros x rx cx Q. assert (Q' : meq (mmul (mmul (madj B0) L) x) (mzero (nc B0) 1)) by (rewrite <- eL; exact Q). exact (A x rx cx Q').
    - intros x rx cx Q. assert (Q' : meq (mmul (mmul (madj L) B0) x) (mzero (length idx) 1)) by (rewrite <- eL; exact Q). exact (B x rx cx Q'). }
  destruct (msqrt _) as [V|] eqn:Ev in Tr; [|discriminate]. injection Tr as <-.
  pose proof (@W_unitary n B0 Lm r0 rLm i0 iLm) as Wu.
  pose proof (@free n B0 Lm r0 rLm i0 iLm Tv') as Fr.
  pose proof (Hr Wu Fr Ev) as Pr. pose proof Pr as (dV & rootV & accV).
  assert (Fl : meq (mmul (reflection n (mmul Lm (madj Lm))) (mmul V (reflection n (mmul Lm (madj Lm))))) (madj V)).
  { apply root_flip with (n := n) (W := mmul (reflection n (mmul B0 (madj B0))) (reflection n (mmul Lm (madj Lm)))); auto; try (apply R_dim; auto; fail).
    - apply R_adj; auto. - apply R_sq; auto. - apply W_flip; auto. }
  set (P0 := mmul B0 (madj B0)) in *. set (P := mmul Lm (madj Lm)) in *.
  assert (kk : nc (msel (K := CR) (nc (bv sd)) idx) = nc B0) by exact Li.
  assert (dP0 : nr P0 = n /\ nc P0 = n) by (split; exact r0).
  assert (dP : nr P = n /\ nc P = n) by (split; exact rLm).
  assert (idP : meq (mmul P P) P) by (apply proj_idem; auto).
  pose proof (@new_basis CR cancel2 n P0 P V dP0 dP dV idP rootV Fl B0 (bv sd) (msel (nc (bv sd)) idx)) as NB.
  specialize (NB eq_refl i0 iB eq_refl eq_refl).
  pose proof (@N_iso CR n V dV B0 r0 i0) as NI.
  pose proof (@N_proj CR cancel2 n P0 P V dP0 dP dV idP rootV Fl B0 eq_refl) as NP.
  pose proof (@direct_posdef n B0 Lm V r0 rLm i0 iLm Pr) as PD.
  set (T := mmul (mmul (mmul (madj (bv sd)) (madj V)) P0) B0) in *. set (N := mmul (madj V) B0) in *.
  assert (eN : meq (bv (applyRight T sd)) N) by exact NB.
  assert (eH : meq (ham (applyRight T sd)) (mconj T (ham sd))) by reflexivity.
  assert (eT : meq T (mmul (madj (bv sd)) N)).
  { unfold T, N. rewrite !mmul_assoc. assert (Q : meq (mmul P0 B0) B0). { unfold P0. rewrite mmul_assoc, (i0 : meq (mmul (madj B0) B0) (mid (nc B0))). apply mmul_id_r. reflexivity. } rewrite Q. reflexivity. }
  split; [exact Rd|]. split; [reflexivity|]. split; [exact i0|]. 
  split. { assert (X : meq (mmul (madj (bv (applyRight T sd))) (bv (applyRight T sd))) (mid (nc B0))) by (rewrite eN; exact NI). exact X. }
  split. { rewrite eN, <- eL. exact NP. }
  split.
  { destruct PD as (_ & _ & h & A). split; [reflexivity|]. split; [reflexivity|]. assert (Q : meq (mmul (madj B0) (bv (applyRight T sd))) (mmul (madj B0) N)) by (rewrite eN; reflexivity).
    split; [unfold hermitian in *; rewrite Q; exact h|]. intros x Nx. rewrite (@qform_ext (nc B0) _ (mmul (madj B0) N) x); [apply A; auto|].
    intros i j Hi' Hj'. destruct Q as (_ & _ & Q). apply Q; auto. }
  split.
  { rewrite eH, eN, eT. rewrite <- Full. unfold mconj. rewrite madj_mul, madj_adj, !mmul_assoc. reflexivity. }
  exists (mmul (madj Lm) N).
  pose proof (@Q_unitary CR cancel2 n P0 P V dP0 dP dV idP rootV Fl B0 (bv sd) (msel (nc (bv sd)) idx)) as QU.
  pose proof (@N_LQ CR cancel2 n P0 P V dP0 dP dV idP rootV Fl B0 (bv sd) (msel (nc (bv sd)) idx)) as NL.
  pose proof (@T_SQ CR cancel2 n P0 P V dP0 dP dV idP rootV Fl B0 (bv sd) (msel (nc (bv sd)) idx)) as TS.
  unfold Q in *. fold Lm in QU, NL, TS. fold N in QU, NL, TS. fold T in TS.
  split; [apply QU; auto|]. split; [rewrite eN, <- eL; apply NL; auto|].
  rewrite eH. assert (TS' : meq T (mmul (msel (nc (bv sd)) idx) (mmul (madj Lm) N))) by (apply TS; auto). rewrite TS' , mconj_mul.
  assert (X : meq (mconj (msel (nc (bv sd)) idx) (ham sd)) (Mat (nc B0) (nc B0) (fun a b => smul (delta a b) (at_ (ham sd) (nth a idx 0%nat) (nth a idx 0%nat))))).
  { split; [exact Li|]. split; [exact Li|]. intros a b Ha Hb. cbn [mconj mmul nr nc madj msel] in Ha, Hb.
    pose proof (Lt _ (nth_In idx 0%nat Ha)) as La. pose proof (Lt _ (nth_In idx 0%nat Hb)) as Lb.
    unfold mconj. cbn [mmul msel madj at_ nr nc]. rewrite Hd1, Hd2, !Nat.min_id. cbn [msel at_ nc].
    rewrite (nth_indep idx (nc (bv sd)) 0%nat Ha), (nth_indep idx (nc (bv sd)) 0%nat Hb).
    transitivity (bsum (K := CR) (nc (bv sd)) (fun j => smul (s := CR) (at_ (ham sd) (nth a idx 0%nat) j) (delta j (nth b idx 0%nat)))).
    - apply (@bsum_ext CR). intros j Hj. f_equal.
      transitivity (bsum (K := CR) (nc (bv sd)) (fun i => smul (s := CR) (delta (nth a idx 0%nat) i) (at_ (ham sd) i j))).
      + apply (@bsum_ext CR). intros i Hii. rewrite (@delta_conj CR), (delta_sym i). reflexivity.
      + apply (@bsum_delta_l CR (nc (bv sd)) _ (fun i => at_ (ham sd) i j)). exact La.
    - rewrite (@bsum_delta_r CR (nc (bv sd)) (nth b idx 0%nat) (fun j => at_ (ham sd) (nth a idx 0%nat) j)) by exact Lb.
      destruct (Nat.eq_dec a b) as [->|Nab]; [rewrite delta_same; ring|]. rewrite (delta_diff Nab).
      rewrite Dd; [ring| | |]; try congruence. intro Q. apply Nab. apply (proj1 (NoDup_nth idx 0%nat) Ni); auto. }
  rewrite X. reflexivity.
Qed.
End Sys.
