(** Further proofs about OverlapModel: selection of states, overlap matrix, forgetStatemixing. *)
From Verif Require Import Base Matrix LookupModel SystemModel SystemProofs SystemInv OverlapModel FieldModel OverlapProofs.
From Coq Require Import ZArith Lia Bool Arith Reals Lra Permutation List.
Import ListNotations.
Set Implicit Arguments.
Local Open Scope nat_scope.

Section S.
Context {K : StarRing} {State : Type}.
Add Ring Kr : (s_ring K).
Variables (seqb smatch : State -> State -> bool) (sgen : State -> bool).
Hypothesis seq_eucl : forall x y z, seqb x z = true -> seqb y z = true -> seqb x y = true.

(** The states a searched state [g] stands for. *)
Definition selects (g x : State) : bool := if sgen g then smatch x g else seqb x g.

Lemma lsum_filter : forall (p : nat * State -> bool) (f : nat -> K) tbl,
  lsum f (map fst (filter p tbl)) = lsum (fun e => if p e then f (fst e) else s0) tbl.
Proof.
  intros p f tbl. induction tbl as [|e t IH]; [reflexivity|]. cbn [filter lsum fold_right].
  fold (lsum (fun e => if p e then f (fst e) else s0) t). rewrite <- IH. destruct (p e); cbn [map lsum fold_right]; [reflexivity|].
  fold (lsum f (map fst (filter p t))). ring.
Qed.

Lemma lsum_zero : forall A (f : A -> K) l, (forall x, In x l -> f x = s0) -> lsum f l = s0.
Proof.
  intros A f l H. induction l as [|x l IH]; [reflexivity|]. cbn [lsum fold_right]. fold (lsum f l).
  rewrite IH by (intros; apply H; right; auto). rewrite H by (left; auto). ring.
Qed.

Lemma lsum_find : forall (f : nat -> K) tbl g, ForallOrdPairs (fun a b => seqb a b = false) (map snd tbl) ->
  lsum (fun e => if seqb (snd e) g then f (fst e) else s0) tbl = match tfind seqb tbl g with Some i => f i | None => s0 end.
Proof.
  intros f tbl g. unfold tfind. induction tbl as [|[i x] t IH]; intro D; [reflexivity|].
  inversion D as [|? ? D1 D2]; subst. rewrite Forall_forall in D1. cbn [lsum fold_right find fst snd].
  fold (lsum (fun e : nat * State => if seqb (snd e) g then f (fst e) else s0) t). destruct (seqb x g) eqn:E.
  - cbn [fst]. rewrite lsum_zero; [ring|]. intros [j y] Hy. cbn [snd fst]. destruct (seqb y g) eqn:E'; auto.
    exfalso. assert (X : seqb x y = false) by (apply D1; apply in_map_iff; exists (j, y); auto).
    rewrite (@seq_eucl x y g E E') in X. discriminate.
  - rewrite IH by auto. ring.
Qed.

Lemma rows_sum : forall (f : nat -> K) tbl gs, ForallOrdPairs (fun a b => seqb a b = false) (map snd tbl) ->
  lsum f (overlap_rows seqb smatch sgen tbl gs) = lsum (fun g => lsum (fun e => if selects g (snd e) then f (fst e) else s0) tbl) gs.
Proof.
  intros f tbl gs D. unfold overlap_rows. induction gs as [|g gs IH]; [reflexivity|]. cbn [flat_map]. rewrite lsum_app, IH.
  cbn [lsum fold_right]. f_equal. unfold overlap_rows1, selects. destruct (sgen g).
  - rewrite lsum_filter. reflexivity.
  - rewrite lsum_find by auto. destruct (tfind seqb tbl g); cbn [lsum fold_right]; ring.
Qed.

Lemma rows_in : forall tbl gs i, map fst tbl = seq 0 (length tbl) -> In i (overlap_rows seqb smatch sgen tbl gs) -> i < length tbl.
Proof.
  intros tbl gs i A H. assert (X : In i (map fst tbl)).
  { unfold overlap_rows in H. apply in_flat_map in H. destruct H as (g & _ & H). unfold overlap_rows1 in H.
    destruct (sgen g).
    - apply in_map_iff in H. destruct H as (e & <- & H). apply in_map. apply filter_In in H. tauto.
    - unfold tfind in H. destruct (find (fun e => seqb (snd e) g) tbl) eqn:E; [|contradiction].
      destruct H as [<-|[]]. apply in_map. apply find_some in E. tauto. }
  rewrite A in X. apply in_seq in X. lia.
Qed.

(** An index occurs at most once in the rows of one searched state. *)
Lemma rows1_nodup : forall tbl g, map fst tbl = seq 0 (length tbl) -> NoDup (overlap_rows1 seqb smatch sgen tbl g).
Proof.
  intros tbl g A. unfold overlap_rows1. destruct (sgen g).
  - assert (N : NoDup (map fst tbl)) by (rewrite A; apply seq_NoDup). clear A. induction tbl as [|e t IH]; cbn; [constructor|].
    inversion N; subst. destruct (smatch (snd e) g); auto. cbn. constructor; auto. intro X. apply H1.
    apply in_map_iff in X. destruct X as (x & Ex & X). apply in_map_iff. exists x. split; auto. apply filter_In in X. tauto.
  - destruct (tfind seqb tbl g); constructor; auto; constructor.
Qed.

(** *** The transformator of getConnections *)
Lemma tsum_tr : forall (t1 : list (nat * State)) l i j a, map fst l = seq a (length l) ->
  tsum (flat_map (fun e : nat * State => match tfind seqb t1 (snd e) with Some i => [(i, fst e, s1 : K)] | None => [] end) l) i j =
  lsum (fun e => if (fst e =? j) && match tfind seqb t1 (snd e) with Some i' => i' =? i | None => false end then s1 else s0) l.
Proof.
  intros t1 l i j a H. revert a H. induction l as [|e l IH]; intros a H; [reflexivity|]. injection H as H0 H.
  cbn [flat_map lsum fold_right]. fold (lsum (fun e0 : nat * State => if (fst e0 =? j) && match tfind seqb t1 (snd e0) with Some i' => i' =? i | None => false end then s1 else s0 : K) l).
  rewrite <- (IH _ H). destruct (tfind seqb t1 (snd e)) as [i'|]; cbn [app tsum].
  - rewrite andb_comm. reflexivity.
  - rewrite andb_false_r. ring.
Qed.

Lemma lsum_mul_r : forall A (f : A -> K) c l, smul (lsum f l) c = lsum (fun x => smul (f x) c) l.
Proof.
  intros A f c l. induction l as [|x l IH]; unfold lsum in *; cbn [fold_right]; [ring|]. rewrite <- IH. ring.
Qed.
Lemma lsum_mul_l : forall A (f : A -> K) c l, smul c (lsum f l) = lsum (fun x => smul c (f x)) l.
Proof.
  intros A f c l. induction l as [|x l IH]; unfold lsum in *; cbn [fold_right]; [ring|]. rewrite <- IH. ring.
Qed.
Lemma lsum_add : forall A (f g : A -> K) l, lsum (fun x => sadd (f x) (g x)) l = sadd (lsum f l) (lsum g l).
Proof.
  intros A f g l. induction l as [|x l IH]; unfold lsum in *; cbn [fold_right]; [ring|]. rewrite IH. ring.
Qed.
Lemma lsum_lsum : forall A B (f : A -> B -> K) l m, lsum (fun x => lsum (f x) m) l = lsum (fun y => lsum (fun x => f x y) l) m.
Proof.
  intros A B f l m. induction l as [|x l IH].
  - symmetry. apply lsum_zero. reflexivity.
  - unfold lsum at 1. cbn [fold_right]. fold (lsum (fun x => lsum (f x) m) l). rewrite IH, <- lsum_add. reflexivity.
Qed.

Lemma overlap_pairs : forall (t1 t2 : list (nat * State)) (c h : nat -> K),
  map fst t1 = seq 0 (length t1) -> ForallOrdPairs (fun a b => seqb a b = false) (map snd t1) -> map fst t2 = seq 0 (length t2) ->
  bsum (length t2) (fun j => smul (bsum (length t1) (fun i => smul (c i)
    (tsum (flat_map (fun e : nat * State => match tfind seqb t1 (snd e) with Some i => [(i, fst e, s1 : K)] | None => [] end) t2) i j))) (h j)) =
  lsum (fun e => lsum (fun e' => if seqb (snd e) (snd e') then smul (c (fst e)) (h (fst e')) else s0) t2) t1.
Proof.
  intros t1 t2 c h A1 D1 A2.
  assert (I2 : forall e, In e t2 -> fst e < length t2).
  { intros e He. assert (X : In (fst e) (seq 0 (length t2))) by (rewrite <- A2; apply in_map; auto). apply in_seq in X. lia. }
  assert (I1 : forall g i, tfind seqb t1 g = Some i -> i < length t1).
  { intros g i H. unfold tfind in H. destruct (find (fun e => seqb (snd e) g) t1) eqn:E; [|discriminate]. injection H as <-.
    apply find_some in E. assert (X : In (fst p) (seq 0 (length t1))) by (rewrite <- A1; apply in_map; tauto). apply in_seq in X. lia. }
  set (fd := fun e : nat * State => match tfind seqb t1 (snd e) with Some i => c i | None => s0 end).
  transitivity (bsum (length t2) (fun j => lsum (fun e => smul (smul (delta (fst e) j) (fd e)) (h j)) t2)).
  { apply bsum_ext. intros j Hj. rewrite <- lsum_mul_r. f_equal.
    transitivity (bsum (length t1) (fun i => lsum (fun e => smul (delta (fst e) j) (smul (c i) (if match tfind seqb t1 (snd e) with Some i' => i' =? i | None => false end then s1 else s0))) t2)).
    - apply bsum_ext. intros i Hi. rewrite (@tsum_tr t1 t2 i j 0 A2). rewrite lsum_mul_l. apply lsum_ext. intros e He. unfold delta.
      destruct (fst e =? j); cbn [andb]; destruct (tfind seqb t1 (snd e)); try destruct (_ =? i); ring.
    - rewrite lsum_swap. apply lsum_ext. intros e He. rewrite <- bsum_mul_l. f_equal. unfold fd.
      destruct (tfind seqb t1 (snd e)) as [i'|] eqn:E.
      + rewrite <- (@bsum_delta_r K (length t1) i' c) by (eapply I1; eauto). apply bsum_ext. intros i Hi. unfold delta. rewrite (Nat.eqb_sym i' i). reflexivity.
      + apply bsum_zero. intros. ring. }
  rewrite lsum_swap.
  transitivity (lsum (fun e => smul (fd e) (h (fst e))) t2).
  { apply lsum_ext. intros e He. rewrite <- (@bsum_delta_l K (length t2) (fst e) (fun j => smul (fd e) (h j))) by auto.
    apply bsum_ext. intros; ring. }
  rewrite lsum_lsum. apply lsum_ext. intros e He.
  rewrite (@lsum_find (fun i => smul (c i) (h (fst e))) t1 (snd e) D1). unfold fd. destruct (tfind seqb t1 (snd e)); ring.
Qed.
End S.

(** *** forgetStatemixing *)
Local Open Scope R_scope.

Lemma dominant_iff : forall v : CR, dominant v = true <-> 1 / 2 < re (sqabs v).
Proof.
  intros [a b]. unfold dominant. cbn. unfold cltre. cbn. destruct (Rlt_dec _ _); split; intros; try lra; try congruence.
Qed.


Section F.
Context {K : StarRing}.
Add Ring Kr2 : (s_ring K).

Lemma main_triplets_spec : forall (B : mat K) cols,
  (length (main_triplets B cols) <= length cols)%nat /\
  ((length (main_triplets B cols) < length cols)%nat <-> exists j, In j cols /\ main_row B j = None) /\
  forall i j, tsum (main_triplets B cols) i j = lsum (fun c => if (c =? j)%nat && match main_row B c with Some r => (r =? i)%nat | None => false end then s1 else s0) cols.
Proof.
  intros B cols. induction cols as [|c cols (L & I & T)].
  - cbn. split; [lia|]. split; [split; [lia|intros (j & [] & _)]|reflexivity].
  - cbn [main_triplets]. destruct (main_row B c) as [r|] eqn:E.
    + cbn [length]. split; [lia|]. split.
      * rewrite <- Nat.succ_lt_mono, I. split; intros (j & H1 & H2); exists j.
        { split; auto. right; auto. } { destruct H1 as [->|H1]; [congruence|auto]. }
      * intros i j. cbn [tsum lsum fold_right]. rewrite E. rewrite T. rewrite (andb_comm (r =? i)%nat). reflexivity.
    + cbn [length]. split; [lia|]. split.
      * split; intros _; [exists c; split; [left; auto|auto]|lia].
      * intros i j. rewrite T. unfold lsum. cbn [fold_right]. rewrite E, andb_false_r. ring.
Qed.

Lemma lsum_seq_one : forall (n j : nat) (f : nat -> K), (j < n)%nat -> (forall c, c <> j -> f c = s0) -> lsum f (seq 0 n) = f j.
Proof.
  intros n j f Hj H. rewrite <- bsum_lsum. rewrite <- (@bsum_delta_l K n j f Hj). apply bsum_ext. intros k _.
  unfold delta. destruct (Nat.eqb_spec j k); [subst; ring|]. rewrite H by auto. ring.
Qed.

(** The columns of a selection matrix of distinct rows are orthonormal. *)
Lemma msel_isometry : forall n idxs, (forall i, In i idxs -> (i < n)%nat) -> NoDup idxs -> isometry (msel (K:=K) n idxs).
Proof.
  intros n idxs H N. split; [reflexivity|]. split; [reflexivity|]. intros c c' Hc Hc'. cbn in Hc, Hc'. cbn. rewrite Nat.min_id.
  transitivity (bsum n (fun k => smul (delta (nth c idxs n) k) (delta k (nth c' idxs n)) : K)).
  - apply bsum_ext. intros k Hk. rewrite delta_conj, (delta_sym k). reflexivity.
  - rewrite (@bsum_delta_l K n (nth c idxs n) (fun k => delta k (nth c' idxs n))) by (apply H, nth_In; auto).
    unfold delta. destruct (Nat.eqb_spec c c').
    + subst. rewrite Nat.eqb_refl. reflexivity.
    + destruct (Nat.eqb_spec (nth c idxs n) (nth c' idxs n)) as [E|E]; auto. exfalso. apply n0. eapply NoDup_nth; eauto.
Qed.

Lemma isometry_meq : forall A B : mat K, meq A B -> isometry B -> isometry A.
Proof. intros A B H I. unfold isometry in *. rewrite (meq_nc H). rewrite H. exact I. Qed.
End F.

Lemma forget_shape : forall (B : mat CR), isometry B ->
  length (main_triplets B (seq 0 (nc B))) = nc B ->
  exists rows, length rows = nc B /\ NoDup rows /\ (forall i, In i rows -> (i < nr B)%nat) /\
    (forall j, (j < nc B)%nat -> 1 / 2 < re (sqabs (at_ B (nth j rows 0%nat) j))) /\
    meq (mtrip (nr B) (nc B) (main_triplets B (seq 0 (nc B)))) (msel (nr B) rows).
Proof.
  intros B I L. destruct (main_triplets_spec B (seq 0 (nc B))) as (_ & N & T). rewrite seq_length in N.
  assert (A : forall j, (j < nc B)%nat -> exists r, main_row B j = Some r).
  { intros j Hj. destruct (main_row B j) eqn:E; eauto. exfalso. assert (X : (length (main_triplets B (seq 0 (nc B))) < nc B)%nat).
    { apply N. exists j. split; auto. apply in_seq. lia. } lia. }
  set (rw := fun j => match main_row B j with Some r => r | None => 0%nat end).
  assert (R : forall j, (j < nc B)%nat -> main_row B j = Some (rw j)).
  { intros j Hj. unfold rw. destruct (A j Hj) as [r ->]. reflexivity. }
  assert (D : forall j, (j < nc B)%nat -> (rw j < nr B)%nat /\ 1 / 2 < re (sqabs (at_ B (rw j) j))).
  { intros j Hj. pose proof (R j Hj) as F. unfold main_row in F. apply find_some in F. destruct F as [F1 F2].
    apply in_seq in F1. split; [lia|]. apply dominant_iff; auto. }
  exists (map rw (seq 0 (nc B))). split; [rewrite map_length, seq_length; auto|].
  assert (Nth : forall j d, (j < nc B)%nat -> nth j (map rw (seq 0 (nc B))) d = rw j).
  { intros j d Hj. rewrite (nth_indep _ d (rw 0%nat)) by (rewrite map_length, seq_length; auto). rewrite map_nth, seq_nth by auto. reflexivity. }
  split; [|split; [|split]].
  - apply (NoDup_nth _ 0%nat). intros a b Ha Hb E. rewrite map_length, seq_length in Ha, Hb. rewrite !Nth in E by auto.
    destruct (Nat.eq_dec a b) as [|Nab]; auto. exfalso.
    destruct (D a Ha) as [Da1 Da2]. destruct (D b Hb) as [_ Db2]. rewrite <- E in Db2.
    pose proof (@row_bessel B (rw a) I Da1) as Bs.
    destruct (Nat.lt_gt_cases a b) as [X _]. destruct (X Nab) as [Lt|Lt].
    + pose proof (@re_bsum_ge2 (nc B) (fun k => sqabs (at_ B (rw a) k)) a b (fun i => re_sqabs _) Lt Hb) as Y. cbv beta in Y. lra.
    + pose proof (@re_bsum_ge2 (nc B) (fun k => sqabs (at_ B (rw a) k)) b a (fun i => re_sqabs _) Lt Ha) as Y. cbv beta in Y. lra.
  - intros i Hi. apply in_map_iff in Hi. destruct Hi as (j & <- & Hj). apply in_seq in Hj. apply D. lia.
  - intros j Hj. rewrite Nth by auto. apply D; auto.
  - split; [reflexivity|]. split; [cbn; rewrite map_length, seq_length; reflexivity|]. intros i j Hi Hj. cbn [mtrip nr nc] in Hi, Hj.
    cbn [mtrip at_ msel]. rewrite T. rewrite Nth by auto.
    rewrite (@lsum_seq_one CR (nc B) j); auto.
    + rewrite Nat.eqb_refl, R by auto. cbn [andb]. rewrite Nat.eqb_sym. reflexivity.
    + intros c Hc. apply Nat.eqb_neq in Hc. rewrite Hc. reflexivity.
Qed.
