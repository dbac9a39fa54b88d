(** add(), unitarize(), constrainBasisvectors(): exact results (C33, C37, C39). *)
From Verif Require Import Base Matrix LookupModel LookupProofs SystemModel SystemProofs SystemExact SystemInv.
From Coq Require Import ZArith Lia Bool Arith Setoid Morphisms List.
Import ListNotations.
Set Implicit Arguments.

Lemma has_dup_iff : forall l, has_dup l = false <-> NoDup l.
Proof.
  induction l; simpl. { split; [constructor|auto]. }
  rewrite orb_false_iff. split.
  - intros [A B]. constructor; [|apply IHl; auto]. intro H.
    assert (X : existsb (Nat.eqb a) l = true) by (apply existsb_exists; exists a; rewrite Nat.eqb_refl; auto). congruence.
  - intro H. inversion H; subst. split; [|apply IHl; auto].
    apply not_true_is_false. intro X. apply existsb_exists in X. destruct X as (x & Hx & E).
    apply Nat.eqb_eq in E. subst. auto.
Qed.

Section Merge.
Context {K : StarRing} {State : Type}.
Variable seqb : State -> State -> bool.
Hypothesis seq_refl : forall x, seqb x x = true.
Hypothesis seq_sym : forall x y, seqb x y = seqb y x.
Hypothesis seq_trans : forall x y z, seqb x y = true -> seqb y z = true -> seqb x z = true.

Notation merge := (merge_states (K := K) seqb).

(** States of the second list that are not in the first. *)
Definition unknown (tbl l : list State) : list State :=
  filter (fun x => negb (existsb (fun y => seqb y x) tbl)) l.

Lemma tfind_existsb : forall (tbl : list (nat * State)) x,
  existsb (fun y => seqb y x) (map snd tbl) = match tfind seqb tbl x with Some _ => true | None => false end.
Proof.
  intros. unfold tfind. induction tbl as [|[i y] t IH]; simpl; auto.
  destruct (seqb y x); simpl; auto.
Qed.

Lemma tfind_app : forall (t1 t2 : list (nat * State)) x,
  tfind seqb (t1 ++ t2) x = match tfind seqb t1 x with Some i => Some i | None => tfind seqb t2 x end.
Proof.
  intros. unfold tfind. induction t1 as [|[i y] t IH]; simpl; auto.
  destruct (seqb y x); simpl; auto.
Qed.

Lemma tfind_cong : forall (t : list (nat * State)) x y, seqb x y = true -> tfind seqb t x = tfind seqb t y.
Proof.
  intros t x y E. unfold tfind. induction t as [|[i z] t IH]; simpl; auto.
  assert (H : seqb z x = seqb z y).
  { apply eq_true_iff_eq. split; intro; eapply seq_trans; eauto; rewrite seq_sym; auto. }
  rewrite <- H. destruct (seqb z x); auto.
Qed.

Lemma merge_states_list : forall l tbl, distinct_states seqb (map snd l) ->
  map snd (fst (merge tbl l)) = map snd tbl ++ unknown (map snd tbl) (map snd l).
Proof.
  induction l as [|[i x] l IH]; intros tbl D; simpl. { rewrite app_nil_r. auto. }
  simpl in D. inversion D as [|? ? D1 D2]; subst. rewrite Forall_forall in D1.
  rewrite tfind_existsb.
  destruct (tfind seqb tbl x) eqn:E; simpl.
  - specialize (IH tbl D2). destruct (merge tbl l); simpl in *. auto.
  - specialize (IH (tbl ++ [(length tbl, x)]) D2).
    destruct (merge (tbl ++ [(length tbl, x)]) l); simpl in *. rewrite IH, map_app, <- app_assoc. simpl.
    f_equal. f_equal. unfold unknown. apply filter_ext_in. intros y Hy. f_equal.
    rewrite existsb_app. simpl. rewrite (D1 y Hy). rewrite !orb_false_r. reflexivity.
Qed.

Lemma merge_prefix : forall l tbl, exists ext, fst (merge tbl l) = tbl ++ ext.
Proof.
  induction l as [|[i x] l IH]; intros tbl; simpl. { exists []. rewrite app_nil_r; auto. }
  destruct (tfind seqb tbl x).
  - destruct (IH tbl) as [e He]. destruct (merge tbl l); simpl in *. eauto.
  - destruct (IH (tbl ++ [(length tbl, x)])) as [e He]. destruct (merge (tbl ++ [(length tbl, x)]) l); simpl in *.
    exists ((length tbl, x) :: e). rewrite He, <- app_assoc. reflexivity.
Qed.

(** Every triplet (k, i, 1) sends index i of an entry of the second system
    to the index of the same state in the union. *)
Lemma merge_triplets : forall l tbl, exists f,
  snd (merge tbl l) = map (fun e => (f (snd e), fst e, s1)) l /\
  (forall e, In e l -> tfind seqb (fst (merge tbl l)) (snd e) = Some (f (snd e))).
Proof.
  intros l tbl.
  set (f := fun x => match tfind seqb (fst (merge tbl l)) x with Some k => k | None => 0 end).
  exists f.
  assert (H : snd (merge tbl l) = map (fun e => (f (snd e), fst e, s1)) l /\
     forall e, In e l -> exists k, tfind seqb (fst (merge tbl l)) (snd e) = Some k).
  { unfold f. clear f. revert tbl.
    induction l as [|[i x] l IH]; intro tbl; simpl. { split; auto. intros e []. }
    destruct (tfind seqb tbl x) eqn:E.
    - destruct (IH tbl) as [I1 I2]. destruct (@merge_prefix l tbl) as [ext Hx].
      destruct (merge tbl l) as [t tr]; simpl in *.
      assert (Et : tfind seqb t x = Some n) by (rewrite Hx, tfind_app, E; auto).
      rewrite Et. split; [f_equal; auto|]. intros e [<-|He]; auto. exists n. auto.
    - destruct (IH (tbl ++ [(length tbl, x)])) as [I1 I2]. destruct (@merge_prefix l (tbl ++ [(length tbl, x)])) as [ext Hx].
      destruct (merge (tbl ++ [(length tbl, x)]) l) as [t tr]; simpl in *.
      assert (Et : tfind seqb t x = Some (length tbl)).
      { rewrite Hx, !tfind_app, E. unfold tfind. simpl. rewrite seq_refl. auto. }
      rewrite Et. split; [f_equal; auto|]. intros e [<-|He]; auto. exists (length tbl). auto. }
  destruct H as [H1 H2]. split; auto. intros e He. destruct (H2 e He) as [k Hk]. unfold f. rewrite Hk. auto.
Qed.

(** Coefficient of the summed triplets. *)
Lemma tsum_map : forall (f : State -> nat) l i j,
  (forall e e', In e l -> In e' l -> fst e = fst e' -> e = e') -> NoDup (map fst l) ->
  tsum (map (fun e : nat * State => (f (snd e), fst e, s1 : K)) l) i j =
  match find (fun e => (fst e =? j) && (f (snd e) =? i)) l with Some _ => s1 | None => s0 end.
Proof.
  intros f l i j. 
  assert (R : ring_theory (R:=K) s0 s1 sadd smul ssub sopp eq) by apply s_ring.
  induction l as [|e l IH]; intros Hu Hn; simpl; auto.
  inversion Hn; subst.
  assert (IH' : tsum (map (fun e : nat * State => (f (snd e), fst e, s1 : K)) l) i j =
     match find (fun e => (fst e =? j) && (f (snd e) =? i)) l with Some _ => s1 | None => s0 end).
  { apply IH; auto. intros; apply Hu; auto; right; auto. }
  rewrite IH', andb_comm. destruct ((fst e =? j) && (f (snd e) =? i)) eqn:E.
  - apply andb_true_iff in E. destruct E as [E1 E2]. apply Nat.eqb_eq in E1. subst j.
    destruct (find _ l) as [e'|] eqn:Ef.
    + apply find_some in Ef. destruct Ef as [Hin E3]. apply andb_true_iff in E3. destruct E3 as [E3 _].
      apply Nat.eqb_eq in E3. exfalso. apply H1. rewrite <- E3. apply in_map; auto.
    + rewrite (Radd_comm R). apply (Radd_0_l R).
  - apply (Radd_0_l R).
Qed.
End Merge.

Section AddP.
Context {K : StarRing} {State Param Key Angle : Type}.
Variable seqb : State -> State -> bool.
Hypothesis seq_refl : forall x, seqb x x = true.
Hypothesis seq_sym : forall x y, seqb x y = seqb y x.
Hypothesis seq_trans : forall x y z, seqb x y = true -> seqb y z = true -> seqb x z = true.
Local Open Scope star_scope.
Add Ring Kr3 : (s_ring K).

(** Row [i] of the union taken from the second system: the coefficient of
    the same state there, zero if the second system does not have it. *)
Definition row_of (tblo : list (nat * State)) (B : mat K) (x : State) (j : nat) : K :=
  match tfind seqb tblo x with Some k => at_ B k j | None => 0 end.

Lemma tfind_aligned : forall tbl i x, table_ok seqb tbl -> nth_error (map snd tbl) i = Some x ->
  tfind seqb tbl x = Some i.
Proof.
  intros tbl i x [A D] H.
  destruct (nth_error tbl i) as [[i' x']|] eqn:E.
  2:{ rewrite nth_error_map, E in H. discriminate. }
  pose proof (@aligned_nth2 State tbl i _ A E) as E2. simpl in E2. subst i'.
  rewrite nth_error_map, E in H. simpl in H. injection H as ->.
  assert (Hin : In (i, x) tbl) by (eapply nth_error_In; eauto).
  destruct (tfind seqb tbl x) as [k|] eqn:F.
  2:{ exfalso. pose proof (tfind_none _ _ _ F _ _ Hin) as X. rewrite seq_refl in X. discriminate. }
  apply tfind_some in F. destruct F as (y & Hy & Ey). f_equal.
  destruct (Nat.eq_dec k i) as [|N]; auto. exfalso.
  (* two different positions with equal states *)
  destruct (@aligned_nth State tbl k y A Hy) as [P1 _]. destruct (@aligned_nth State tbl i x A Hin) as [P2 _].
  clear - D P1 P2 Ey N seq_sym.
  assert (G : forall l a b u v, distinct_states seqb l -> nth_error l a = Some u -> nth_error l b = Some v ->
     (a < b)%nat -> seqb u v = false).
  { induction l as [|w l IH]; intros a b u v D0 Ha Hb L. { destruct a; discriminate. }
    inversion D0 as [|? ? D1 D2]; subst. rewrite Forall_forall in D1.
    destruct b; [lia|]. destruct a; simpl in *.
    - injection Ha as <-. apply D1. eapply nth_error_In; eauto.
    - eapply IH; eauto. lia. }
  assert (Q1 : nth_error (map snd tbl) k = Some y) by (rewrite nth_error_map, P1; auto).
  assert (Q2 : nth_error (map snd tbl) i = Some x) by (rewrite nth_error_map, P2; auto).
  destruct (Nat.lt_ge_cases k i).
  - rewrite (G _ _ _ _ _ D Q1 Q2) in Ey by lia. discriminate.
  - rewrite seq_sym in Ey. rewrite (G _ _ _ _ _ D Q2 Q1) in Ey by lia. discriminate.
Qed.

Lemma merge_row : forall tbl tblo (B : mat K) i x j,
  table_ok seqb tbl -> table_ok seqb tblo -> nr B = length tblo ->
  nth_error (map snd (fst (merge_states (K:=K) seqb tbl tblo))) i = Some x ->
  at_ (mmul (mtrip (length (fst (merge_states (K:=K) seqb tbl tblo))) (nr B) (snd (merge_states (K:=K) seqb tbl tblo))) B) i j
  = row_of tblo B x j.
Proof.
  intros tbl tblo B i x j T To R Hi.
  destruct (@merge_triplets K State seqb seq_refl tblo tbl) as (f & F1 & F2).
  pose proof (@merge_table State seqb K tblo tbl T) as TM.
  set (m := merge_states (K:=K) seqb tbl tblo) in *. rewrite F1.
  pose proof (@tfind_aligned (fst m) i x TM Hi) as Fx.
  simpl. rewrite Nat.min_id.
  pose proof To as [Ao Do].
  assert (Nd : NoDup (map fst tblo)) by (rewrite Ao; apply seq_NoDup).
  assert (Un : forall e e', In e tblo -> In e' tblo -> fst e = fst e' -> e = e').
  { intros [a u] [b v] He He' E. simpl in E. subst b.
    destruct (@aligned_nth State tblo a u Ao He) as [P1 _]. destruct (@aligned_nth State tblo a v Ao He') as [P2 _].
    congruence. }
  rewrite (@bsum_ext K (nr B) _ (fun k => (match find (fun e => (fst e =? k)%nat && (f (snd e) =? i)%nat) tblo with
     Some _ => 1 | None => 0 end) * at_ B k j)).
  2:{ intros k Hk. f_equal. apply tsum_map; auto. }
  unfold row_of. destruct (tfind seqb tblo x) as [k|] eqn:E.
  - apply tfind_some in E. destruct E as (y & Hy & Ey).
    assert (Fy : f y = i).
    { pose proof (F2 _ Hy) as X. simpl in X. rewrite (@tfind_cong State seqb seq_refl seq_sym seq_trans (fst m) _ _ Ey), Fx in X. congruence. }
    destruct (@aligned_nth State tblo k y Ao Hy) as [P1 P2].
    rewrite <- (@bsum_delta_l K (nr B) k (fun k => at_ B k j)) by lia.
    apply bsum_ext. intros k' Hk'. f_equal.
    destruct (Nat.eq_dec k k') as [<-|N].
    + rewrite delta_same.
      destruct (find (fun e => (fst e =? k)%nat && (f (snd e) =? i)%nat) tblo) eqn:Ef; auto.
      pose proof (find_none _ _ Ef _ Hy) as X. simpl in X. rewrite Fy, !Nat.eqb_refl in X. discriminate.
    + rewrite delta_diff by auto.
      destruct (find _ tblo) as [[k2 z]|] eqn:Ef; auto. exfalso.
      apply find_some in Ef. destruct Ef as [Hz Ez]. simpl in Ez. apply andb_true_iff in Ez.
      destruct Ez as [E1 E2]. apply Nat.eqb_eq in E1, E2. subst k2.
      pose proof (F2 _ Hz) as X. simpl in X. rewrite E2 in X.
      assert (Hzy : seqb z y = true).
      { apply tfind_some in X. destruct X as (w & Hw & Ew).
        assert (w = x).
        { destruct (@aligned_nth State (fst m) i w (proj1 TM) Hw) as [Pw _].
          rewrite nth_error_map, Pw in Hi. simpl in Hi. congruence. }
        subst w. rewrite seq_sym in Ew. eapply seq_trans; eauto. }
      assert (X1 : tfind seqb tblo y = Some k).
      { apply tfind_aligned; auto. rewrite nth_error_map, P1. auto. }
      destruct (@aligned_nth State tblo k' z Ao Hz) as [P3 _].
      assert (X2 : tfind seqb tblo z = Some k').
      { apply tfind_aligned; auto. rewrite nth_error_map, P3. auto. }
      rewrite (@tfind_cong State seqb seq_refl seq_sym seq_trans tblo _ _ Hzy) in X2. congruence.
  - apply bsum_zero. intros k Hk.
    destruct (find _ tblo) as [[k2 z]|] eqn:Ef; [|ring]. exfalso.
    apply find_some in Ef. destruct Ef as [Hz Ez]. simpl in Ez. apply andb_true_iff in Ez.
    destruct Ez as [E1 E2]. apply Nat.eqb_eq in E1, E2.
    pose proof (F2 _ Hz) as X. simpl in X. rewrite E2 in X.
    apply tfind_some in X. destruct X as (w & Hw & Ew).
    assert (w = x).
    { destruct (@aligned_nth State (fst m) i w (proj1 TM) Hw) as [Pw _].
      rewrite nth_error_map, Pw in Hi. simpl in Hi. congruence. }
    subst w. pose proof (tfind_none _ _ _ E _ _ Hz) as Y. rewrite seq_sym, Ew in Y. discriminate.
Qed.

(** Shifted block. *)
Lemma shifter_row : forall n m (H : mat K) i j, nr H = m ->
  at_ (mmul (shifter n m) H) i j = if ((n <=? i)%nat && (i <? n + m)%nat)%bool then at_ H (i - n)%nat j else 0.
Proof.
  intros n m H i j R. simpl. rewrite R, Nat.min_id.
  destruct (n <=? i)%nat eqn:E1; simpl.
  - apply Nat.leb_le in E1. destruct (i <? n + m)%nat eqn:E2.
    + apply Nat.ltb_lt in E2. rewrite <- (@bsum_delta_l K m (i - n) (fun k => at_ H k j)) by lia.
      apply bsum_ext. intros k Hk. f_equal. unfold delta.
      destruct (Nat.eqb_spec i (n + k)); destruct (Nat.eqb_spec (i - n) k); auto; lia.
    + apply Nat.ltb_ge in E2. apply bsum_zero. intros k Hk.
      destruct (Nat.eqb_spec i (n + k)); [lia|ring].
  - apply Nat.leb_gt in E1. apply bsum_zero. intros k Hk.
    destruct (Nat.eqb_spec i (n + k)); [lia|ring].
Qed.
End AddP.
