(** The table of mirror images used for the reflection. *)
From Coq Require Import ZArith Lia Bool List.
Import ListNotations.
From Verif Require Import Base Matrix BasisnamesModel CombineModel CombineSpec OverlapProofs BasisProofs PropNames CombineProofs CombineProofs2 CombineProofs3.
Set Implicit Arguments.

Lemma opposite_iff : forall s s', opposite s s' = true <-> n_ s = n_ s' /\ l_ s = l_ s' /\ jj s = jj s' /\ mm s = (- mm s')%Z.
Proof. intros. unfold opposite. rewrite !andb_true_iff, !Z.eqb_eq. tauto. Qed.
Lemma position_some : forall f l k, position f l = Some k -> exists s, nth_error l k = Some s /\ f s = true.
Proof.
  intros f l. induction l as [|x l IH]; intros k H; [discriminate|]. cbn in H. destruct (f x) eqn:E; [injection H as <-; exists x; auto|].
  destruct (position f l) as [k'|] eqn:P; [|discriminate]. injection H as <-. destruct (IH _ eq_refl) as (s & N & F). exists s. auto.
Qed.
Lemma position_in : forall f l s, In s l -> f s = true -> position f l <> None.
Proof.
  intros f l. induction l as [|x l IH]; intros s I F; [destruct I|]. cbn. destruct (f x) eqn:E; [discriminate|]. destruct I as [->|I]; [congruence|].
  specialize (IH _ I F). destruct (position f l); [discriminate|contradiction].
Qed.

Lemma quad_inj : forall l i k s t, NoDup (map quad l) -> nth_error l i = Some s -> nth_error l k = Some t -> quad s = quad t -> i = k.
Proof.
  intros l i k s t N Hi Hk E. eapply NoDup_nth_error; [exact N| |].
  - rewrite map_length. apply nth_error_Some. congruence.
  - rewrite !nth_error_map, Hi, Hk. cbn. congruence.
Qed.

Lemma mirror_spec : forall b i s, closed b -> nth_error (names1 b) i = Some s ->
  exists s', nth_error (names1 b) (mirror b i) = Some s' /\ opposite s s' = true.
Proof.
  intros b i s [ND CL] H. unfold mirror. rewrite H. destruct (CL s) as (s' & I & O); [eapply nth_error_In; eauto|].
  destruct (position (opposite s) (names1 b)) as [k|] eqn:P; [|destruct (position_in _ _ _ I O P)].
  apply position_some in P. exact P.
Qed.
Lemma mirror_unique : forall b i k s s', closed b -> nth_error (names1 b) i = Some s -> nth_error (names1 b) k = Some s' -> opposite s s' = true -> k = mirror b i.
Proof.
  intros b i k s s' C Hi Hk O. destruct (mirror_spec _ C Hi) as (t & Ht & O'). apply opposite_iff in O, O'. destruct C as [ND _].
  apply (@quad_inj (names1 b) k (mirror b i) s' t ND Hk Ht). unfold quad. destruct O as (? & ? & ? & ?), O' as (? & ? & ? & ?). assert (mm s' = mm t) by lia. congruence.
Qed.
Lemma mirror_invol : forall b i s, closed b -> nth_error (names1 b) i = Some s -> mirror b (mirror b i) = i.
Proof.
  intros b i s C H. destruct (mirror_spec _ C H) as (t & Ht & O). symmetry. apply (mirror_unique _ _ C Ht H). apply opposite_iff in O. apply opposite_iff. intuition lia.
Qed.
Lemma mirror_lt : forall b i, closed b -> (i < length (names1 b))%nat -> (mirror b i < length (names1 b))%nat.
Proof.
  intros b i C H. destruct (nth_error (names1 b) i) as [s|] eqn:E; [|apply nth_error_None in E; lia]. destruct (mirror_spec _ C E) as (t & Ht & _). apply nth_error_Some. congruence.
Qed.

Lemma set_vec_ok : forall A (l : list A) i x, (i < length l)%nat -> exists l', set_vec l i x = Ok l' /\ length l' = length l /\ nth_error l' i = Some x /\
  forall k, k <> i -> nth_error l' k = nth_error l k.
Proof.
  intros A l. induction l as [|y l IH]; intros i x H; [cbn in H; lia|]. destruct i as [|i]; cbn [set_vec].
  - eexists. split; [reflexivity|]. split; [reflexivity|]. split; [reflexivity|]. intros [|k] N; [contradiction|reflexivity].
  - destruct (IH i x) as (l' & E & L & N & Q); [cbn in H; lia|]. rewrite E. cbn [bind]. eexists. split; [reflexivity|]. cbn [length nth_error]. split; [lia|]. split; auto.
    intros [|k] K; [reflexivity|]. cbn. apply Q. congruence.
Qed.

Definition low (t : two) : Prop := (mm (fst_ t) <= 0)%Z.
Lemma map_loop_ok : forall buf ts m,
  (forall t, In t ts -> low t -> (Z.to_nat (buf_get buf t) < length m)%nat) ->
  (forall t t', In t ts -> In t' ts -> low t -> low t' -> Z.to_nat (buf_get buf t) = Z.to_nat (buf_get buf t') -> idx2 t = idx2 t') ->
  exists m', map_loop buf false ts m = Ok m' /\ length m' = length m /\
    (forall t, In t ts -> low t -> nth_error m' (Z.to_nat (buf_get buf t)) = Some (Some (Z.to_nat (idx2 t)))) /\
    (forall r, (forall t, In t ts -> low t -> Z.to_nat (buf_get buf t) <> r) -> nth_error m' r = nth_error m r).
Proof.
  intros buf ts. induction ts as [|t ts IH]; intros m B I.
  { exists m. cbn. split; [reflexivity|]. split; [reflexivity|]. split; [intros t []|auto]. }
  cbn [map_loop]. destruct (Z.ltb_spec 0 (mm (fst_ t))) as [G|G].
  - destruct (IH m) as (m' & E & L & A & Q); [intros; apply B; cbn; auto|intros; apply I; cbn; auto|]. exists m'. rewrite E. split; [reflexivity|]. split; [exact L|]. split.
    + intros u [<-|Hu] Lu; [unfold low in Lu; lia|auto].
    + intros r Hr. apply Q. intros; apply Hr; cbn; auto.
  - destruct (@set_vec_ok _ m (Z.to_nat (buf_get buf t)) (Some (Z.to_nat (idx2 t)))) as (m1 & E1 & L1 & N1 & Q1); [apply B; cbn; auto|]. rewrite E1. cbn [bind].
    destruct (IH m1) as (m' & E & L & A & Q); [intros; rewrite L1; apply B; cbn; auto|intros; apply I; cbn; auto|]. exists m'. rewrite E. split; [reflexivity|]. split; [lia|]. split.
    + intros u [<-|Hu] Lu; [|auto].
      destruct (existsb (fun u => (mm (fst_ u) <=? 0)%Z && Nat.eqb (Z.to_nat (buf_get buf u)) (Z.to_nat (buf_get buf t))) ts) eqn:X.
      * apply existsb_exists in X. destruct X as (u & Hu & X). apply andb_true_iff in X. destruct X as [X1 X2]. apply Z.leb_le in X1. apply Nat.eqb_eq in X2.
        rewrite <- X2, (A u Hu X1). rewrite (I u t); cbn; auto.
      * rewrite Q; [exact N1|]. intros u Hu Lu' E'. assert (true = false); [|discriminate]. rewrite <- X. symmetry. apply existsb_exists. exists u. split; auto.
        rewrite (proj2 (Z.leb_le _ _) Lu'), E', Nat.eqb_refl. reflexivity.
    + intros r Hr. rewrite Q; [|intros; apply Hr; cbn; auto]. apply Q1. intros ->. apply (Hr t); cbn; auto.
Qed.

Lemma in_buffer : forall names e, In e (buffer names) <-> exists t, In t names /\ (0 <= mm (fst_ t))%Z /\ e = (flip t, idx2 t).
Proof.
  intros names e. unfold buffer.
  assert (G : forall l acc, In e (fold_left (fun b t => if (mm (fst_ t) <? 0)%Z then b else (flip t, idx2 t) :: b) l acc) <->
     In e acc \/ exists t, In t l /\ (0 <= mm (fst_ t))%Z /\ e = (flip t, idx2 t)).
  { induction l as [|x l IH]; intros acc; cbn [fold_left].
    - split; [auto|]. intros [H|(t & [] & _)]; auto.
    - rewrite IH. destruct (Z.ltb_spec (mm (fst_ x)) 0).
      + split; intros [A|(t & A & B & C)]; auto; right; exists t; cbn; auto. destruct A as [<-|A]; [lia|auto].
      + cbn [In]. split.
        * intros [[<-|A]|(t & A & B & C)]; auto; right; [exists x|exists t]; auto.
        * intros [A|(t & [<-|A] & B & C)]; auto. right. exists t. auto. }
  rewrite G. cbn. tauto.
Qed.

Section Pair.
Variables (b1 b2 : names_one) (start : one * one).
Hypothesis C1 : closed b1.
Hypothesis C2 : closed b2.
Hypothesis H1 : half b1.
Hypothesis SM : small b1 b2.
Let n2 := length (names1 b2).
Let names := names2 (build2 start b1 b2).

Lemma name_at : forall r, (r < length (names1 b1) * n2)%nat -> exists s1 s2, nth_error (names1 b1) (r / n2) = Some s1 /\ nth_error (names1 b2) (r mod n2) = Some s2 /\
  nth_error names r = Some (Two (Z.of_nat r) s1 s2).
Proof.
  intros r Hr. assert (n2 <> 0)%nat by lia. assert (r / n2 < length (names1 b1))%nat by (apply Nat.div_lt_upper_bound; lia). assert (r mod n2 < n2)%nat by (apply Nat.mod_upper_bound; auto).
  destruct (nth_error (names1 b1) (r / n2)) as [s1|] eqn:E1; [|apply nth_error_None in E1; lia]. destruct (nth_error (names1 b2) (r mod n2)) as [s2|] eqn:E2; [|apply nth_error_None in E2; unfold n2 in *; lia].
  exists s1, s2. split; [reflexivity|]. split; [reflexivity|]. destruct (@C55_rowmajor start b1 b2 _ _ _ _ E1 E2 SM) as (A & _). fold n2 in A.
  replace (r / n2 * n2 + r mod n2)%nat with r in A by (rewrite (Nat.div_mod r n2) at 1 by auto; lia). exact A.
Qed.
Lemma names_length : length names = (length (names1 b1) * n2)%nat.
Proof.
  unfold names, build2. cbn [names2].
  assert (L2 : forall q z, length (number2 z q) = length q) by (induction q as [|[? ?] q IH]; intro; cbn; auto). rewrite L2.
  induction (names1 b1) as [|x l IH]; [reflexivity|]. cbn [flat_map length]. rewrite app_length, map_length, IH. reflexivity.
Qed.
Lemma in_names : forall t, In t names -> exists r s1 s2, (r < length (names1 b1) * n2)%nat /\ t = Two (Z.of_nat r) s1 s2 /\
  nth_error (names1 b1) (r / n2) = Some s1 /\ nth_error (names1 b2) (r mod n2) = Some s2.
Proof.
  intros t I. apply In_nth_error in I. destruct I as [r Hr]. assert (B : (r < length names)%nat) by (apply nth_error_Some; congruence). rewrite names_length in B.
  destruct (name_at B) as (s1 & s2 & A & C & D). exists r, s1, s2. split; auto. split; [congruence|auto].
Qed.

Definition mirror2 (r : nat) : nat := (n2 * mirror b1 (r / n2) + mirror b2 (r mod n2))%nat.
Lemma mirror2_parts : forall r, (r < length (names1 b1) * n2)%nat -> (mirror2 r < length (names1 b1) * n2)%nat /\ (mirror2 r / n2)%nat = mirror b1 (r / n2) /\ (mirror2 r mod n2)%nat = mirror b2 (r mod n2).
Proof.
  intros r Hr. assert (N : n2 <> 0%nat) by lia.
  assert (A : (mirror b1 (r / n2) < length (names1 b1))%nat) by (apply mirror_lt; auto; apply Nat.div_lt_upper_bound; lia).
  assert (B : (mirror b2 (r mod n2) < n2)%nat) by (apply mirror_lt; auto; apply Nat.mod_upper_bound; auto).
  unfold mirror2. split; [nia|]. replace (n2 * mirror b1 (r / n2) + mirror b2 (r mod n2))%nat with (mirror b2 (r mod n2) + mirror b1 (r / n2) * n2)%nat by lia.
  rewrite Nat.div_add, Nat.mod_add, (Nat.div_small (mirror b2 _)), (Nat.mod_small (mirror b2 _)) by assumption. auto.
Qed.
Lemma mirror2_invol : forall r, (r < length (names1 b1) * n2)%nat -> mirror2 (mirror2 r) = r.
Proof.
  intros r Hr. destruct (mirror2_parts Hr) as (A & B & C). unfold mirror2 at 1. rewrite B, C. destruct (name_at Hr) as (s1 & s2 & E1 & E2 & _).
  rewrite (mirror_invol _ C1 E1), (mirror_invol _ C2 E2). symmetry. apply Nat.div_mod. clear - Hr. lia.
Qed.

Lemma buf_get_mirror : forall r s1 s2, (r < length (names1 b1) * n2)%nat -> nth_error names r = Some (Two (Z.of_nat r) s1 s2) -> (mm s1 <= 0)%Z ->
  buf_get (buffer names) (Two (Z.of_nat r) s1 s2) = Z.of_nat (mirror2 r).
Proof.
  intros r s1 s2 Hr N Lo. destruct (name_at Hr) as (s1' & s2' & E1 & E2 & N'). assert (s1' = s1) by congruence. assert (s2' = s2) by congruence. subst s1' s2'.
  destruct (mirror2_parts Hr) as (A & B & C). destruct (name_at A) as (t1 & t2 & F1 & F2 & NM). rewrite B in F1. rewrite C in F2.
  destruct (mirror_spec _ C1 E1) as (t1' & G1 & O1). destruct (mirror_spec _ C2 E2) as (t2' & G2 & O2).
  assert (t1' = t1) by congruence. assert (t2' = t2) by congruence. subst t1' t2'. apply opposite_iff in O1, O2.
  unfold buf_get. destruct (find (fun e => teqb (Two (Z.of_nat r) s1 s2) (fst e)) (buffer names)) as [e|] eqn:Fd.
  - apply find_some in Fd. destruct Fd as [I T]. apply in_buffer in I. destruct I as (t & I & Po & ->). apply in_names in I. destruct I as (r' & u1 & u2 & B' & -> & U1 & U2).
    cbn in T |- *. apply andb_true_iff in T. destruct T as [T1 T2]. unfold oeqb in T1, T2. cbn in T1, T2. rewrite !andb_true_iff, !Z.eqb_eq in T1, T2.
    assert (R1 : (r' / n2)%nat = mirror b1 (r / n2)) by (apply (mirror_unique _ _ C1 E1 U1); apply opposite_iff; intuition lia).
    assert (R2 : (r' mod n2)%nat = mirror b2 (r mod n2)) by (apply (mirror_unique _ _ C2 E2 U2); apply opposite_iff; intuition lia).
    f_equal. unfold mirror2. rewrite <- R1, <- R2. apply Nat.div_mod. clear - B'. lia.
  - exfalso. apply (find_none _ _ Fd (flip (Two (Z.of_nat (mirror2 r)) t1 t2), Z.of_nat (mirror2 r))) || idtac.
    assert (I : In (flip (Two (Z.of_nat (mirror2 r)) t1 t2), Z.of_nat (mirror2 r)) (buffer names)).
    { apply in_buffer. exists (Two (Z.of_nat (mirror2 r)) t1 t2). split; [eapply nth_error_In; eauto|]. cbn. split; [intuition lia|reflexivity]. }
    pose proof (find_none _ _ Fd _ I) as X. cbn in X. apply andb_false_iff in X. unfold oeqb in X. cbn in X.
    destruct X as [X|X]; rewrite !andb_false_iff, !Z.eqb_neq in X; intuition lia.
Qed.

(** the table of the reflection alone *)
Lemma mapping_ref : forall sym, ref sym <> NA -> inv sym = NA -> per sym = NA ->
  exists m, mapping sym names (length (names1 b1) * n2) = Ok m /\
  forall r s1, (r < length (names1 b1) * n2)%nat -> nth_error (names1 b1) (r / n2) = Some s1 -> (0 <= mm s1)%Z -> nth_error m r = Some (Some (mirror2 r)).
Proof.
  intros sym R I P. unfold mapping. assert (U : used (ref sym) = true) by (destruct (ref sym); [contradiction|reflexivity|reflexivity]). rewrite U, I, P. cbn [used orb].
  destruct (@map_loop_ok (buffer names) names (repeat None (length (names1 b1) * n2))) as (m & E & L & A & _).
  - intros t It Lo. apply in_names in It as It'. destruct It' as (r & s1 & s2 & B & -> & N1 & N2). rewrite buf_get_mirror; auto.
    + rewrite Nat2Z.id, repeat_length. apply mirror2_parts; auto.
    + destruct (name_at B) as (u1 & u2 & X1 & X2 & X). rewrite X. congruence.
  - intros t t' It It' Lo Lo' Eq. apply in_names in It. apply in_names in It'. destruct It as (r & s1 & s2 & B & -> & N1 & N2). destruct It' as (r' & s1' & s2' & B' & -> & N1' & N2').
    assert (X : nth_error names r = Some (Two (Z.of_nat r) s1 s2)) by (destruct (name_at B) as (u1 & u2 & X1 & X2 & X); rewrite X; congruence).
    assert (X' : nth_error names r' = Some (Two (Z.of_nat r') s1' s2')) by (destruct (name_at B') as (u1 & u2 & X1 & X2 & Y); rewrite Y; congruence).
    rewrite !buf_get_mirror, !Nat2Z.id in Eq by auto. cbn. f_equal. rewrite <- (mirror2_invol B), <- (mirror2_invol B'), Eq. reflexivity.
  - exists m. split; [exact E|]. intros r s1 B N1 Po. destruct (mirror2_parts B) as (Bm & D & M). destruct (name_at Bm) as (t1 & t2 & F1 & F2 & X).
    rewrite D in F1. destruct (mirror_spec _ C1 N1) as (u & G & O). assert (u = t1) by congruence. subst u. apply opposite_iff in O.
    assert (Lo : (mm t1 <= 0)%Z) by intuition lia.
    specialize (A _ (nth_error_In _ _ X) Lo). rewrite buf_get_mirror, !Nat2Z.id, mirror2_invol in A by auto. cbn [idx2] in A. rewrite Nat2Z.id in A. exact A.
Qed.
End Pair.
