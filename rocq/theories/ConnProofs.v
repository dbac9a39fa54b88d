(** Proofs about getConnections, getBasisvectorIndex and getMainStates (OverlapModel). *)
From Verif Require Import Base Matrix LookupModel SystemModel OverlapModel.
From Coq Require Import ZArith QArith Lia Bool Arith Sorted Permutation List.
Import ListNotations.
Set Implicit Arguments.
Local Open Scope nat_scope.

Lemma qlt_iff : forall a b, qlt a b = true <-> (a < b)%Q.
Proof.
  intros. unfold qlt. rewrite negb_true_iff. split; intro H.
  - apply Qnot_le_lt. intro C. apply Qle_bool_iff in C. congruence.
  - destruct (Qle_bool b a) eqn:E; auto. apply Qle_bool_iff in E. exfalso. apply (Qlt_irrefl a). eapply Qlt_le_trans; eauto.
Qed.
Lemma qlt_false : forall a b, qlt a b = false <-> (b <= a)%Q.
Proof. intros. unfold qlt. rewrite negb_false_iff. apply Qle_bool_iff. Qed.

(** [e] is a first largest element of [l]. *)
Definition bestOf (l : list (nat * Q)) (i : nat) (v : Q) : Prop :=
  In (i, v) l /\ forall i' v', In (i', v') l -> (v' <= v)%Q /\ (i' < i -> (v' < v)%Q).

Definition inc (l : list (nat * Q)) : Prop := StronglySorted (fun a b => fst a < fst b) l.

Lemma argmax_cases : forall l cur m, inc l ->
  (argmax cur m l = (cur, m) /\ forall i v, In (i, v) l -> (v <= m)%Q) \/
  (exists i v, argmax cur m l = (Some i, v) /\ (m < v)%Q /\ bestOf l i v).
Proof.
  induction l as [|[i v] l IH]; intros cur m S; cbn [argmax].
  - left. split; auto. intros ? ? [].
  - inversion S as [|? ? S' F]; subst. rewrite Forall_forall in F. destruct (qlt m v) eqn:E.
    + apply qlt_iff in E. right. destruct (IH (Some i) v S') as [[Q A]|(i' & v' & Q & L & I & B)].
      * exists i, v. split; auto. split; auto. split; [left; auto|]. intros i' v' [X|X].
        { injection X as <- <-. split; [apply Qle_refl|lia]. }
        { split; [eapply A; eauto|]. intro. specialize (F _ X). cbn in F. lia. }
      * exists i', v'. split; auto. split; [eapply Qlt_trans; eauto|]. split; [right; auto|]. intros i2 v2 [X|X].
        { injection X as <- <-. split; [apply Qlt_le_weak; auto|auto]. }
        { apply B; auto. }
    + apply qlt_false in E. destruct (IH cur m S') as [[Q A]|(i' & v' & Q & L & I & B)].
      * left. split; auto. intros i' v' [X|X]; [injection X as <- <-; auto|eapply A; eauto].
      * right. exists i', v'. split; auto. split; auto. split; [right; auto|]. intros i2 v2 [X|X].
        { injection X as <- <-. split; [eapply Qle_trans; [eauto|apply Qlt_le_weak; auto]|intros _; eapply Qle_lt_trans; eauto]. }
        { apply B; auto. }
Qed.

Lemma inc_unique : forall l i v v', inc l -> In (i, v) l -> In (i, v') l -> v = v'.
Proof.
  induction l as [|e l IH]; intros i v v' S H H'; [contradiction|]. inversion S as [|? ? S' F]; subst. rewrite Forall_forall in F.
  destruct H as [->|H], H' as [X|H']; try congruence; eauto.
  - apply F in H'. cbn in H'. lia.
  - subst. apply F in H. cbn in H. lia.
Qed.

Lemma bestOf_unique : forall l i v i' v', inc l -> bestOf l i v -> bestOf l i' v' -> i = i' /\ v = v'.
Proof.
  intros l i v i' v' S [H A] [H' A'].
  assert (i = i').
  { destruct (lt_eq_lt_dec i i') as [[L|E]|L]; auto; exfalso.
    - apply (Qlt_irrefl v). eapply Qlt_le_trans; [apply (A' i v H); auto|]. apply (A i' v' H').
    - apply (Qlt_irrefl v'). eapply Qlt_le_trans; [apply (A i' v' H'); auto|]. apply (A' i v H). }
  subst. split; auto. eapply inc_unique; eauto.
Qed.

(** A stored entry of a sparse matrix. *)
Definition entryM (M : spm) (i j : nat) (v : Q) : Prop := exists col, nth_error M j = Some col /\ In (i, v) col.

(** Compressed storage: rows increase within every column and lie inside the matrix. *)
Definition wfM (n : nat) (M : spm) : Prop :=
  forall j col, nth_error M j = Some col -> inc col /\ forall i v, In (i, v) col -> i < n.

Lemma row_from_in : forall M k j0 j v, In (j, v) (row_from j0 M k) <-> exists d, j = j0 + d /\ entryM M k d v.
Proof.
  induction M as [|col M IH]; intros k j0 j v; cbn [row_from].
  - split; [intros []|]. intros (d & _ & c & H & _). destruct d; discriminate.
  - rewrite in_app_iff, in_map_iff, IH. split.
    + intros [([i w] & E & F)|(d & E & c & H & I)].
      * apply filter_In in F. destruct F as [F G]. cbn in G. apply Nat.eqb_eq in G. cbn in E. injection E as <- <-. subst.
        exists 0. split; [lia|]. exists col. split; auto.
      * exists (S d). split; [lia|]. exists c. auto.
    + intros (d & E & c & H & I). destruct d.
      * left. cbn in H. injection H as <-. exists (k, v). split; [cbn; f_equal; lia|]. apply filter_In. split; auto. cbn. apply Nat.eqb_refl.
      * right. exists d. split; [lia|]. exists c. auto.
Qed.

Lemma row_from_inc : forall M k j0, (forall j col, nth_error M j = Some col -> inc col) -> inc (row_from j0 M k).
Proof.
  induction M as [|col M IH]; intros k j0 W; cbn [row_from]; [constructor|].
  assert (R : inc (row_from (S j0) M k)) by (apply IH; intros j c H; apply (W (S j) c H)).
  assert (L : forall e, In e (row_from (S j0) M k) -> j0 < fst e).
  { intros [j v] H. apply row_from_in in H. destruct H as (d & -> & _). cbn. lia. }
  assert (C : inc col) by (apply (W 0 col eq_refl)).
  set (f := filter (fun e : nat * Q => fst e =? k) col).
  assert (F : forall e, In e f -> fst e = k) by (intros e H; apply filter_In in H; apply Nat.eqb_eq; apply H).
  assert (S : inc f). { unfold f. clear -C. unfold inc in *. induction C; cbn; [constructor|]. destruct (fst a =? k); auto. constructor; auto.
    rewrite Forall_forall in *. intros x Hx. apply filter_In in Hx. apply H; tauto. }
  destruct f as [|a [|b f']].
  - exact R.
  - cbn. constructor; auto. rewrite Forall_forall. intros e He. cbn. apply L; auto.
  - exfalso. inversion S as [|? ? S' FF]; subst. rewrite Forall_forall in FF. specialize (FF b (or_introl eq_refl)).
    rewrite (F a), (F b) in FF by (cbn; auto). lia.
Qed.

(** ** getConnections *)

(** [(i, j)] is a connection: stored value above the threshold, first largest in its row and in its column. *)
Definition connected (M : spm) (t : Q) (i j : nat) : Prop :=
  exists v, entryM M i j v /\ (t < v)%Q /\
    (forall i' v', entryM M i' j v' -> (v' <= v)%Q /\ (i' < i -> (v' < v)%Q)) /\
    (forall j' v', entryM M i j' v' -> (v' <= v)%Q /\ (j' < j -> (v' < v)%Q)).

Lemma colbest : forall n M j col, wfM n M -> (forall i v, entryM M i j v -> (0 <= v)%Q) -> nth_error M j = Some col ->
  match nth_error (rows_with_maxval M) j with
  | Some (Some i) => exists v, bestOf col i v
  | Some None => col = []
  | None => False
  end.
Proof.
  intros n M j col W P H. unfold rows_with_maxval. rewrite nth_error_map, H. cbn.
  destruct (@argmax_cases col None (-1 # 1)%Q) as [[Q A]|(i & v & Q & L & B)].
  - apply (W j col H).
  - rewrite Q. cbn. destruct col as [|[i v] col]; auto. exfalso. specialize (A i v (or_introl eq_refl)).
    assert (0 <= v)%Q by (apply (P i v); exists ((i, v) :: col); split; auto; left; auto).
    assert (C : (0 <= -1 # 1)%Q) by (eapply Qle_trans; eauto). compute in C. congruence.
  - rewrite Q. cbn. eauto.
Qed.

Lemma rowbest_iff : forall M i j v, (forall j col, nth_error M j = Some col -> inc col) ->
  (bestOf (row_from 0 M i) j v <-> entryM M i j v /\ forall j' v', entryM M i j' v' -> (v' <= v)%Q /\ (j' < j -> (v' < v)%Q)).
Proof.
  intros M i j v W. unfold bestOf. rewrite row_from_in. split; intros [H A]; split.
  - destruct H as (d & -> & H). exact H.
  - intros j' v' H'. apply A. apply row_from_in. exists j'. auto.
  - exists j. auto.
  - intros j' v' H'. apply row_from_in in H'. destruct H' as (d & -> & H'). apply A; auto.
Qed.

Lemma connect_spec : forall n M t ks, wfM n M -> (forall i j v, entryM M i j v -> (0 <= v)%Q) ->
  exists l, connect M t ks = Ok l /\ (forall i j, In (i, j) l <-> In i ks /\ connected M t i j) /\
    (NoDup ks -> NoDup (map fst l)).
Proof.
  intros n M t ks W P. assert (W' : forall j col, nth_error M j = Some col -> inc col) by (intros; eapply W; eauto).
  induction ks as [|k ks (l & E & IH & ND)]; cbn [connect].
  - exists []. split; auto. split; [|constructor]. intros i j. split; [intros []|intros [[] _]].
  - destruct (@argmax_cases (row_from 0 M k) None t (@row_from_inc M k 0 W')) as [[Q A]|(j & v & Q & L & B)].
    + rewrite Q. replace (qlt t t) with false by (symmetry; apply qlt_false; apply Qle_refl). cbn [bind]. rewrite E. cbn [bind app].
      exists l. split; auto. split.
      * intros i j. rewrite IH. split; [intros [H1 H2]; split; auto; right; auto|].
        intros [[->|H1] H2]; [|auto]. exfalso. destruct H2 as (v & H2 & H3 & _).
        apply (Qlt_irrefl t). eapply Qlt_le_trans; eauto. apply (A j v). apply row_from_in. exists j. auto.
      * intro N. inversion N; auto.
    + rewrite Q. replace (qlt t v) with true by (symmetry; apply qlt_iff; auto).
      assert (B' := proj1 (@rowbest_iff M k j v W') B). destruct B' as [(col & Hc & Hi) BR].
      pose proof (@colbest n M j col W (fun i v => P i j v) Hc) as C.
      destruct (nth_error (rows_with_maxval M) j) as [[i|]|]; [|subst; contradiction|contradiction].
      destruct C as [w C]. cbn [bind]. rewrite E. cbn [bind].
      assert (CC : forall i', connected M t k i' -> i' = j /\ i = k).
      { intros i' (u & U1 & U2 & U3 & U4).
        assert (U5 : bestOf (row_from 0 M k) i' u) by (apply rowbest_iff; auto).
        destruct (bestOf_unique (@row_from_inc M k 0 W') B U5) as [<- <-]. split; auto.
        destruct U1 as (c & Hc' & I'). assert (c = col) by congruence. subst c.
        eapply bestOf_unique; [apply (W' _ _ Hc)|exact C|]. split; [exact I'|]. intros i2 v2 H2. apply U3. exists col. auto. }
      assert (C2 : i = k -> connected M t k j).
      { intros ->. exists v. split; [exists col; auto|]. split; auto. split; auto.
        intros i' v' (c & Hc' & I'). assert (c = col) by congruence. subst c.
        assert (v = w) by (destruct C as [C0 _]; eapply inc_unique; [apply (W' _ _ Hc)| |]; eauto). subst w. apply C; auto. }
      destruct (i =? k) eqn:Ek.
      * apply Nat.eqb_eq in Ek. exists ((k, j) :: l). split; auto. split.
        { intros a b. cbn [In]. rewrite IH. split.
          - intros [X|[X Y]]; [injection X as <- <-; split; auto|split; auto].
          - intros [[<-|X] Y]; [left|right; auto]. destruct (CC b Y) as [-> _]. reflexivity. }
        { intro N. inversion N as [|? ? N1 N2]; subst. cbn. constructor; auto. intro X. apply in_map_iff in X. destruct X as ([a b] & Xa & Xb).
          cbn in Xa. subst a. apply IH in Xb. tauto. }
      * apply Nat.eqb_neq in Ek. exists l. split; auto. split.
        { intros a b. rewrite IH. split; [intros [X Y]; split; auto; right; auto|].
          intros [[<-|X] Y]; auto. exfalso. apply Ek. apply (CC b Y). }
        { intro N. inversion N; auto. }
Qed.

Lemma connected_col_unique : forall n M t i i' j, wfM n M -> connected M t i j -> connected M t i' j -> i = i'.
Proof.
  intros n M t i i' j W (v & (c & Hc & I) & _ & A & _) (v' & (c' & Hc' & I') & _ & A' & _).
  assert (c' = c) by congruence. subst c'. destruct (W j c Hc) as [S _].
  apply (@bestOf_unique c i v i' v' S).
  - split; auto. intros a b H. apply A. exists c. auto.
  - split; auto. intros a b H. apply A'. exists c. auto.
Qed.

Lemma connections_spec : forall n M t, wfM n M -> (forall i j v, entryM M i j v -> (0 <= v)%Q) ->
  exists l, connections n M (Some t) = Ok l /\ (forall i j, In (i, j) l <-> connected M t i j) /\
    NoDup (map fst l) /\ NoDup (map snd l).
Proof.
  intros n M t W P. destruct (@connect_spec n M t (seq 0 n) W P) as (l & E & S & N). exists l. split; auto.
  assert (S' : forall i j, In (i, j) l <-> connected M t i j).
  { intros i j. rewrite S. split; [tauto|]. intro C. split; auto. apply in_seq. destruct C as (v & (c & Hc & I) & _).
    destruct (W j c Hc) as [_ B]. specialize (B i v I). lia. }
  split; auto. specialize (N (seq_NoDup n 0)). split; auto.
  assert (G : forall p q, In p l -> In q l -> snd p = snd q -> p = q).
  { intros [a b] [a' b'] H H' Eq. cbn in Eq. subst b'. f_equal. apply S' in H, H'. eapply connected_col_unique; eauto. }
  clear -N G. induction l as [|p l IH]; cbn; constructor.
  - intro X. apply in_map_iff in X. destruct X as (q & E & H). assert (q = p) by (apply G; cbn; auto). subst.
    inversion N; subst. apply H2. apply in_map; auto.
  - inversion N; subst. apply IH; auto. intros; apply G; cbn; auto.
Qed.

(** ** getBasisvectorIndex *)

Lemma set_nth_length : forall l i x, length (set_nth l i x) = length l.
Proof. induction l; destruct i; cbn; auto. Qed.
Lemma set_nth_same : forall l i x, i < length l -> nth_error (set_nth l i x) i = Some (Some x).
Proof. induction l; destruct i; cbn; intros; try lia; auto. apply IHl; lia. Qed.
Lemma set_nth_other : forall l i j x, i <> j -> nth_error (set_nth l i x) j = nth_error l j.
Proof. induction l; destruct i, j; cbn; intros; auto; try congruence. Qed.

Fixpoint somes (l : list (option nat)) : list nat :=
  match l with [] => [] | Some x :: l' => x :: somes l' | None :: l' => somes l' end.

Lemma set_nth_somes : forall l i x, nth_error l i = Some None -> Permutation (somes (set_nth l i x)) (x :: somes l).
Proof.
  induction l as [|[y|] l IH]; destruct i; cbn; intros x H; try discriminate; auto.
  rewrite (IH i x H). apply perm_swap.
Qed.

(** The row taken is free and stored in the column. *)
Lemma take_row_spec : forall col got i, inc col -> take_row col got = Some i ->
  nth_error got i = Some None /\ exists v, In (i, v) col.
Proof.
  intros col got i S H. unfold take_row in H.
  set (f := filter (fun e : nat * Q => match nth_error got (fst e) with Some None => true | _ => false end) col) in *.
  assert (Sf : inc f). { unfold f. clear -S. unfold inc in *. induction S; cbn; [constructor|]. destruct (nth_error got (fst a)) as [[?|]|]; auto. constructor; auto.
    rewrite Forall_forall in *. intros x Hx. apply filter_In in Hx. apply H; tauto. }
  destruct (@argmax_cases f None (-1 # 1)%Q Sf) as [[Q A]|(i' & v & Q & L & B & _)]; rewrite Q in H; cbn in H; [discriminate|].
  injection H as <-. apply filter_In in B. destruct B as [B G]. cbn in G. destruct (nth_error got i') as [[?|]|]; try discriminate.
  split; auto. exists v; auto.
Qed.

Lemma assign_spec : forall n M cols got r, wfM n M -> assign M cols got = Ok r ->
  length r = length got /\ Permutation (somes r) (cols ++ somes got) /\
  (forall i c, nth_error r i = Some (Some c) -> nth_error got i = Some (Some c) \/ (In c cols /\ exists v, entryM M i c v)).
Proof.
  intros n M cols. induction cols as [|c cols IH]; intros got r W H; cbn [assign] in H.
  - injection H as <-. repeat split; auto.
  - destruct (take_row (nth c M []) got) as [i|] eqn:E; [|discriminate].
    assert (S : inc (nth c M [])).
    { destruct (nth_error M c) eqn:Q; [rewrite (nth_error_nth M c [] Q); eapply W; eauto|].
      rewrite nth_overflow; [constructor|]. apply nth_error_None; auto. }
    destruct (take_row_spec got S E) as [F (v & I)].
    destruct (IH _ _ W H) as (L & P & A). rewrite set_nth_length in L. split; auto. split.
    + rewrite P. rewrite (@set_nth_somes got i c F). symmetry. apply Permutation_middle.
    + intros k d Hk. destruct (A k d Hk) as [B|[B1 B2]]; [|right; split; auto; right; auto].
      destruct (Nat.eq_dec i k) as [<-|N].
      * right. assert (i < length got) by (apply nth_error_Some; congruence). rewrite set_nth_same in B by auto. injection B as <-.
        split; [left; auto|]. exists v. exists (nth c M []). split; auto.
        destruct (nth_error M c) eqn:Q; [rewrite (nth_error_nth M c [] Q); auto|]. rewrite nth_overflow in I; [contradiction|]. apply nth_error_None; auto.
      * rewrite set_nth_other in B by auto. auto.
Qed.

Lemma somes_repeat : forall k, somes (repeat None k) = [].
Proof. induction k; cbn; auto. Qed.
Lemma somes_length : forall l, length (somes l) <= length l.
Proof. induction l as [|[?|] l IH]; cbn; lia. Qed.
Lemma somes_all : forall l, length (somes l) = length l -> l = map Some (somes l).
Proof.
  induction l as [|[x|] l IH]; cbn; intro H; auto.
  - f_equal. apply IH. lia.
  - pose proof (somes_length l). lia.
Qed.

Lemma basisvectorIndices_spec : forall n M k perm r, wfM n M -> nth_element_ok M k perm -> basisvectorIndices M k perm = Ok r ->
  exists idx, r = map Some idx /\ Permutation idx (firstn k perm) /\ length idx = k /\ NoDup idx /\ (forall c, In c idx -> c < length M) /\
    (forall i c, nth_error idx i = Some c -> exists v, entryM M i c v) /\
    (forall c d, In c idx -> d < length M -> ~ In d idx -> (total M d <= total M c)%Q).
Proof.
  intros n M k perm r W [P T] H. unfold basisvectorIndices in H. destruct (length M <? k) eqn:E; [discriminate|]. apply Nat.ltb_ge in E.
  destruct (assign_spec _ _ W H) as (L & Q & A). rewrite somes_repeat, app_nil_r in Q. rewrite repeat_length in L.
  assert (Lp : length perm = length M) by (rewrite (Permutation_length P), seq_length; auto).
  assert (Ls : length (somes r) = k) by (rewrite (Permutation_length Q), firstn_length; lia).
  assert (Np : NoDup perm) by (eapply Permutation_NoDup; [symmetry; exact P|apply seq_NoDup]).
  rewrite <- (firstn_skipn k perm) in Np.
  assert (R : r = map Some (somes r)) by (apply somes_all; lia).
  exists (somes r). split; auto. split; auto. split; auto. split.
  { eapply Permutation_NoDup; [symmetry; exact Q|]. clear -Np. induction (firstn k perm); [constructor|]. inversion Np; subst. constructor; auto.
    intro X. apply H1. apply in_or_app; auto. }
  assert (In1 : forall c, In c (somes r) -> In c (firstn k perm)) by (intros c Hc; eapply Permutation_in; eauto).
  split.
  { intros c Hc. apply In1 in Hc. assert (Hp : In c perm) by (rewrite <- (firstn_skipn k perm); apply in_or_app; auto).
    apply (Permutation_in _ P) in Hp. apply in_seq in Hp. lia. }
  split.
  { intros i c Hc. assert (X : nth_error r i = Some (Some c)) by (rewrite R, nth_error_map, Hc; auto).
    destruct (A i c X) as [B|[_ B]]; auto. exfalso. clear -B. revert i B. induction k; destruct i; cbn; intros; try discriminate. eapply IHk; eauto. }
  intros c d Hc Hd Nd. apply qlt_false. apply T; auto.
  assert (X : In d perm) by (eapply Permutation_in; [symmetry; exact P|apply in_seq; lia]).
  rewrite <- (firstn_skipn k perm) in X. apply in_app_or in X. destruct X as [X|X]; auto. exfalso. apply Nd. eapply Permutation_in; [symmetry; exact Q|auto].
Qed.

(** ** getMainStates *)
Lemma mainStates_spec : forall (State : Type) (tbl : list (nat * State)) (M : spm) n, wfM n M -> n <= length tbl ->
  (forall i j v, entryM M i j v -> (0 <= v)%Q) -> (forall col, In col M -> col <> []) ->
  exists l, mainStates tbl M = Ok l /\ length l = length M /\
    forall j col x, nth_error M j = Some col -> nth_error l j = Some x ->
      exists i v k, bestOf col i v /\ nth_error tbl i = Some (k, x).
Proof.
  intros State tbl M n. induction M as [|col M IH]; intros W L P NE.
  - exists []. split; auto. split; auto. intros [|j]; cbn; intros; discriminate.
  - destruct IH as (l & E & Ll & A); auto.
    { intros j c H. apply (W (S j) c H). }
    { intros i j v (c & H & I). apply (P i (S j) v). exists c. auto. }
    { intros c H. apply NE. right; auto. }
    cbn [mainStates]. destruct (W 0 col eq_refl) as [Sc Bc].
    destruct (@argmax_cases col None (-1 # 1)%Q Sc) as [[Q B]|(i & v & Q & _ & B)].
    { exfalso. destruct col as [|[i v] col]; [apply (NE [] (or_introl eq_refl)); auto|]. specialize (B i v (or_introl eq_refl)).
      assert (0 <= v)%Q by (apply (P i 0 v); exists ((i, v) :: col); split; auto; left; auto).
      assert (C : (0 <= -1 # 1)%Q) by (eapply Qle_trans; eauto). compute in C. congruence. }
    rewrite Q. cbn [fst]. assert (Hi : i < length tbl) by (destruct B as [B _]; specialize (Bc i v B); lia).
    destruct (nth_error tbl i) as [[k x]|] eqn:Et; [|apply nth_error_None in Et; lia].
    rewrite E. cbn [bind snd]. exists (x :: l). split; auto. split; [cbn; auto|].
    intros [|j] c y H1 H2; cbn in H1, H2.
    + injection H1 as <-. injection H2 as <-. exists i, v, k. auto.
    + eapply A; eauto.
Qed.

(** Columns read off a matrix are well formed. *)
Lemma seq_inc : forall (f : nat -> Q) n a, inc (map (fun i => (i, f i)) (seq a n)).
Proof.
  induction n; intros a; cbn; constructor; [apply IHn|]. rewrite Forall_forall. intros e H. apply in_map_iff in H.
  destruct H as (i & <- & H). apply in_seq in H. cbn. lia.
Qed.

Lemma columns_nth : forall (K : StarRing) (absv : K -> Q) (A : mat K) j,
  nth_error (columns absv A) j = if j <? nc A then Some (map (fun i => (i, absv (at_ A i j))) (seq 0 (nr A))) else None.
Proof.
  intros. unfold columns. rewrite nth_error_map. destruct (Nat.ltb_spec j (nc A)).
  - rewrite (nth_error_nth' _ 0) by (rewrite seq_length; auto). rewrite seq_nth by auto. reflexivity.
  - replace (nth_error (seq 0 (nc A)) j) with (@None nat); auto. symmetry. apply nth_error_None. rewrite seq_length; auto.
Qed.

Lemma columns_entry : forall (K : StarRing) (absv : K -> Q) (A : mat K) i j v,
  entryM (columns absv A) i j v <-> i < nr A /\ j < nc A /\ v = absv (at_ A i j).
Proof.
  intros. unfold entryM. rewrite columns_nth. destruct (Nat.ltb_spec j (nc A)); split.
  - intros (c & E & I). injection E as <-. apply in_map_iff in I. destruct I as (k & E & I). injection E as -> <-. apply in_seq in I. repeat split; auto; lia.
  - intros (Hi & Hj & ->). eexists. split; eauto. apply in_map_iff. exists i. split; auto. apply in_seq. lia.
  - intros (c & E & _). discriminate.
  - intros (_ & Hj & _). lia.
Qed.

Lemma columns_wf : forall (K : StarRing) (absv : K -> Q) (A : mat K), wfM (nr A) (columns absv A).
Proof.
  intros K absv A j col H. rewrite columns_nth in H. destruct (j <? nc A); [|discriminate]. injection H as <-.
  split; [apply seq_inc|]. intros i v I. apply in_map_iff in I. destruct I as (k & E & I). injection E as -> _. apply in_seq in I. lia.
Qed.
