(** SystemTwo::initializeBasis: bookkeeping of states and triplets. *)
From Verif Require Import Base StateModel StateProofs Matrix LookupModel LookupProofs SystemModel RangeModel BasisProofs
  SystemProofs OverlapProofs OverlapProofs2 PairModel.
From Coq Require Import ZArith Lia Bool String Arith List.
Import ListNotations.
Set Implicit Arguments.
Local Open Scope nat_scope.
Local Open Scope list_scope.

Lemma Forall2_app_ : forall A B (R : A -> B -> Prop) l1 l1' l2 l2', Forall2 R l1 l2 -> Forall2 R l1' l2' -> Forall2 R (l1 ++ l1') (l2 ++ l2').
Proof. induction 1; cbn; auto. Qed.
Lemma Forall2_impl_ : forall A B (R S : A -> B -> Prop) l1 l2, (forall a b, R a b -> S a b) -> Forall2 R l1 l2 -> Forall2 S l1 l2.
Proof. induction 2; auto. Qed.

Lemma eq2_refl : forall a, eq2 a a = true.
Proof. intros. unfold eq2. rewrite !eq1_refl. reflexivity. Qed.
Lemma eq2_pair : forall a b c d, eq2 (mkTwo_pair a b) (mkTwo_pair c d) = eq1 a c && eq1 b d.
Proof. reflexivity. Qed.

Definition distinct2 (ss : list state2) : Prop := ForallOrdPairs (fun a b => eq2 a b = false) ss.
Lemma distinct2_snoc : forall ss x, distinct2 ss -> (forall y, In y ss -> eq2 y x = false) -> distinct2 (ss ++ [x]).
Proof.
  induction ss; intros x D H; cbn; [constructor; constructor|]. inversion D; subst. constructor.
  - apply Forall_app. split; auto. constructor; [apply H; left; auto|constructor].
  - apply IHss; auto. intros y Hy. apply H. right. auto.
Qed.
Lemma distinct2_nth : forall ss i j x y, distinct2 ss -> nth_error ss i = Some x -> nth_error ss j = Some y -> eq2 x y = true -> i = j.
Proof.
  induction ss; intros i j x y D Hi Hj E; [destruct i; discriminate|]. inversion D as [|? ? F D']; subst.
  rewrite Forall_forall in F. destruct i as [|i], j as [|j]; cbn in *; auto.
  - injection Hi as <-. apply nth_error_In in Hj. apply F in Hj. congruence.
  - injection Hj as <-. apply nth_error_In in Hi. apply F in Hi. rewrite eq2_sym in E. congruence.
  - f_equal. eapply IHss; eauto.
Qed.

(** Pigeonhole: pairwise different states that all occur (up to equality) in [U]. *)
Lemma distinct2_le : forall ss U, distinct2 ss -> (forall x, In x ss -> exists u, In u U /\ eq2 u x = true) -> length ss <= length U.
Proof.
  induction ss as [|x ss IH]; intros U D H; cbn; [lia|]. inversion D as [|? ? F D']; subst.
  destruct (H x (or_introl eq_refl)) as (u & Hu & Eu). apply in_split in Hu. destruct Hu as (U1 & U2 & ->).
  rewrite app_length. cbn. enough (length ss <= length (U1 ++ U2)) by (rewrite app_length in *; lia).
  apply IH; auto. intros y Hy. destruct (H y (or_intror Hy)) as (w & Hw & Ew).
  exists w. split; auto. apply in_app_iff in Hw. apply in_app_iff. destruct Hw as [Hw|[<-|Hw]]; auto.
  rewrite Forall_forall in F. specialize (F y Hy). assert (eq2 x y = true) by (eapply eq2_trans; [rewrite eq2_sym; eauto|auto]). congruence.
Qed.

Definition nostate : state2 := mkTwo_pair (St1 EmptyString EmptyString 0 0 0 0 0 0%N) (St1 EmptyString EmptyString 0 0 0 0 0 0%N).

Section Acc.
Context {K : StarRing}.
Add Ring Kr6 : (s_ring K).
Local Open Scope star_scope.
Notation acc := (@acc2 K).
Notation flat := (list (state2 * nat * K)).

Definition sqv (v : K) : K := sconj v * v.
Definition R_bt (tbl : list (nat * state2)) (t : nat * nat * K) (f : state2 * nat * K) : Prop :=
  snd (fst t) = snd (fst f) /\ snd t = snd f /\
  exists y, nth_error (map snd tbl) (fst (fst t)) = Some y /\ eq2 y (fst (fst f)) = true.

Record inv (cap : nat) (fl : flat) (c : acc) : Prop := Inv {
  i_idx : map fst (p_tbl c) = seq 0 (length (p_tbl c));
  i_dis : distinct2 (map snd (p_tbl c));
  i_bt : Forall2 (R_bt (p_tbl c)) (p_bt c) fl;
  i_src : forall y, In y (map snd (p_tbl c)) -> exists f, In f fl /\ fst (fst f) = y;
  i_sq : forall r, (r < cap)%nat -> nth r (p_sq c) 0 = lsum (fun t => if Nat.eqb (fst (fst t)) r then sqv (snd t) else 0) (p_bt c);
  i_cap : length (p_sq c) = cap }.

Lemma upd_length : forall (f : K -> K) xs i, length (upd i f xs) = length xs.
Proof. induction xs; destruct i; cbn; auto. Qed.
Lemma upd_nth : forall (f : K -> K) xs i r, (i < length xs)%nat -> nth r (upd i f xs) 0 = if Nat.eqb i r then f (nth r xs 0) else nth r xs 0.
Proof.
  induction xs as [|x xs IH]; intros i r H; cbn in H; [lia|].
  destruct i as [|i], r as [|r]; cbn; auto. rewrite IH by lia. reflexivity.
Qed.

Lemma nth_repeat0 : forall n r, nth r (repeat (0 : K) n) 0 = 0.
Proof. induction n; destruct r; cbn; auto. Qed.
Lemma inv_init : forall cap, inv cap [] (Acc2 [] [] [] (repeat 0 cap) 0).
Proof.
  intros cap. constructor; cbn; auto; try constructor.
  - intros y [].
  - intros r H. apply nth_repeat0.
  - apply repeat_length.
Qed.

Lemma tfind_idx : forall (tbl : list (nat * state2)) x r, map fst tbl = seq 0 (length tbl) -> tfind eq2 tbl x = Some r ->
  exists y, nth_error (map snd tbl) r = Some y /\ eq2 y x = true.
Proof.
  intros tbl x r H F. apply tfind_some in F; try (apply eq2_sym); try (apply eq2_trans). destruct F as (y & Hin & E). exists y. split; auto.
  apply In_nth_error in Hin. destruct Hin as [k Hk].
  assert (nth_error (map fst tbl) k = Some r) by (rewrite nth_error_map, Hk; reflexivity).
  assert (k < length tbl)%nat by (apply nth_error_Some; congruence).
  rewrite H, (nth_error_nth' _ 0%nat) in H0 by (rewrite seq_length; auto). rewrite seq_nth in H0 by auto. injection H0 as <-.
  rewrite nth_error_map, Hk. reflexivity.
Qed.
Lemma tfind_not : forall (tbl : list (nat * state2)) x y, tfind eq2 tbl x = None -> In y (map snd tbl) -> eq2 y x = false.
Proof.
  intros tbl x y F H. apply in_map_iff in H. destruct H as ([i z] & <- & H). apply (tfind_none _ _ _ F _ _ H).
Qed.

(** A universe of states with enough room in sqnorm_list. *)
Definition inU (U : list state2) (x : state2) : Prop := exists u, In u U /\ eq2 u x = true.

Lemma addB_inv : forall cap fl c x v U, inv cap fl c -> (length U <= cap)%nat -> (forall f, In f fl -> inU U (fst (fst f))) -> inU U x ->
  exists c', addB x v c = (c', Ok tt) /\ inv cap (fl ++ [(x, p_col c, v)]) c' /\ p_col c' = p_col c /\ p_ht c' = p_ht c.
Proof.
  intros cap fl c x v U I HU Hf Hx. pose proof I as [I1 I2 I3 I4 I5 I6]. unfold addB.
  assert (HT : forall y, In y (map snd (p_tbl c)) -> inU U y).
  { intros y Hy. destruct (I4 y Hy) as (f & Hf1 & <-). auto. }
  destruct (tfind eq2 (p_tbl c) x) as [r|] eqn:F.
  - destruct (tfind_idx _ _ I1 F) as (y & Hy & Ey).
    assert (Hr : (r < length (p_tbl c))%nat) by (rewrite <- (map_length snd); apply nth_error_Some; congruence).
    assert (Hc : (length (p_tbl c) <= length U)%nat) by (rewrite <- (map_length snd); apply distinct2_le; auto).
    assert (Hb : Nat.ltb r (length (p_sq c)) = true) by (apply Nat.ltb_lt; rewrite I6; lia). rewrite Hb.
    eexists. split; [reflexivity|]. split; [|split; reflexivity].
    constructor; cbn [p_tbl p_bt p_sq p_col p_ht]; auto.
    + apply Forall2_app_; auto. constructor; [|constructor]. repeat split; cbn; auto. exists y. auto.
    + intros z Hz. destruct (I4 z Hz) as (f & Hf1 & Hf2). exists f. split; auto. apply in_app_iff. auto.
    + intros q Hq. rewrite upd_nth by (rewrite I6; lia). rewrite lsum_app. cbn. rewrite (I5 q Hq). unfold sqv.
      destruct (Nat.eqb r q); ring.
    + rewrite upd_length. auto.
  - assert (N : forall y, In y (map snd (p_tbl c)) -> eq2 y x = false) by (intros; eapply tfind_not; eauto).
    assert (D : distinct2 (map snd (p_tbl c ++ [(length (p_tbl c), x)]))) by (rewrite map_app; apply distinct2_snoc; auto).
    assert (Hc : (length (map snd (p_tbl c ++ [(length (p_tbl c), x)])) <= length U)%nat).
    { apply distinct2_le; auto. intros z Hz. rewrite map_app in Hz. apply in_app_iff in Hz. destruct Hz as [Hz|[<-|[]]]; auto. apply HT; auto. }
    rewrite map_length, app_length in Hc. cbn in Hc.
    assert (Hb : Nat.ltb (length (p_tbl c)) (length (p_sq c)) = true) by (apply Nat.ltb_lt; rewrite I6; lia). rewrite Hb.
    eexists. split; [reflexivity|]. split; [|split; reflexivity].
    constructor; cbn [p_tbl p_bt p_sq p_col p_ht]; auto.
    + rewrite map_app, app_length, I1. cbn. rewrite seq_app. reflexivity.
    + apply Forall2_app_.
      * eapply Forall2_impl_; [|apply I3]. intros t f (T1 & T2 & y & T3 & T4). repeat split; auto. exists y. split; auto.
        rewrite map_app, nth_error_app1; auto. apply nth_error_Some. congruence.
      * constructor; [|constructor]. repeat split; cbn; auto. exists x. split; [|apply eq2_refl].
        rewrite map_app, nth_error_app2; rewrite map_length; auto. rewrite Nat.sub_diag. reflexivity.
    + intros z Hz. rewrite map_app in Hz. apply in_app_iff in Hz. destruct Hz as [Hz|[<-|[]]].
      * destruct (I4 z Hz) as (f & Hf1 & Hf2). exists f. split; auto. apply in_app_iff. auto.
      * eexists. split; [apply in_app_iff; right; left; reflexivity|reflexivity].
    + intros q Hq. rewrite upd_nth by (rewrite I6; lia). rewrite lsum_app. cbn. rewrite (I5 q Hq). unfold sqv.
      destruct (Nat.eqb (length (p_tbl c)) q); ring.
    + rewrite upd_length. auto.
Qed.

Definition at_col (k : nat) (es : list (state2 * K)) : flat := map (fun e => (fst e, k, snd e)) es.
Lemma at_col_app : forall k a b, at_col k (a ++ b) = at_col k a ++ at_col k b.
Proof. intros. apply map_app. Qed.

Lemma addAll_inv : forall cap U es fl c, inv cap fl c -> (length U <= cap)%nat -> (forall f, In f fl -> inU U (fst (fst f))) ->
  (forall e, In e es -> inU U (fst e)) ->
  exists c', addAll es c = (c', Ok tt) /\ inv cap (fl ++ at_col (p_col c) es) c' /\ p_col c' = p_col c /\ p_ht c' = p_ht c.
Proof.
  intros cap U. induction es as [|[x v] es IH]; intros fl c I HU Hf He.
  - exists c. cbn. rewrite app_nil_r. auto.
  - destruct (@addB_inv cap fl c x v U I HU Hf (He _ (or_introl eq_refl))) as (c1 & E1 & I1 & C1 & H1).
    destruct (IH _ c1 I1 HU) as (c2 & E2 & I2 & C2 & H2).
    + intros f Hf1. apply in_app_iff in Hf1. destruct Hf1 as [Hf1|[<-|[]]]; auto. apply (He _ (or_introl eq_refl)).
    + intros e He1. apply He. right. auto.
    + exists c2. unfold addAll. cbn [loop2 fst snd]. rewrite E1. split; [exact E2|]. split; [|split; congruence].
      cbn [at_col map fst snd]. rewrite C1, <- app_assoc in I2. exact I2.
Qed.

(** ** What the invariant says about the matrices *)
Definition coef (es : list (state2 * K)) (x : state2) : K := lsum (fun e => if eq2 (fst e) x then snd e else 0) es.
Definition weight (es : list (state2 * K)) (x : state2) : K := lsum (fun e => if eq2 (fst e) x then sqv (snd e) else 0) es.
Fixpoint flatten (k : nat) (cols : list (list (state2 * K))) : flat :=
  match cols with [] => [] | es :: cols' => at_col k es ++ flatten (S k) cols' end.

Lemma flatten_app : forall a b k, flatten k (a ++ b) = flatten k a ++ flatten (k + length a) b.
Proof.
  induction a; intros b k; cbn; [rewrite Nat.add_0_r; auto|]. rewrite IHa, <- app_assoc. do 2 f_equal. f_equal. lia.
Qed.

Lemma eq2_of_row : forall tbl t f r y, distinct2 (map snd tbl) -> R_bt tbl t f -> nth_error (map snd tbl) r = Some y ->
  Nat.eqb (fst (fst t)) r = eq2 (fst (fst f)) y.
Proof.
  intros tbl t f r y D (_ & _ & z & Hz & Ez) Hy. apply eq_true_iff_eq. rewrite Nat.eqb_eq. split.
  - intros <-. rewrite Hz in Hy. injection Hy as <-. rewrite eq2_sym. auto.
  - intros E. eapply distinct2_nth; eauto. eapply eq2_trans; eauto.
Qed.

Lemma lsum_cons : forall A (f : A -> K) x xs, lsum f (x :: xs) = f x + lsum f xs.
Proof. reflexivity. Qed.
Lemma tsum_flat : forall tbl bt fl r y k, distinct2 (map snd tbl) -> Forall2 (R_bt tbl) bt fl -> nth_error (map snd tbl) r = Some y ->
  tsum bt r k = lsum (fun f => if eq2 (fst (fst f)) y && Nat.eqb (snd (fst f)) k then snd f else 0) fl.
Proof.
  intros tbl bt fl r y k D F Hy. induction F as [|[[r' k'] v'] [[x k''] v''] bt fl R F IH]; [reflexivity|].
  cbn [tsum]. rewrite lsum_cons. rewrite IH. f_equal. rewrite <- (eq2_of_row _ D R Hy). destruct R as (R1 & R2 & _). cbn in *. subst. reflexivity.
Qed.

Lemma lsum_at_col : forall es y k k', lsum (fun f => if eq2 (fst (fst f)) y && Nat.eqb (snd (fst f)) k then snd f else 0) (at_col k' es)
  = if Nat.eqb k' k then coef es y else 0.
Proof.
  intros. unfold at_col. rewrite lsum_map. cbn. destruct (Nat.eqb k' k) eqn:E.
  - apply lsum_ext. intros e _. rewrite andb_true_r. reflexivity.
  - apply lsum_zero. intros e _. rewrite andb_false_r. reflexivity.
Qed.

Lemma lsum_flatten : forall cols y k k0, (k0 <= k)%nat ->
  lsum (fun f => if eq2 (fst (fst f)) y && Nat.eqb (snd (fst f)) k then snd f else 0) (flatten k0 cols) = coef (nth (k - k0) cols []) y.
Proof.
  induction cols as [|es cols IH]; intros y k k0 H.
  - cbn. destruct (k - k0)%nat; reflexivity.
  - cbn [flatten]. rewrite lsum_app, lsum_at_col. destruct (Nat.eqb_spec k0 k) as [->|N].
    + rewrite Nat.sub_diag. cbn [nth]. assert (Z : lsum (fun f : state2 * nat * K => if eq2 (fst (fst f)) y && Nat.eqb (snd (fst f)) k then snd f else 0) (flatten (S k) cols) = 0).
      { clear. enough (forall m, (k < m)%nat -> lsum (fun f : state2 * nat * K => if eq2 (fst (fst f)) y && Nat.eqb (snd (fst f)) k then snd f else 0) (flatten m cols) = 0) by auto.
        induction cols as [|es cols IH]; intros m Hm; cbn [flatten]; [reflexivity|].
        rewrite lsum_app, lsum_at_col, IH by lia. destruct (Nat.eqb_spec m k); [lia|ring]. }
      rewrite Z. ring.
    + rewrite IH by lia. replace (k - k0)%nat with (S (k - S k0)) by lia. cbn [nth]. ring.
Qed.

Lemma weight_app : forall a b x, weight (a ++ b) x = weight a x + weight b x.
Proof. intros. apply lsum_app. Qed.
Lemma lsum_weight : forall tbl bt cols k0 r y, distinct2 (map snd tbl) -> Forall2 (R_bt tbl) bt (flatten k0 cols) -> nth_error (map snd tbl) r = Some y ->
  lsum (fun t => if Nat.eqb (fst (fst t)) r then sqv (snd t) else 0) bt = weight (concat cols) y.
Proof.
  intros tbl bt cols k0 r y D F Hy.
  transitivity (lsum (fun f : state2 * nat * K => if eq2 (fst (fst f)) y then sqv (snd f) else 0) (flatten k0 cols)).
  - clear - D F Hy. induction F as [|t f bt fl R F IH]; [reflexivity|]. rewrite !lsum_cons. rewrite IH. f_equal.
    rewrite <- (eq2_of_row _ D R Hy). destruct R as (_ & -> & _). reflexivity.
  - clear. revert k0. induction cols as [|es cols IH]; intros k0; [reflexivity|]. cbn [flatten concat]. rewrite lsum_app, weight_app, IH. f_equal.
    unfold at_col. rewrite lsum_map. reflexivity.
Qed.

(** The diagonal matrix of the energies *)
Definition diag_from (k0 : nat) (es : list K) : list (nat * nat * K) := map (fun p => (fst p, fst p, snd p)) (combine (seq k0 (length es)) es).
Lemma diag_snoc : forall es k0 e, diag_from k0 (es ++ [e]) = diag_from k0 es ++ [((k0 + length es)%nat, (k0 + length es)%nat, e)].
Proof.
  induction es; intros k0 e.
  - unfold diag_from. cbn. rewrite Nat.add_0_r. reflexivity.
  - specialize (IHes (S k0) e). unfold diag_from in *. cbn. f_equal. rewrite IHes. do 3 f_equal. f_equal; lia.
Qed.
Lemma tsum_diag0 : forall es k0 i j, i <> j \/ (i < k0)%nat -> tsum (diag_from k0 es) i j = 0.
Proof.
  induction es; intros k0 i j H; cbn; auto. unfold diag_from in IHes. rewrite IHes by lia.
  destruct (Nat.eqb_spec k0 i); cbn; [destruct (Nat.eqb_spec k0 j); cbn; [lia|]|]; ring.
Qed.
Lemma tsum_diag_at : forall es k0 i, (k0 <= i)%nat -> tsum (diag_from k0 es) i i = nth (i - k0) es 0.
Proof.
  induction es; intros k0 i H.
  - cbn. destruct (i - k0)%nat; reflexivity.
  - cbn. destruct (Nat.eqb_spec k0 i) as [->|N]; cbn.
    + rewrite Nat.sub_diag. fold (diag_from (S i) es). rewrite tsum_diag0 by lia. ring.
    + fold (diag_from (S k0) es). rewrite IHes by lia. replace (i - k0)%nat with (S (i - S k0)) by lia. cbn. ring.
Qed.

(** ** The result *)
Variable thr : K.
(** Columns that are kept: inner product over the states of the table. *)
Definition norm2 (ss : list state2) (es : list (state2 * K)) : K := lsum (fun x => sqv (coef es x)) ss.
Definition long (ss : list state2) (cols : list (list (state2 * K))) : list nat :=
  filter (fun k => sltre thr (norm2 ss (nth k cols []))) (seq 0 (length cols)).

Lemma mmul_at : forall (A B : mat K) i j, nc A = nr B -> at_ (mmul A B) i j = bsum (nc A) (fun k => at_ A i k * at_ B k j).
Proof. intros A B i j E. unfold mmul. cbn [at_]. rewrite <- E, ?Nat.min_id. reflexivity. Qed.

Lemma lsum_nth : forall A (f : A -> K) xs d, lsum f xs = lsum (fun r => f (nth r xs d)) (seq 0 (length xs)).
Proof.
  intros. rewrite <- bsum_lsum. induction xs using rev_ind; [reflexivity|].
  rewrite app_length. cbn [length]. rewrite Nat.add_1_r. cbn [bsum]. rewrite lsum_app. f_equal.
  - rewrite IHxs. apply bsum_ext. intros k Hk. rewrite app_nth1; auto.
  - cbn. rewrite app_nth2, Nat.sub_diag by auto. cbn. ring.
Qed.

Lemma finish_spec : forall cap cols ens (c : acc), inv cap (flatten 0 cols) c -> p_col c = length cols -> length ens = length cols -> p_ht c = diag_from 0 ens ->
  (length (p_tbl c) <= cap)%nat ->
  let ss := map snd (p_tbl c) in
  let kept := filter (fun x => sltre thr (weight (concat cols) x)) ss in
  let lk := long ss cols in
  exists tbl b h, finish thr c = (tbl, Ok (b, h)) /\
    tbl = combine (seq 0 (length kept)) kept /\
    nr b = length kept /\ nc b = length lk /\ nr h = length lk /\ nc h = length lk /\
    (forall r k x q, nth_error kept r = Some x -> nth_error lk k = Some q -> at_ b r k = coef (nth q cols []) x) /\
    (forall k k' q, nth_error lk k = Some q -> (k' < length lk)%nat -> at_ h k k' = if Nat.eqb k k' then nth q ens 0 else 0).
Proof.
  intros cap cols ens c I PC LE PH LT ss kept lk. pose proof I as [I1 I2 I3 I4 I5 I6].
  unfold finish. rewrite PC, PH. set (B := mtrip (length (p_tbl c)) (length cols) (p_bt c)).
  assert (HB : forall r x k, nth_error ss r = Some x -> at_ B r k = coef (nth k cols []) x).
  { intros r x k Hr. cbn [B at_ mtrip]. rewrite (@tsum_flat (p_tbl c) (p_bt c) _ r x k I2 I3 Hr).
    rewrite lsum_flatten by lia. rewrite Nat.sub_0_r. reflexivity. }
  assert (HS : length ss = length (p_tbl c)) by apply map_length.
  assert (HN : forall k, colsq B k = norm2 ss (nth k cols [])).
  { intros k. unfold colsq, norm2. cbn [B nr mtrip]. rewrite bsum_lsum, <- HS, (@lsum_nth _ _ ss nostate).
    apply lsum_ext. intros r Hr. apply in_seq in Hr. unfold sqv. rewrite (HB r _ k (nth_error_nth' ss nostate (proj2 Hr))). reflexivity. }
  assert (HL : filter (fun k => sltre thr (colsq B k)) (seq 0 (length cols)) = lk).
  { unfold lk, long. apply filter_ext. intros k. rewrite HN. reflexivity. }
  rewrite HL. set (keptE := filter (fun e => sltre thr (nth (fst e) (p_sq c) 0)) (p_tbl c)).
  assert (HW : forall e, In e (p_tbl c) -> nth_error ss (fst e) = Some (snd e) /\ nth (fst e) (p_sq c) 0 = weight (concat cols) (snd e)).
  { intros [r x] He. assert (Hr : nth_error ss r = Some x).
    { apply In_nth_error in He. destruct He as [k Hk]. assert (k < length (p_tbl c))%nat by (apply nth_error_Some; congruence).
      assert (X : nth_error (map fst (p_tbl c)) k = Some r) by (rewrite nth_error_map, Hk; reflexivity).
      rewrite I1, (nth_error_nth' _ 0%nat) in X by (rewrite seq_length; auto). rewrite seq_nth in X by auto. injection X as <-.
      unfold ss. rewrite nth_error_map. cbn. rewrite Hk. reflexivity. }
    cbn. split; auto. assert (r < length ss)%nat by (apply nth_error_Some; congruence).
    rewrite (I5 r) by lia. apply (@lsum_weight (p_tbl c) _ cols 0 r x I2 I3 Hr). }
  assert (HK : map snd keptE = kept).
  { unfold keptE, kept, ss. clear - HW. induction (p_tbl c) as [|e tb IH]; auto.
    assert (W : forall e, In e tb -> nth (fst e) (p_sq c) 0 = weight (concat cols) (snd e)) by (intros; apply HW; right; auto).
    assert (W0 : nth (fst e) (p_sq c) 0 = weight (concat cols) (snd e)) by (apply HW; left; auto).
    cbn [filter map]. rewrite W0. clear - W. assert (IH : map snd (filter (fun e0 : nat * state2 => sltre thr (nth (fst e0) (p_sq c) 0)) tb) = filter (fun x => sltre thr (weight (concat cols) x)) (map snd tb)).
    { induction tb as [|e1 tb IH]; auto. cbn [filter map]. rewrite (W e1 (or_introl eq_refl)).
      destruct (sltre thr _); cbn; rewrite IH; auto; intros; apply W; right; auto. }
    destruct (sltre thr _); cbn; rewrite IH; reflexivity. }
  assert (HD : distinct_states eq2 (map snd keptE)).
  { unfold keptE. apply distinct_filter. exact I2. }
  destruct (@enum_push_spec state2 eq2 keptE [] (@table_nil state2 eq2)) as [EP _]; [exact HD|]. cbn [length app] in EP.
  do 3 eexists. split; [reflexivity|]. rewrite EP, HK.
  assert (HLn : length keptE = length kept) by (rewrite <- HK, map_length; reflexivity).
  split; [rewrite HLn; reflexivity|]. cbn [nr nc mmul madj msel mconj]. rewrite map_length.
  split; [exact HLn|]. split; [reflexivity|]. split; [reflexivity|]. split; [reflexivity|]. split.
  - intros r k x q Hr Hk.
    assert (Lq : (q < length cols)%nat) by (apply nth_error_In in Hk; unfold lk, long in Hk; apply filter_In in Hk; destruct Hk as [Hk _]; apply in_seq in Hk; lia).
    assert (Lk : (k < length lk)%nat) by (apply nth_error_Some; congruence).
    assert (He : exists e, nth_error keptE r = Some e /\ snd e = x).
    { rewrite <- HK, nth_error_map in Hr. destruct (nth_error keptE r) as [e|]; [|discriminate]. exists e. injection Hr as <-. auto. }
    destruct He as (e & He & <-). assert (Hin : In e (p_tbl c)) by (apply nth_error_In in He; unfold keptE in He; apply filter_In in He; apply He).
    destruct (HW e Hin) as [He1 _].
    assert (Le : (fst e < length (p_tbl c))%nat) by (rewrite <- HS; apply nth_error_Some; congruence).
    cbn [at_]. transitivity (bsum (length (p_tbl c)) (fun i => delta (fst e) i * at_ (mmul B (msel (length cols) lk)) i k)).
    { rewrite mmul_at by reflexivity. apply bsum_ext. intros i Hi. f_equal. cbn [at_ madj msel].
      rewrite delta_conj, delta_sym. f_equal. apply nth_error_nth. rewrite nth_error_map, He. reflexivity. }
    rewrite bsum_delta_l by auto.
    pose proof (@mmul_sel K B lk (fst e) k eq_refl Lk) as MS. change (nc B) with (length cols) in MS.
    assert (NE : nth k lk (length cols) = q) by (apply nth_error_nth; auto). rewrite NE in MS. rewrite MS by auto. apply HB. auto.
  - intros k k' q Hk Hk'.
    assert (Lk : (k < length lk)%nat) by (apply nth_error_Some; congruence).
    assert (Bd : forall m, In m lk -> (m < length cols)%nat) by (intros m Hm; unfold lk, long in Hm; apply filter_In in Hm; destruct Hm as [Hm _]; apply in_seq in Hm; lia).
    assert (ND : NoDup lk) by (apply NoDup_filter, seq_NoDup).
    set (H := mtrip (length cols) (length cols) (diag_from 0 ens)).
    assert (NE : nth k lk (length cols) = q) by (apply nth_error_nth; auto).
    assert (NE' : exists q', nth_error lk k' = Some q') by (destruct (nth_error lk k') eqn:E; [eauto|apply nth_error_None in E; lia]).
    destruct NE' as [q' Hq']. assert (NE' : nth k' lk (length cols) = q') by (apply nth_error_nth; auto).
    assert (Bq : (q < length cols)%nat) by (apply Bd; eapply nth_error_In; eauto).
    assert (Bq' : (q' < length cols)%nat) by (apply Bd; eapply nth_error_In; eauto).
    change (at_ (mmul (mmul (madj (msel (length cols) lk)) H) (msel (length cols) lk)) k k' = if Nat.eqb k k' then nth q ens 0 else 0).
    pose proof (@mmul_sel K (mmul (madj (msel (length cols) lk)) H) lk k k' eq_refl Hk') as MS.
    change (nc (mmul (madj (msel (length cols) lk)) H)) with (length cols) in MS. rewrite NE' in MS. rewrite MS by auto.
    transitivity (bsum (length cols) (fun i => delta q i * at_ H i q')).
    { rewrite mmul_at by reflexivity. apply bsum_ext. intros i Hi. cbn [at_ madj msel]. rewrite NE. rewrite delta_conj, delta_sym. reflexivity. }
    rewrite bsum_delta_l by auto. unfold H. cbn [at_ mtrip].
    destruct (Nat.eqb_spec k k') as [->|N].
    + assert (q = q') by congruence. subst q'. rewrite NE. rewrite tsum_diag_at by lia. rewrite Nat.sub_0_r. reflexivity.
    + apply tsum_diag0. left. intro E. apply N. subst q'. eapply NoDup_nth_error; eauto. congruence.
Qed.
End Acc.
