(** Matrices built from triplets that look up states in the table of states. *)
From Verif Require Import Base Matrix LookupModel LookupProofs SystemModel SystemProofs AddProofs OverlapModel OverlapProofs.
From Coq Require Import ZArith Lia Bool Arith List.
Import ListNotations.
Set Implicit Arguments.
Local Open Scope nat_scope.

Section LS.
Context {K : StarRing}.
Add Ring Kr : (s_ring K).
Local Open Scope star_scope.
Lemma lsum_cons : forall A (f : A -> K) x l, lsum f (x :: l) = f x + lsum f l.
Proof. reflexivity. Qed.
Lemma lsum_zero : forall A (f : A -> K) l, (forall x, In x l -> f x = 0) -> lsum f l = 0.
Proof. intros A f l. induction l; intros H; auto. rewrite lsum_cons, (H a), IHl; auto with datatypes. ring. Qed.
Lemma lsum_mul_l : forall A c (f : A -> K) l, c * lsum f l = lsum (fun x => c * f x) l.
Proof. intros. induction l; [cbn; ring|]. rewrite !lsum_cons, <- IHl. ring. Qed.
Lemma lsum_mul_r : forall A c (f : A -> K) l, lsum f l * c = lsum (fun x => f x * c) l.
Proof. intros. induction l; [cbn; ring|]. rewrite !lsum_cons, <- IHl. ring. Qed.
Lemma lsum_add : forall A (f g : A -> K) l, lsum (fun x => f x + g x) l = lsum f l + lsum g l.
Proof. intros. induction l; [cbn; ring|]. rewrite !lsum_cons, IHl. ring. Qed.
Lemma lsum_comm : forall A B (f : A -> B -> K) l l', lsum (fun x => lsum (f x) l') l = lsum (fun y => lsum (fun x => f x y) l) l'.
Proof.
  intros. induction l; [symmetry; apply lsum_zero; auto|]. rewrite lsum_cons, IHl, <- lsum_add. apply lsum_ext. reflexivity.
Qed.
Lemma lsum_conj : forall A (f : A -> K) l, sconj (lsum f l) = lsum (fun x => sconj (f x)) l.
Proof. intros. induction l; [apply sconj_0|]. rewrite !lsum_cons, s_conj_add, IHl. reflexivity. Qed.
Lemma lsum_flat : forall A B (g : A -> list B) (f : B -> K) l, lsum f (flat_map g l) = lsum (fun x => lsum f (g x)) l.
Proof. intros. induction l; auto. cbn [flat_map]. rewrite lsum_app, lsum_cons, IHl. reflexivity. Qed.
Lemma bsum_lsum_nth : forall A (l : list A) (f : nat -> K) (g : A -> K),
  (forall i x, nth_error l i = Some x -> f i = g x) -> bsum (length l) f = lsum g l.
Proof.
  intros A l f g H. rewrite bsum_lsum. revert f H. induction l as [|x l IH]; intros f H; auto.
  cbn [length seq]. rewrite !lsum_cons, (H 0%nat x eq_refl). f_equal. rewrite <- seq_shift, lsum_map. apply IH.
  intros i y Hi. apply (H (S i) y Hi).
Qed.
End LS.

Section Tab.
Context {K : StarRing} {State : Type}.
Add Ring Kr2 : (s_ring K).
Variable seqb : State -> State -> bool.
Hypothesis seq_refl : forall a, seqb a a = true.
Hypothesis seq_sym : forall a b, seqb a b = seqb b a.
Hypothesis seq_trans : forall a b c, seqb a b = true -> seqb b c = true -> seqb a c = true.
Local Open Scope star_scope.

Variable tbl : list (nat * State).
Hypothesis Htbl : table_ok seqb tbl.
(** The components of the image of a state. *)
Variable comps : State -> list (State * K).

Definition triplets : list (nat * nat * K) :=
  flat_map (fun e => flat_map (fun p => match tfind seqb tbl (fst p) with Some i => [(i, fst e, snd p)] | None => [] end)
    (comps (snd e))) tbl.

(** Amplitude of [s] in the image of [t]. *)
Definition amp (s t : State) : K := lsum (fun p => if seqb (fst p) s then snd p else 0) (comps t).

Lemma tsum_lsum : forall (l : list (nat * nat * K)) i j,
  tsum l i j = lsum (fun x => if Nat.eqb (fst (fst x)) i && Nat.eqb (snd (fst x)) j then snd x else 0) l.
Proof. induction l as [|[[r c] v] l IH]; intros; [reflexivity|]. rewrite lsum_cons. cbn [tsum fst snd]. rewrite IH. reflexivity. Qed.

Lemma seqb_cong : forall a b c, seqb a b = true -> seqb a c = seqb b c.
Proof.
  intros a b c H. destruct (seqb b c) eqn:E; [eapply seq_trans; eauto|].
  destruct (seqb a c) eqn:F; auto. rewrite seq_sym in H. rewrite (@seq_trans _ _ _ H F) in E. discriminate.
Qed.

Lemma find_at : forall x i s, nth_error (map snd tbl) i = Some s ->
  (match tfind seqb tbl x with Some k => Nat.eqb k i | None => false end) = seqb x s.
Proof.
  intros x i s H. destruct (seqb x s) eqn:E.
  - rewrite (@tfind_cong State seqb seq_refl seq_sym seq_trans tbl x s E).
    rewrite (@tfind_aligned State seqb seq_refl seq_sym tbl i s Htbl H). apply Nat.eqb_refl.
  - destruct (tfind seqb tbl x) as [k|] eqn:F; auto. apply Nat.eqb_neq. intros ->.
    apply tfind_some in F; auto. destruct F as (y & Hy & Q).
    apply In_nth_error in Hy. destruct Hy as [p Hp].
    assert (p = i). { destruct Htbl as [A _]. assert (nth_error (map fst tbl) p = Some i) by (rewrite nth_error_map, Hp; auto).
      rewrite A in H0. assert (p < length (seq 0 (length tbl)))%nat by (apply nth_error_Some; congruence). rewrite seq_length in H1.
      rewrite (nth_error_nth' _ 0%nat) in H0 by (rewrite seq_length; auto). rewrite seq_nth in H0 by auto. cbn in H0. congruence. }
    subst p. rewrite nth_error_map, Hp in H. cbn in H. injection H as ->. rewrite seq_sym in Q. congruence.
Qed.

Theorem triplets_at : forall i c s t, nth_error (map snd tbl) i = Some s -> nth_error (map snd tbl) c = Some t ->
  tsum triplets i c = amp s t.
Proof.
  intros i c s t Hi Hc. rewrite tsum_lsum. unfold triplets. rewrite lsum_flat.
  assert (E : forall e, lsum (fun x => if Nat.eqb (fst (fst x)) i && Nat.eqb (snd (fst x)) c then snd x else 0)
     (flat_map (fun p => match tfind seqb tbl (fst p) with Some i => [(i, fst e, snd p)] | None => [] end) (comps (snd e)))
     = if Nat.eqb (fst e) c then amp s (snd e) else 0).
  { intro e. rewrite lsum_flat. transitivity (lsum (fun p : State * K => if Nat.eqb (fst e) c then (if seqb (fst p) s then snd p else 0) else 0) (comps (snd e))).
    - apply lsum_ext. intros [x v] _. cbn [fst snd]. rewrite <- (find_at x i Hi).
      destruct (tfind seqb tbl x) as [k|]; [|destruct (Nat.eqb (fst e) c); reflexivity].
      rewrite lsum_cons. cbn [fst snd lsum fold_right]. destruct (Nat.eqb k i), (Nat.eqb (fst e) c); cbn [andb]; ring.
    - destruct (Nat.eqb (fst e) c); [reflexivity|]. apply lsum_zero; auto. }
  rewrite (lsum_ext _ _ _ (fun e _ => E e)). clear E.
  destruct Htbl as [A _]. rewrite nth_error_map in Hc. destruct (nth_error tbl c) as [[c' t']|] eqn:Hn; [|discriminate].
  cbn in Hc. injection Hc as ->.
  assert (G : forall l k, map fst l = seq k (length l) -> forall p e, nth_error l p = Some e -> c = (k + p)%nat ->
     lsum (fun x : nat * State => if Nat.eqb (fst x) c then amp s (snd x) else 0) l = amp s (snd e)).
  { induction l as [|[q y] l IH]; intros k Hl p e Hp Hk; [destruct p; discriminate|].
    cbn [map length seq] in Hl. injection Hl as Hq Hl. rewrite lsum_cons. cbn [fst snd] in *. subst q.
    destruct p.
    - cbn in Hp. injection Hp as <-. rewrite Hk, Nat.add_0_r, Nat.eqb_refl.
      rewrite lsum_zero; [cbn [snd]; ring|]. intros [q z] Hin. cbn [fst].
      assert (In q (seq (S k) (length l))) by (rewrite <- Hl; apply (in_map fst _ _ Hin)). apply in_seq in H.
      destruct (Nat.eqb_spec q k); [lia|auto].
    - cbn in Hp. rewrite (IH (S k) Hl p e Hp) by lia. destruct (Nat.eqb_spec k c); [lia|]. ring. }
  apply (G tbl 0%nat A c (c', t) Hn). reflexivity.
Qed.

Lemma distinct_one : forall l x (f : State -> K), distinct_states seqb l ->
  (forall a b, seqb a b = true -> f a = f b) ->
  lsum (fun s => if seqb x s then f s else 0) l = if existsb (seqb x) l then f x else 0.
Proof.
  induction l as [|y l IH]; intros x f D Hf; [reflexivity|]. inversion D; subst. rewrite lsum_cons. cbn [existsb].
  rewrite (IH x f H2 Hf). destruct (seqb x y) eqn:E; cbn [orb].
  - replace (existsb (seqb x) l) with false. { rewrite (Hf _ _ E). ring. }
    symmetry. apply not_true_is_false. intro F. apply existsb_exists in F. destruct F as (z & Hz & Q).
    rewrite Forall_forall in H1. specialize (H1 z Hz). rewrite seq_sym in E. rewrite (@seq_trans _ _ _ E Q) in H1. discriminate.
  - ring.
Qed.

Lemma amp_cong : forall a b t, seqb a b = true -> amp a t = amp b t.
Proof.
  intros. apply lsum_ext. intros p _. rewrite (seq_sym (fst p) a), (seq_sym (fst p) b), (@seqb_cong _ _ (fst p) H). reflexivity.
Qed.

(** Products of two columns: only the components that are in the table contribute. *)
Theorem gram : forall b c s t, nth_error (map snd tbl) b = Some s -> nth_error (map snd tbl) c = Some t ->
  bsum (length tbl) (fun i => sconj (tsum triplets i b) * tsum triplets i c) =
  lsum (fun p => if existsb (seqb (fst p)) (map snd tbl) then sconj (snd p) * amp (fst p) t else 0) (comps s).
Proof.
  intros b c s t Hb Hc. rewrite <- (map_length snd).
  rewrite (@bsum_lsum_nth K State (map snd tbl) _ (fun x => sconj (amp x s) * amp x t)).
  2:{ intros i x Hx. rewrite !(@triplets_at i _ x _ Hx Hb), (@triplets_at i _ x _ Hx Hc). reflexivity. }
  transitivity (lsum (fun x => lsum (fun p => sconj (snd p) * (if seqb (fst p) x then amp x t else 0)) (comps s)) (map snd tbl)).
  - apply lsum_ext. intros x _. unfold amp at 1. rewrite lsum_conj, lsum_mul_r. apply lsum_ext. intros p _.
    destruct (seqb (fst p) x); rewrite ?sconj_0; ring.
  - rewrite lsum_comm. apply lsum_ext. intros p _. rewrite <- lsum_mul_l, distinct_one.
    + destruct (existsb _ _); [reflexivity|ring].
    + apply Htbl.
    + intros; apply amp_cong; auto.
Qed.
End Tab.
