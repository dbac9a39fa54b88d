(** Proofs for PropRestrict.v: removal of states. *)
From Coq Require Import ZArith Lia Bool List.
Import ListNotations.
From Verif Require Import Base Matrix BasisnamesModel BasisnamesProofs CombineModel CombineSpec NecessaryModel NecessarySpec BasisProofs PropNames CombineProofs CombineProofs2 CombineProofs3 CombineProofs4 NecessaryProofs NecessaryProofs2.
Set Implicit Arguments.
Local Open Scope nat_scope.

Fixpoint select {A} (mask : list bool) (l : list A) : list A :=
  match mask, l with b :: mask, x :: l => if b then x :: select mask l else select mask l | _, _ => [] end.
Lemma select_rank : forall A mask (l : list A) p, nth p mask false = true -> p < length l -> length mask = length l -> nth_error (select mask l) (rank mask p) = nth_error l p.
Proof.
  induction mask as [|b mask IH]; intros [|x l] p H B L; cbn in *; try lia. destruct p as [|p].
  - subst b. reflexivity.
  - destruct b; cbn; apply IH; auto; lia.
Qed.
Lemma rank_inj : forall mask p q, nth p mask false = true -> nth q mask false = true -> rank mask p = rank mask q -> p = q.
Proof.
  induction mask as [|b mask IH]; intros p q Hp Hq E; [destruct p; discriminate Hp|]. destruct p as [|p], q as [|q]; cbn in *; auto.
  - subst b. lia.
  - subst b. lia.
  - f_equal. apply IH; auto. destruct b; lia.
Qed.
Lemma select_length : forall A mask (l : list A), length mask = length l -> length (select mask l) = rank mask (length l).
Proof. induction mask as [|b mask IH]; intros [|x l] L; cbn in *; try lia. destruct b; cbn; rewrite IH; lia. Qed.
Lemma rank_lt : forall mask p, nth p mask false = true -> rank mask p < rank mask (length mask).
Proof. induction mask as [|b mask IH]; intros [|p] H; cbn in *; try discriminate H; [subst b; lia|]. specialize (IH _ H). lia. Qed.

Section K.
Variable K : StarRing.
Add Ring KRingR : (s_ring K).
Lemma keep_rows_coef : forall mask (c : list (nat * K)) p, nth p mask false = true -> coef (keep_rows mask c) (rank mask p) = coef c p.
Proof.
  intros mask c p H. induction c as [|e c IH]; [reflexivity|]. unfold keep_rows in *. cbn [flat_map]. rewrite coef_app, IH, coef_cons. f_equal.
  destruct (nth (fst e) mask false) eqn:E.
  - rewrite coef_one. destruct (Nat.eqb_spec (fst e) p) as [->|Ne]; [rewrite Nat.eqb_refl; reflexivity|]. destruct (Nat.eqb_spec (rank mask (fst e)) (rank mask p)) as [R|]; [|reflexivity].
    exfalso. apply Ne. eapply rank_inj; eauto.
  - rewrite coef_nil. destruct (Nat.eqb_spec (fst e) p) as [Eq|Ne]; [rewrite Eq in E; congruence|reflexivity].
Qed.
Lemma remove_states_ok : forall (h : hmat K) mask, length mask = coords h ->
  remove_states h mask = Ok (HMat (rank mask (coords h)) (map (keep_rows mask) (bcols h)) (ediag h)).
Proof. intros h mask L. unfold remove_states. rewrite L, Nat.ltb_irrefl, <- L, firstn_all. reflexivity. Qed.
End K.

Lemma map_res_ok : forall A B (f : A -> res B) g l, (forall x, In x l -> f x = Ok (g x)) -> map_res f l = Ok (map g l).
Proof. induction l as [|x l IH]; intros H; [reflexivity|]. cbn [map_res map]. rewrite (H x) by (left; auto). cbn [bind]. rewrite IH by (intros; apply H; right; auto). reflexivity. Qed.

(** marking *)
Lemma mark_valid_ok : forall p l mask, (forall s, In s l -> (0 <= idx s)%Z /\ Z.to_nat (idx s) < length mask) ->
  exists mask', mark_valid p l mask = Ok mask' /\ length mask' = length mask /\
    forall r, nth r mask' false = true <-> nth r mask false = true \/ exists s, In s l /\ p s = true /\ Z.to_nat (idx s) = r.
Proof.
  induction l as [|s l IH]; intros mask B.
  - exists mask. split; [reflexivity|]. split; [reflexivity|]. intros r. split; [auto|]. intros [H|(s & [] & _)]; auto.
  - cbn [mark_valid]. destruct (p s) eqn:P.
    + destruct (B s) as [B1 B2]; [left; auto|]. replace (idx s <? 0)%Z with false by (symmetry; apply Z.ltb_ge; exact B1).
      destruct (@set_vec_lt _ mask (Z.to_nat (idx s)) true B2) as (m1 & E1). rewrite E1. cbn [bind]. destruct (set_vec_some _ _ _ E1) as (L1 & _ & N1).
      destruct (IH m1) as (m' & E' & L' & N'); [intros x Hx; rewrite L1; apply B; right; auto|]. exists m'. split; [exact E'|]. split; [congruence|].
      intros r. rewrite N', N1. split.
      * intros [H|(x & I & Px & Ex)]; [|right; exists x; split; [right; auto|auto]]. destruct (Nat.eqb_spec r (Z.to_nat (idx s))) as [Er|Ne]; [subst r; right; exists s; split; [left; auto|auto]|auto].
      * intros [H|(x & [<-|I] & Px & Ex)]; [left; destruct (Nat.eqb r (Z.to_nat (idx s))); auto|left; rewrite <- Ex, Nat.eqb_refl; reflexivity|right; exists x; auto].
    + destruct (IH mask) as (m' & E' & L' & N'); [intros; apply B; right; auto|]. exists m'. split; [exact E'|]. split; [exact L'|]. intros r. rewrite N'. split.
      * intros [H|(x & I & Px & Ex)]; [auto|right; exists x; split; [right; auto|auto]].
      * intros [H|(x & [<-|I] & Px & Ex)]; [auto|congruence|right; exists x; auto].
Qed.
Lemma select_filter : forall (p : one -> bool) l mask, length mask = length l -> (forall i s, nth_error l i = Some s -> nth i mask false = p s) -> select mask l = filter p l.
Proof.
  intros p. induction l as [|s l IH]; intros [|b mask] L H; cbn in L; try lia; [reflexivity|]. cbn [select filter]. rewrite <- (H 0 s eq_refl). cbn [nth].
  rewrite (IH mask) by (try lia; intros i x Hx; apply (H (S i) x Hx)). destruct b; reflexivity.
Qed.

(** the mask of the valid states of a basis in order *)
Lemma valid_mask : forall p b, in_order b -> exists mask, mark_valid p (names1 b) (repeat false (length (names1 b))) = Ok mask /\ length mask = length (names1 b) /\
  forall i s, nth_error (names1 b) i = Some s -> nth i mask false = p s.
Proof.
  intros p b O. destruct (@mark_valid_ok p (names1 b) (repeat false (length (names1 b)))) as (mask & E & L & N).
  { intros s I. apply In_nth_error in I. destruct I as [i Hi]. rewrite (O _ _ Hi), repeat_length. split; [lia|]. rewrite Nat2Z.id. apply nth_error_Some. congruence. }
  rewrite repeat_length in L. exists mask. split; [exact E|]. split; [exact L|]. intros i s Hi.
  assert (G : nth i mask false = true <-> p s = true).
  { rewrite N. split.
    - intros [H|(x & I & Px & Ex)]; [rewrite nth_repeat in H; discriminate H|]. apply In_nth_error in I. destruct I as [k Hk]. rewrite (O _ _ Hk), Nat2Z.id in Ex. subst k. congruence.
    - intros Ps. right. exists s. split; [eapply nth_error_In; eauto|]. split; [exact Ps|]. rewrite (O _ _ Hi). apply Nat2Z.id. }
  destruct (nth i mask false), (p s); try reflexivity; [destruct (proj1 G eq_refl)|destruct (proj2 G eq_refl)]; reflexivity.
Qed.
Lemma map_nth_eq : forall A B (f : A -> B) (l l' : list A), map f l = map f l' -> forall i x, nth_error l i = Some x -> exists y, nth_error l' i = Some y /\ f y = f x.
Proof.
  intros A B f l l' E i x H. assert (X : nth_error (map f l') i = Some (f x)) by (rewrite <- E, nth_error_map, H; reflexivity). rewrite nth_error_map in X.
  destruct (nth_error l' i) as [y|]; [|discriminate X]. exists y. split; [reflexivity|]. cbn in X. congruence.
Qed.
Lemma remove1_in_order : forall p b mask, in_order b -> (Z.of_nat (length (names1 b)) < 2 ^ 32)%Z -> length mask = length (names1 b) ->
  (forall i s, nth_error (names1 b) i = Some s -> nth i mask false = p s) ->
  exists b', remove1 b mask = Ok b' /\ in_order b' /\ initial1 b' = initial1 b /\ map quad (names1 b') = map quad (filter p (names1 b)) /\ dim1 b' = Z.of_nat (length (names1 b')).
Proof.
  intros p b mask O B L M. destruct (@remove1_spec mask (names1 b) 0) as (r & E & Q & I); [lia|lia| |].
  { intros s Hs. apply In_nth_error in Hs. destruct Hs as [i Hi]. rewrite (O _ _ Hi). assert (i < length (names1 b)) by (apply nth_error_Some; congruence). lia. }
  unfold remove1. rewrite E. cbn [bind fst snd]. eexists. split; [reflexivity|]. split; [|split; [reflexivity|split; [|reflexivity]]].
  - intros i s Hi. cbn [names1] in Hi. assert (X : nth_error (map idx r) i = Some (idx s)) by (rewrite nth_error_map, Hi; reflexivity). rewrite I, nth_error_map in X.
    assert (Y : nth_error (seq 0 (length r)) i = Some i). { assert (i < length r) by (apply nth_error_Some; congruence). rewrite (nth_error_nth' _ 0) by (rewrite seq_length; auto). rewrite seq_nth by auto. reflexivity. }
    rewrite Y in X. cbn in X. injection X as X. lia.
  - cbn [names1]. rewrite Q. f_equal. apply filter_ext_in. intros s Hs. apply In_nth_error in Hs. destruct Hs as [i Hi]. unfold marked. rewrite (O _ _ Hi), Nat2Z.id. apply M. exact Hi.
Qed.
