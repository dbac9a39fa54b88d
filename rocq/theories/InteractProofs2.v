(** Proofs for PropInteract.v: the loops over the states. *)
From Coq Require Import ZArith Lia Bool List Reals Lra.
Import ListNotations.
From Verif Require Import Base Matrix FieldModel BasisnamesModel BasisProofs CombineModel CombineSpec CombineProofs4 NecessaryProofs NecessarySpec InteractModel InteractSpec InteractProofs.
Set Implicit Arguments.
Local Open Scope R_scope.

Section T.
Variable K : StarRing.
Add Ring KRI : (s_ring K).
Lemma tsum_seq : forall (f : nat -> list (nat * nat * K)) n a r c, tsum (flat_map f (seq a n)) r c = bsum n (fun i => tsum (f (a + i)%nat) r c).
Proof.
  intros f n. induction n as [|n IH]; intros a r c; [reflexivity|]. replace (S n) with (n + 1)%nat by lia. rewrite seq_app, flat_map_app, tsum_app, IH, bsum_app. f_equal.
  cbn [seq flat_map bsum]. rewrite app_nil_r, Nat.add_0_r. ring.
Qed.
Lemma bsum_sel : forall n r c (w : nat -> nat -> K), (r < n)%nat -> (c < n)%nat ->
  bsum n (fun k => bsum n (fun i => smul (smul (delta i r) (delta k c)) (w i k))) = w r c.
Proof.
  intros n r c w Hr Hc. transitivity (bsum n (fun k => smul (delta c k) (w r k))).
  - apply bsum_ext. intros k Hk. rewrite <- (@bsum_delta_l K n r (fun i => smul (delta c k) (w i k)) Hr). apply bsum_ext. intros i Hi. rewrite (delta_sym i r), (delta_sym k c). ring.
  - apply bsum_delta_l. exact Hc.
Qed.
End T.

Lemma list_as_map : forall A (d : A) l, l = map (fun i => nth i l d) (seq 0 (length l)).
Proof.
  intros A d l. induction l as [|x l IH]; [reflexivity|]. cbn [length seq map nth]. f_equal. rewrite <- seq_shift, map_map. exact IH.
Qed.
Lemma flat_map_map : forall A B D (f : B -> list D) (g : A -> B) l, flat_map f (map g l) = flat_map (fun x => f (g x)) l.
Proof. induction l as [|x l IH]; [reflexivity|]. cbn. rewrite IH. reflexivity. Qed.

Section Loops.
Variables kC tol : R.
Variables el1 el2 : one -> one -> nat -> R.
Variables b1 b2 : names_one.
Hypothesis E1 : elements_ok b1 el1.
Hypothesis E2 : elements_ok b2 el2.
Variable start : one * one.
Hypothesis SM : small b1 b2.
Hypothesis I1 : integer_steps b1.
Hypothesis I2 : integer_steps b2.
Variable nec : list bool.
Let N := (length (names1 b1) * length (names1 b2))%nat.
Hypothesis LN : length nec = N.
Let names := names2 (build2 start b1 b2).
Let dft : two := Two 0 (One 0 0 0 0 0) (One 0 0 0 0 0).
Let nm (i : nat) : two := nth i names dft.
Let V (p r c : nat) : R := between_states (multipole kC el1 el2 p) b1 b2 r c.
Definition cut (v : R) : R := if above tol v then v else 0.

Lemma nm_at : forall r, (r < N)%nat -> exists s t, nm r = Two (Z.of_nat r) s t /\ nth_error (names1 b1) (r / length (names1 b2)) = Some s /\ nth_error (names1 b2) (r mod length (names1 b2)) = Some t.
Proof.
  intros r Hr. destruct (@name_at b1 b2 start SM r Hr) as (s & t & S1 & S2 & E). exists s, t. split; [|auto]. unfold nm. apply nth_error_nth. exact E.
Qed.
Lemma V_at : forall p r c, (r < N)%nat -> (c < N)%nat -> V p r c = multipole kC el1 el2 p (fst_ (nm r)) (snd_ (nm r)) (fst_ (nm c)) (snd_ (nm c)).
Proof.
  intros p r c Hr Hc. destruct (nm_at Hr) as (s & t & Er & S1 & S2). destruct (nm_at Hc) as (s' & t' & Ec & S1' & S2').
  unfold V, between_states. rewrite S1, S2, S1', S2', Er, Ec. reflexivity.
Qed.
Lemma steps_at : forall r c, (r < N)%nat -> (c < N)%nat -> Z.Even (mm (fst_ (nm r)) - mm (fst_ (nm c))) /\ Z.Even (mm (snd_ (nm r)) - mm (snd_ (nm c))).
Proof.
  intros r c Hr Hc. destruct (nm_at Hr) as (s & t & Er & S1 & S2). destruct (nm_at Hc) as (s' & t' & Ec & S1' & S2'). rewrite Er, Ec. cbn [fst_ snd_].
  split; [apply I1|apply I2]; eapply nth_error_In; eauto.
Qed.
Lemma listed_at : forall r, (r < N)%nat -> In (fst_ (nm r)) (names1 b1) /\ In (snd_ (nm r)) (names1 b2).
Proof. intros r Hr. destruct (nm_at Hr) as (s & t & Er & S1 & S2). rewrite Er. cbn [fst_ snd_]. split; eapply nth_error_In; eauto. Qed.
Lemma V_sym : forall p r c, (r < N)%nat -> (c < N)%nat -> V p r c = V p c r.
Proof. intros p r c Hr Hc. rewrite !V_at by assumption. destruct (steps_at Hc Hr), (listed_at Hr), (listed_at Hc). eapply multipole_sym; eauto. Qed.

(** what a pair of necessary states with M equal contributes *)
Definition bpart (i k : nat) : list triplet := if nth i nec false && nth k nec false && Nat.eqb i k then [(i, k, ofR 1)] else [].
Definition epart (n i k : nat) : list triplet :=
  if nth i nec false && nth k nec false && Nat.leb k i && (msum (nm k) =? msum (nm i))%Z then
    (if above tol (V (S n) i k) then (i, k, ofR (V (S n) i k)) :: (if Nat.eqb i k then [] else [(k, i, ofR (V (S n) i k))]) else [])
  else [].
Lemma pair_entry_ok : forall n i k, (i < N)%nat -> (k < N)%nat -> nth k nec false = true ->
  pair_entry kC tol el1 el2 n nec (nm k) (nm i) = Ok (bpart i k, epart n i k).
Proof.
  intros n i k Hi Hk Nk. unfold pair_entry. destruct (nm_at Hi) as (s & t & Ei & _ & _). destruct (nm_at Hk) as (s' & t' & Ek & _ & _).
  destruct (steps_at Hi Hk) as [T1 T2]. destruct (listed_at Hi) as [J1 J2], (listed_at Hk) as [J3 J4]. pose proof (@value_ok kC el1 el2 _ _ E1 E2 n (nm i) (nm k) J1 J3 J2 J4 T1 T2) as VO. rewrite <- (V_at (S n) Hi Hk) in VO.
  assert (Ii : idx2 (nm i) = Z.of_nat i) by (rewrite Ei; reflexivity). assert (Ik : idx2 (nm k) = Z.of_nat k) by (rewrite Ek; reflexivity).
  rewrite Ii, Ik. unfold pos_of. replace (Z.of_nat i <? 0)%Z with false by (symmetry; apply Z.ltb_ge; lia). replace (Z.of_nat k <? 0)%Z with false by (symmetry; apply Z.ltb_ge; lia).
  rewrite !Nat2Z.id. cbn [bind]. unfold at_vec. rewrite (nth_error_nth' nec false) by (rewrite LN; exact Hi). cbn [bind].
  unfold bpart, epart. rewrite Nk. destruct (nth i nec false); cbn [negb andb]; [|reflexivity].
  assert (LE : (Z.of_nat i <? Z.of_nat k)%Z = negb (Nat.leb k i)) by (destruct (Nat.leb_spec k i); [apply Z.ltb_ge; lia|apply Z.ltb_lt; lia]). rewrite LE.
  assert (EQ : (Z.of_nat i =? Z.of_nat k)%Z = Nat.eqb i k) by (destruct (Nat.eqb_spec i k); [apply Z.eqb_eq; lia|apply Z.eqb_neq; lia]). rewrite EQ.
  destruct (Nat.leb_spec k i); cbn [negb andb]; [|replace (Nat.eqb i k) with false by (symmetry; apply Nat.eqb_neq; lia); reflexivity].
  destruct (msum (nm k) =? msum (nm i))%Z eqn:Em; cbn [negb].
  - rewrite VO. cbn [bind]. reflexivity.
  - destruct (Nat.eqb_spec i k) as [->|]; [rewrite Z.eqb_refl in Em; discriminate Em|reflexivity].
Qed.
Lemma rows_loop_ok : forall n k is, (forall i, In i is -> i < N)%nat -> (k < N)%nat -> nth k nec false = true ->
  rows_loop kC tol el1 el2 n nec (nm k) (map nm is) = Ok (flat_map (fun i => bpart i k) is, flat_map (fun i => epart n i k) is).
Proof.
  intros n k is. induction is as [|i is IH]; intros B Hk Nk; [reflexivity|]. cbn [map rows_loop flat_map]. rewrite pair_entry_ok by (auto; apply B; left; auto). cbn [bind].
  rewrite IH by (auto; intros; apply B; right; auto). reflexivity.
Qed.
Lemma names_map : names = map nm (seq 0 N).
Proof. replace N with (length names) by apply names_length'. apply list_as_map. Qed.
Lemma parts_not : forall n i k, nth k nec false = false -> bpart i k = [] /\ epart n i k = [].
Proof. intros n i k H. unfold bpart, epart. rewrite H, andb_false_r. auto. Qed.
Lemma flat_map_nil : forall A B (f : A -> list B) l, (forall x, In x l -> f x = []) -> flat_map f l = [].
Proof. induction l as [|x l IH]; intros H; [reflexivity|]. cbn. rewrite H by (left; auto). apply IH. intros; apply H; right; auto. Qed.
Lemma cols_loop_ok : forall n ks, (forall k, In k ks -> k < N)%nat ->
  cols_loop kC tol el1 el2 n nec names (map nm ks) = Ok (flat_map (fun k => flat_map (fun i => bpart i k) (seq 0 N)) ks, flat_map (fun k => flat_map (fun i => epart n i k) (seq 0 N)) ks).
Proof.
  intros n ks. induction ks as [|k ks IH]; intros B; [reflexivity|]. cbn [map cols_loop flat_map]. assert (Hk : (k < N)%nat) by (apply B; left; auto).
  destruct (nm_at Hk) as (s' & t' & Ek & _ & _). assert (Ik : idx2 (nm k) = Z.of_nat k) by (rewrite Ek; reflexivity). rewrite Ik. unfold pos_of.
  replace (Z.of_nat k <? 0)%Z with false by (symmetry; apply Z.ltb_ge; lia). rewrite Nat2Z.id. cbn [bind]. unfold at_vec. rewrite (nth_error_nth' nec false) by (rewrite LN; exact Hk). cbn [bind].
  assert (X : (if nth k nec false then rows_loop kC tol el1 el2 n nec (nm k) names else Ok ([], [])) = Ok (flat_map (fun i => bpart i k) (seq 0 N), flat_map (fun i => epart n i k) (seq 0 N))).
  { destruct (nth k nec false) eqn:Nk.
    - rewrite names_map. apply rows_loop_ok; auto. intros i I. apply in_seq in I. lia.
    - rewrite (@flat_map_nil nat triplet (fun i => bpart i k)) by (intros i _; exact (proj1 (@parts_not n i k Nk))). rewrite (@flat_map_nil nat triplet (fun i => epart n i k)) by (intros i _; exact (proj2 (@parts_not n i k Nk))). reflexivity. }
  rewrite X. cbn [bind]. rewrite IH by (intros; apply B; right; auto). reflexivity.
Qed.

Lemma ofR_0 : ofR 0 = @Matrix.s0 CR. Proof. reflexivity. Qed.
Lemma tsum_bpart : forall r c, (r < N)%nat -> (c < N)%nat ->
  tsum (flat_map (fun k => flat_map (fun i => bpart i k) (seq 0 N)) (seq 0 N)) r c = if Nat.eqb r c && nth r nec false then @Matrix.s1 CR else @Matrix.s0 CR.
Proof.
  intros r c Hr Hc. rewrite tsum_seq. transitivity (bsum N (fun k => bsum N (fun i => smul (smul (delta i r) (delta k c)) (if nth i nec false && nth k nec false && Nat.eqb i k then @Matrix.s1 CR else Matrix.s0)))).
  - apply bsum_ext. intros k Hk. rewrite Nat.add_0_l, tsum_seq. apply bsum_ext. intros i Hi. rewrite Nat.add_0_l. unfold bpart, delta. destruct (nth i nec false && nth k nec false && Nat.eqb i k).
    + cbn [tsum]. destruct (Nat.eqb i r), (Nat.eqb k c); cbn [andb]; apply injective_projections; cbn; ring.
    + cbn [tsum]. destruct (Nat.eqb i r), (Nat.eqb k c); apply injective_projections; cbn; ring.
  - rewrite bsum_sel by assumption. destruct (Nat.eqb_spec r c) as [->|]; [|rewrite andb_false_r; reflexivity]. destruct (nth c nec false); reflexivity.
Qed.
Lemma cut_M : forall n i k, (i < N)%nat -> (k < N)%nat -> (msum (nm k) =? msum (nm i))%Z = false -> V n i k = 0.
Proof.
  intros n i k Hi Hk M. rewrite V_at by assumption. unfold multipole. destruct (mm (fst_ (nm i)) + mm (snd_ (nm i)) =? mm (fst_ (nm k)) + mm (snd_ (nm k)))%Z eqn:E; [|reflexivity].
  apply Z.eqb_eq in E. unfold msum in M. rewrite E, Z.eqb_refl in M. discriminate M.
Qed.
Lemma tsum_epart : forall n r c, (r < N)%nat -> (c < N)%nat ->
  tsum (flat_map (fun k => flat_map (fun i => epart n i k) (seq 0 N)) (seq 0 N)) r c = ofR (if nth r nec false && nth c nec false then cut (V (S n) r c) else 0).
Proof.
  intros n r c Hr Hc. rewrite tsum_seq.
  set (w := fun i k => ofR (if nth i nec false && nth k nec false && Nat.leb k i then cut (V (S n) i k) else 0)).
  set (w' := fun i k => ofR (if nth i nec false && nth k nec false && Nat.ltb k i then cut (V (S n) i k) else 0)).
  transitivity (sadd (bsum N (fun k => bsum N (fun i => smul (smul (delta i r) (delta k c)) (w i k)))) (bsum N (fun k => bsum N (fun i => smul (smul (delta i c) (delta k r)) (w' i k))))).
  - rewrite <- bsum_add. apply bsum_ext. intros k Hk. rewrite Nat.add_0_l, tsum_seq, <- bsum_add. apply bsum_ext. intros i Hi. rewrite Nat.add_0_l. unfold epart, w, w', delta, cut.
    destruct (nth i nec false), (nth k nec false); cbn [andb]; try (cbn [tsum]; destruct (Nat.eqb i r), (Nat.eqb k c), (Nat.eqb i c), (Nat.eqb k r); apply injective_projections; cbn; ring).
    destruct (msum (nm k) =? msum (nm i))%Z eqn:M.
    + rewrite andb_true_r. destruct (Nat.leb_spec k i), (Nat.ltb_spec k i), (Nat.eqb_spec i k), (above tol (V (S n) i k)); try lia; cbn [tsum];
        destruct (Nat.eqb i r), (Nat.eqb k c), (Nat.eqb i c), (Nat.eqb k r); apply injective_projections; cbn; ring.
    + rewrite andb_false_r, (@cut_M (S n) i k Hi Hk M). cbn [tsum]. replace (if above tol 0 then 0 else 0) with 0 by (destruct (above tol 0); reflexivity).
      destruct (Nat.leb k i), (Nat.ltb k i), (Nat.eqb i r), (Nat.eqb k c), (Nat.eqb i c), (Nat.eqb k r); apply injective_projections; cbn; ring.
  - rewrite !bsum_sel by assumption. unfold w, w'. rewrite (andb_comm (nth c nec false)). destruct (nth r nec false && nth c nec false); cbn [andb].
    + destruct (Nat.leb_spec c r), (Nat.ltb_spec r c); try lia; rewrite ?(V_sym (S n) Hr Hc); apply injective_projections; cbn; ring.
    + apply injective_projections; cbn; ring.
Qed.

Lemma parts_inside : forall (f : nat -> nat -> list triplet), (forall i k t, (i < N)%nat -> (k < N)%nat -> In t (f i k) -> (fst (fst t) < N)%nat /\ (snd (fst t) < N)%nat) ->
  inside N (flat_map (fun k => flat_map (fun i => f i k) (seq 0 N)) (seq 0 N)) = true.
Proof.
  intros f H. apply forallb_forall. intros t I. apply in_flat_map in I. destruct I as (k & Ik & I). apply in_flat_map in I. destruct I as (i & Ii & I). apply in_seq in Ik, Ii.
  destruct (H i k t) as [A B]; auto; try lia. apply andb_true_iff. rewrite !Nat.ltb_lt. auto.
Qed.
Definition mats (n : nat) : full := Full (mtrip N N (flat_map (fun k => flat_map (fun i => bpart i k) (seq 0 N)) (seq 0 N))) (mtrip N N (flat_map (fun k => flat_map (fun i => epart n i k) (seq 0 N)) (seq 0 N))).
Lemma dim_names : Z.to_nat (dim2 (build2 start b1 b2)) = N.
Proof.
  unfold build2. cbn [dim2]. assert (L : length (flat_map (fun a => map (fun b => (a, b)) (names1 b2)) (names1 b1)) = N).
  { unfold N. generalize (names1 b1). clear. intros l. induction l as [|x l IH]; [reflexivity|]. cbn [flat_map length]. rewrite app_length, map_length, IH. lia. }
  rewrite L. unfold wrap. rewrite Z.mod_small; [apply Nat2Z.id|]. split; [lia|exact SM].
Qed.
Lemma orders_loop_ok : forall ns, orders_loop kC tol el1 el2 nec (build2 start b1 b2) ns = Ok (map (fun n => (S n, mats n)) ns).
Proof.
  induction ns as [|n ns IH]; [reflexivity|]. cbn [orders_loop map]. fold names. rewrite names_map at 2. rewrite cols_loop_ok by (intros k I; apply in_seq in I; lia). cbn [bind]. unfold compress.
  rewrite dim_names. cbn [fst snd]. rewrite (@parts_inside bpart), (@parts_inside (epart n)).
  - cbn [andb bind]. rewrite IH. reflexivity.
  - intros i k t Hi Hk I. unfold epart in I. destruct (nth i nec false && nth k nec false && Nat.leb k i && (msum (nm k) =? msum (nm i))%Z); [|destruct I].
    destruct (above tol (V (S n) i k)); [|destruct I]. destruct I as [<-|I]; [cbn; auto|]. destruct (Nat.eqb i k); [destruct I|]. destruct I as [<-|[]]. cbn. auto.
  - intros i k t Hi Hk I. unfold bpart in I. destruct (nth i nec false && nth k nec false && Nat.eqb i k); [|destruct I]. destruct I as [<-|[]]. cbn. auto.
Qed.
End Loops.
