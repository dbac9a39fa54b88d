(** Proofs about FieldModel: stored operators, hermiticity, Cartesian forms. *)
From Verif Require Import Base Matrix SystemModel HamProofs FieldModel.
From Coq Require Import ZArith Lia Bool Arith Reals Lra Setoid Morphisms List.
Import ListNotations.
Set Implicit Arguments.
Local Open Scope R_scope.

Lemma cx_eq : forall x y : cx, fst x = fst y -> snd x = snd y -> x = y.
Proof. intros [a b] [c d]; cbn; intros; subst; auto. Qed.

Ltac cx := apply cx_eq; unfold cadd, cmul, csub, copp, cconj, ofR in *; cbn [fst snd tsum s0 CR] in *; try ring; try lra.

(** ** The keys of the interaction and their matrix elements *)
Inductive fkey : Type := KE (q : Z) | KB (q : Z) | KD (k q : Z) | KM (o : nat).
Definition fkey_eqb (a b : fkey) : bool :=
  match a, b with
  | KE q, KE q' => (q =? q')%Z | KB q, KB q' => (q =? q')%Z
  | KD k q, KD k' q' => (k =? k')%Z && (q =? q')%Z | KM o, KM o' => (o =? o')%nat
  | _, _ => false end.
Lemma fkey_eqb_eq : forall a b, fkey_eqb a b = true <-> a = b.
Proof.
  intros [q|q|k q|o] [q'|q'|k' q'|o']; cbn; split; intro H; try discriminate H;
  rewrite ?andb_true_iff, ?Z.eqb_eq, ?Nat.eqb_eq in *; try congruence.
  - destruct H; congruence.
  - injection H; auto.
Qed.

Lemma sum13 : forall x0 x1 x2 y0 y1 y2 t0 t1 t2 t3 t4 t5 w x0' x1' x2' y0' y1' y2' t0' t1' t2' t3' t4' t5' w' : cx, cconj x0' = x0 -> cconj (cadd x1' x2') = (cadd x1 x2) -> cconj y0' = y0 -> cconj (cadd y1' y2') = (cadd y1 y2) -> cconj t0' = t0 -> cconj t1' = t1 -> cconj (cadd t2' t3') = (cadd t2 t3) -> cconj (cadd t4' t5') = (cadd t4 t5) -> cconj w' = w ->
  cconj (cadd x0' (cadd x1' (cadd x2' (cadd y0' (cadd y1' (cadd y2' (cadd t0' (cadd t1' (cadd t2' (cadd t3' (cadd t4' (cadd t5' w')))))))))))) = (cadd x0 (cadd x1 (cadd x2 (cadd y0 (cadd y1 (cadd y2 (cadd t0 (cadd t1 (cadd t2 (cadd t3 (cadd t4 (cadd t5 w)))))))))))).
Proof.
  intros. repeat match goal with x : cx |- _ => destruct x end.
  unfold cadd, cconj in *. cbn [fst snd] in *.
  repeat match goal with H : (_, _) = (_, _) |- _ => apply pair_equal_spec in H; destruct H end.
  apply cx_eq; cbn [fst snd]; lra.
Qed.

Section Ops.
Context {State : Type}.
Variable artificial : State -> bool.
Variable m2 : State -> Z.
Variable selE : Z -> Z -> State -> State -> bool.
Variable selB : Z -> State -> State -> bool.
Variable selM : nat -> State -> State -> bool.
Variable dE dB : State -> State -> R.
Variable dD : Z -> State -> State -> R.
Variable dM : nat -> State -> State -> R.
Variable cdia cion tol : R.

(** Matrix element of an operator between the states r and c. *)
Definition vop (k : fkey) (r c : State) : CR :=
  if artificial r || artificial c then (0, 0) else
  match k with
  | KE q => if selE 1 q r c then ofR (dE r c) else (0, 0)
  | KB q => if selB q r c then ofR (dB r c) else (0, 0)
  | KD k q => if selE k q r c then ofR (cdia * dD k r c) else (0, 0)
  | KM o => if ((m2 r - m2 c) ÷ 2 =? 0)%Z && selM o r c then ofR (cion * dM o r c) else (0, 0)
  end.

Definition vkeys (s : one) : list (fkey * CR) :=
  (if big tol (s_0 (esph s)) then [(KE 0, copp (s_0 (esph s)) : CR)] else []) ++
  (if big tol (s_m (esph s)) then [(KE 1, s_m (esph s))] else []) ++
  (if big tol (s_p (esph s)) then [(KE (-1), s_p (esph s))] else []) ++
  (if big tol (s_0 (bsph s)) then [(KB 0, copp (s_0 (bsph s)) : CR)] else []) ++
  (if big tol (s_m (bsph s)) then [(KB 1, s_m (bsph s))] else []) ++
  (if big tol (s_p (bsph s)) then [(KB (-1), s_p (bsph s))] else []) ++
  (if diamag s && big tol (t00 (dia s)) then [(KD 0 0, t00 (dia s))] else []) ++
  (if diamag s && big tol (t20 (dia s)) then [(KD 2 0, copp (t20 (dia s)) : CR)] else []) ++
  (if diamag s && big tol (t21 (dia s)) then [(KD 2 1, cmul (t21 (dia s)) (ofR (sqrt 3)) : CR)] else []) ++
  (if diamag s && big tol (t2m1 (dia s)) then [(KD 2 (-1), cmul (t2m1 (dia s)) (ofR (sqrt 3)) : CR)] else []) ++
  (if diamag s && big tol (t22 (dia s)) then [(KD 2 2, copp (cmul (t22 (dia s)) (ofR (sqrt (3/2)))) : CR)] else []) ++
  (if diamag s && big tol (t2m2 (dia s)) then [(KD 2 (-2), copp (cmul (t2m2 (dia s)) (ofR (sqrt (3/2)))) : CR)] else []) ++
  (if negb (charge s =? 0)%Z then
     match distance s with
     | None => []
     | Some r => map (fun o => (KM o, ofR (IZR (charge s) * (/ r ^ (o + 1))))) (seq 1 (ordermax s))
     end
   else []).

Definition opOf (l : opsT) (k : fkey) : mat CR :=
  match k with
  | KE q => lookup Z.eqb q (oE l) | KB q => lookup Z.eqb q (oB l)
  | KD k q => lookup eqb2 (k, q) (oD l) | KM o => lookup Nat.eqb o (oM l)
  end.

Lemma terms_keys : forall s l, terms tol s l = map (fun e => (snd e, opOf l (fst e))) (vkeys s).
Proof.
  intros. unfold terms, vkeys. rewrite !map_app.
  repeat apply f_equal2; try (match goal with |- context [if ?b then _ else _] => destruct b end; reflexivity).
  destruct (negb (charge s =? 0)%Z); auto. destruct (distance s); auto. rewrite map_map. reflexivity.
Qed.

(** ** Symmetry relations of selection rules and matrix elements *)
Definition sg (q : Z) : R := if Z.even q then 1 else -1.
Variable ok : State -> Prop.
Record symm : Prop := {
  sy_E : forall k q r c, ok r -> ok c -> artificial r = false -> artificial c = false -> selE k q r c = selE k (- q) c r;
  sy_Eq : forall k q r c, ok r -> ok c -> artificial r = false -> artificial c = false -> selE k q r c = true -> (m2 r - m2 c = 2 * q)%Z;
  sy_B : forall q r c, ok r -> ok c -> artificial r = false -> artificial c = false -> selB q r c = selB (- q) c r;
  sy_Bq : forall q r c, ok r -> ok c -> artificial r = false -> artificial c = false -> selB q r c = true -> (m2 r - m2 c = 2 * q)%Z;
  sy_dE : forall q r c, ok r -> ok c -> artificial r = false -> artificial c = false -> selE 1 q r c = true -> dE c r = sg q * dE r c;
  sy_dB : forall q r c, ok r -> ok c -> artificial r = false -> artificial c = false -> selB q r c = true -> dB c r = sg q * dB r c;
  sy_dD : forall k q r c, ok r -> ok c -> artificial r = false -> artificial c = false -> selE k q r c = true -> dD k c r = sg q * dD k r c;
  sy_M : forall o r c, ok r -> ok c -> artificial r = false -> artificial c = false ->
    ((m2 r - m2 c) ÷ 2 = 0)%Z -> selM o r c = selM o c r /\ (selM o r c = true -> dM o c r = dM o r c)
}.
Hypothesis Sy : symm.

Lemma sg_sq : forall q, sg q * sg q = 1.
Proof. intro q; unfold sg; destruct (Z.even q); ring. Qed.
Lemma sg_opp : forall q, sg (- q) = sg q.
Proof. intro q; unfold sg; rewrite Z.even_opp; auto. Qed.

Lemma vop_adj : forall k r c, ok r -> ok c ->
  match k with
  | KE q => vop (KE (- q)) c r = cmul (sg q, 0) (vop (KE q) r c)
  | KB q => vop (KB (- q)) c r = cmul (sg q, 0) (vop (KB q) r c)
  | KD k q => vop (KD k (- q)) c r = cmul (sg q, 0) (vop (KD k q) r c)
  | KM o => vop (KM o) c r = vop (KM o) r c
  end.
Proof.
  intros k r c Or Oc. unfold vop. rewrite (orb_comm (artificial c)).
  destruct (artificial r) eqn:Ar; [destruct k; cbn [orb]; cx|].
  destruct (artificial c) eqn:Ac; [destruct k; cbn [orb]; cx|]. cbn [orb].
  destruct k as [q|q|k q|o].
  - rewrite <- (@sy_E Sy 1 q r c); auto. destruct (selE 1 q r c) eqn:E; [|cx].
    rewrite (@sy_dE Sy q r c); auto. cx.
  - rewrite <- (@sy_B Sy q r c); auto. destruct (selB q r c) eqn:E; [|cx].
    rewrite (@sy_dB Sy q r c); auto. cx.
  - rewrite <- (@sy_E Sy k q r c); auto. destruct (selE k q r c) eqn:E; [|cx].
    rewrite (@sy_dD Sy k q r c); auto. cx.
  - replace ((m2 c - m2 r) ÷ 2)%Z with (- ((m2 r - m2 c) ÷ 2))%Z by (rewrite <- Z.quot_opp_l by lia; f_equal; lia).
    replace (- ((m2 r - m2 c) ÷ 2) =? 0)%Z with ((m2 r - m2 c) ÷ 2 =? 0)%Z
      by (apply eq_true_iff_eq; rewrite !Z.eqb_eq; lia).
    destruct ((m2 r - m2 c) ÷ 2 =? 0)%Z eqn:E; auto. apply Z.eqb_eq in E. cbn [andb].
    destruct (@sy_M Sy o r c Or Oc Ar Ac E) as [S D]. rewrite <- S.
    destruct (selM o r c) eqn:Eo; auto. rewrite (D eq_refl). auto.
Qed.

Lemma vop_real : forall k r c, snd (vop k r c) = 0.
Proof.
  intros. unfold vop. destruct (artificial r || artificial c); auto.
  destruct k; match goal with |- context [if ?b then _ else _] => destruct b end; auto.
Qed.

(** ** The stored operators are the matrices of their matrix elements *)
Variable tbl : list (nat * State).
Hypothesis tbl_ok : forall e, In e tbl -> ok (snd e).
Hypothesis tbl_idx : map fst tbl = seq 0 (length tbl).

Lemma tbl_at : forall i, (i < length tbl)%nat -> exists x, nth_error tbl i = Some (i, x) /\ ok x.
Proof.
  intros i L. destruct (nth_error tbl i) as [[k x]|] eqn:E; [|apply nth_error_None in E; lia].
  exists x. pose proof (map_nth_error fst i tbl E) as M. rewrite tbl_idx in M.
  assert (X : nth_error (seq 0 (length tbl)) i = Some i).
  { rewrite <- (seq_length (length tbl) 0) in L. pose proof (nth_error_nth' (seq 0 (length tbl)) 0%nat L) as Y.
    rewrite Y. f_equal. rewrite seq_nth; [lia|]. rewrite seq_length in L. auto. }
  rewrite X in M. injection M as <-. split; auto. apply nth_error_In in E. apply (tbl_ok _ E).
Qed.

Lemma tsum_app : forall (a b : list (nat * nat * CR)) i j, tsum (a ++ b) i j = cadd (tsum a i j) (tsum b i j).
Proof.
  induction a as [|[[r c] v] a IH]; intros; cbn [tsum app]. { symmetry. apply (Radd_0_l cx_ring). }
  rewrite IH. apply (Radd_assoc cx_ring).
Qed.

(** Sum over one column / the whole table picks the entry. *)
Lemma tsum_flat : forall {X} (g : X -> list (nat * nat * CR)) (l : list X) i j v0 k,
  (forall p x, nth_error l p = Some x -> tsum (g x) i j = if (p =? k)%nat then v0 else (0, 0)) ->
  (k < length l)%nat -> tsum (flat_map g l) i j = v0.
Proof.
  intros X g l. induction l as [|x l IH]; intros i j v0 k H L; [cbn in L; lia|].
  cbn [flat_map]. rewrite tsum_app. pose proof (H 0%nat x eq_refl) as H0. rewrite H0. cbn in L.
  destruct k as [|k].
  - change (0 =? 0)%nat with true. cbv iota.
    enough (Q : tsum (flat_map g l) i j = ((0,0) : CR)) by (rewrite Q; cx).
    clear H0. assert (forall y, In y l -> tsum (g y) i j = ((0,0):CR)).
    { intros y Hy. apply In_nth_error in Hy. destruct Hy as [p Hp]. apply (H (S p) y Hp). }
    clear -H0. induction l; cbn [flat_map]; [reflexivity|]. rewrite tsum_app, H0, IHl; [cx|intros; apply H0; right; auto|left; auto].
  - change (0 =? S k)%nat with false. cbv iota. rewrite (IH i j v0 k); [cx| |lia]. intros p y Hp. apply (H (S p) y Hp).
Qed.

Lemma tsum_idx : forall i j r c v, tsum [(r, c, v)] i j = if Nat.eqb r i && Nat.eqb c j then v else ((0, 0) : CR).
Proof. intros. cbn [tsum]. destruct (Nat.eqb r i && Nat.eqb c j); apply (@cx_eq); cbn; ring. Qed.

Lemma trips_at : forall keep f i j x y,
  nth_error tbl i = Some (i, x) -> nth_error tbl j = Some (j, y) ->
  tsum (trips artificial tbl keep f) i j =
    if artificial x || artificial y then (0, 0) else if keep (i, x) (j, y) then ofR (f x y) else (0, 0).
Proof.
  intros keep f i j x y Hi Hj. unfold trips.
  assert (Li : (i < length tbl)%nat) by (apply nth_error_Some; congruence).
  assert (Lj : (j < length tbl)%nat) by (apply nth_error_Some; congruence).
  apply (@tsum_flat (nat * State) _ tbl i j _ j); auto.
  intros p [k c] Hp. assert (k = p) by (assert (Lp : (p < length tbl)%nat) by (apply nth_error_Some; congruence);
    destruct (tbl_at Lp) as (z & E & _); congruence). subst k. cbn [fst snd].
  destruct (p =? j)%nat eqn:Ej.
  - apply Nat.eqb_eq in Ej. subst p. assert (c = y) by congruence. subst c. rewrite (orb_comm (artificial x)).
    destruct (artificial y); [reflexivity|]. cbn [orb].
    apply (@tsum_flat (nat * State) _ tbl i j _ i); auto.
    intros p [k r] Hr. assert (k = p) by (assert (Lp : (p < length tbl)%nat) by (apply nth_error_Some; congruence);
      destruct (tbl_at Lp) as (z & E & _); congruence). subst k. cbn [fst snd].
    destruct (p =? i)%nat eqn:Ei.
    + apply Nat.eqb_eq in Ei. subst p. assert (r = x) by congruence. subst r.
      destruct (artificial x); [reflexivity|]. destruct (keep (i, x) (j, y)); [|reflexivity].
      rewrite tsum_idx, !Nat.eqb_refl. reflexivity.
    + destruct (artificial r); [reflexivity|]. destruct (keep (p, r) (j, y)); [|reflexivity].
      rewrite tsum_idx, Ei. reflexivity.
  - destruct (artificial c); [reflexivity|].
    assert (X : forall l, tsum (flat_map (fun r : nat * State => if artificial (snd r) then []
       else if keep r (p, c) then [(fst r, p, ofR (f (snd r) c))] else []) l) i j = ((0, 0) : CR)).
    { induction l as [|[k r] l IH]; [reflexivity|]. cbn [flat_map fst snd]. rewrite tsum_app, IH.
      destruct (artificial r); [cx|]. destruct (keep (k, r) (p, c)); [|cx]. rewrite tsum_idx, Ej, andb_false_r. cx. }
    apply X.
Qed.

Lemma op_at : forall k i j x y, nth_error tbl i = Some (i, x) -> nth_error tbl j = Some (j, y) ->
  at_ (op_matrix vop k tbl) i j = vop k x y.
Proof.
  intros k i j x y Hi Hj. unfold op_matrix, mtrip. cbn [at_].
  assert (Li : (i < length tbl)%nat) by (apply nth_error_Some; congruence).
  assert (Lj : (j < length tbl)%nat) by (apply nth_error_Some; congruence).
  apply (@tsum_flat (nat * State) _ tbl i j _ j); auto.
  intros p [q c] Hp. assert (q = p) by (assert (Lp : (p < length tbl)%nat) by (apply nth_error_Some; congruence);
    destruct (tbl_at Lp) as (z & E & _); congruence). subst q. cbn [fst snd].
  assert (X : forall l, map (fun r : nat * State => (fst r, p, vop k (snd r) c)) l = flat_map (fun r => [(fst r, p, vop k (snd r) c)]) l).
  { induction l as [|a l IHl]; [reflexivity|]. cbn [map flat_map app]. rewrite IHl. reflexivity. }
  rewrite X. clear X. destruct (p =? j)%nat eqn:Ej.
  - apply Nat.eqb_eq in Ej. subst p. assert (c = y) by congruence. subst c.
    apply (@tsum_flat (nat * State) _ tbl i j _ i); auto.
    intros p [q r] Hr. assert (q = p) by (assert (Lp : (p < length tbl)%nat) by (apply nth_error_Some; congruence);
      destruct (tbl_at Lp) as (z & E & _); congruence). subst q. cbn [fst snd]. rewrite tsum_idx, Nat.eqb_refl.
    destruct (p =? i)%nat eqn:Ei; cbn [andb]; auto. apply Nat.eqb_eq in Ei. subst p. congruence.
  - assert (X : forall l, tsum (flat_map (fun r : nat * State => [(fst r, p, vop k (snd r) c)]) l) i j = ((0, 0) : CR)).
    { induction l as [|[q r] l IH]; [reflexivity|]. cbn [flat_map fst snd]. rewrite tsum_app, IH, tsum_idx, Ej, andb_false_r. cx. }
    apply X.
Qed.

Variable B : mat CR.
Notation OP k := (@op_matrix CR State fkey vop k tbl).

Definition right_op (k : fkey) (M : mat CR) : Prop := meq M (mconj B (OP k)).

Lemma mt_eq : forall (A A' : mat CR), nr A = length tbl -> nc A = length tbl -> nr A' = length tbl -> nc A' = length tbl ->
  (forall i j x y, nth_error tbl i = Some (i, x) -> nth_error tbl j = Some (j, y) -> ok x -> ok y -> at_ A i j = at_ A' i j) -> meq A A'.
Proof.
  intros A A' a b c d H. split; [congruence|]. split; [congruence|]. intros i j Hi Hj. rewrite a in Hi. rewrite b in Hj.
  destruct (tbl_at Hi) as (x & X & Ox). destruct (tbl_at Hj) as (y & Y & Oy). eauto.
Qed.

Lemma cconj_real : forall x : CR, snd x = 0 -> cconj x = x.
Proof. intros [a b]; cbn; intro; subst. cx. Qed.

(** The operator of index 0 from its lower triangle, given that the triangle holds the elements. *)
Lemma lower_op : forall K0 (f : State -> State -> R) (keep : nat * State -> nat * State -> bool),
  (forall i j x y, nth_error tbl i = Some (i, x) -> nth_error tbl j = Some (j, y) -> (j <= i)%nat -> ok x -> ok y ->
     (if artificial x || artificial y then (0, 0) else if keep (i, x) (j, y) then ofR (f x y) else (0, 0)) = vop K0 x y) ->
  (forall x y, ok x -> ok y -> vop K0 x y = vop K0 y x) ->
  right_op K0 (mconj B (lowerView (mtrip (length tbl) (length tbl) (trips artificial tbl keep f)))).
Proof.
  intros K0 f keep H Hs. unfold right_op.
  cut (meq (lowerView (mtrip (length tbl) (length tbl) (trips artificial tbl keep f))) (OP K0)).
  { intro X. rewrite X. reflexivity. }
  apply mt_eq; auto. intros i j x y Hi Hj Ox Oy. rewrite (op_at K0 Hi Hj). cbn [lowerView at_ mtrip].
  destruct (j <=? i)%nat eqn:L.
  - apply Nat.leb_le in L. rewrite (@trips_at keep f i j x y); auto.
  - apply Nat.leb_gt in L. rewrite (@trips_at keep f j i y x); auto. rewrite H; auto; [|lia].
    rewrite (Hs x y) by auto. apply cconj_real. apply vop_real.
Qed.

Lemma full_op : forall K0 (f : State -> State -> R) (keep : nat * State -> nat * State -> bool),
  (forall i j x y, nth_error tbl i = Some (i, x) -> nth_error tbl j = Some (j, y) -> ok x -> ok y ->
     (if artificial x || artificial y then (0, 0) else if keep (i, x) (j, y) then ofR (f x y) else (0, 0)) = vop K0 x y) ->
  right_op K0 (mconj B (mtrip (length tbl) (length tbl) (trips artificial tbl keep f))).
Proof.
  intros K0 f keep H. unfold right_op.
  cut (meq (mtrip (length tbl) (length tbl) (trips artificial tbl keep f)) (OP K0)).
  { intro X. rewrite X. reflexivity. }
  apply mt_eq; auto. intros i j x y Hi Hj Ox Oy. rewrite (op_at K0 Hi Hj). cbn [at_ mtrip].
  rewrite (@trips_at keep f i j x y); auto.
Qed.

(** An operator of index -q from the one of index q. *)
Lemma adj_op : forall K0 K1 q M, right_op K0 M ->
  (forall x y, ok x -> ok y -> vop K1 y x = cmul (sg q, 0) (vop K0 x y)) ->
  right_op K1 (mscale (if Z.even q then ((1, 0) : CR) else ((-1, 0) : CR)) (madj M)).
Proof.
  intros K0 K1 q M H Hs. unfold right_op in *. rewrite H, mconj_adj.
  replace (if Z.even q then ((1, 0) : CR) else ((-1, 0) : CR)) with ((sg q, 0) : CR) by (unfold sg; destruct (Z.even q); auto).
  rewrite <- mconj_scale.
  cut (meq (mscale ((sg q, 0) : CR) (madj (OP K0))) (OP K1)). { intro X; rewrite X; reflexivity. }
  apply mt_eq; auto. intros i j x y Hi Hj Ox Oy. rewrite (op_at K1 Hi Hj). cbn [at_ mscale madj nr nc].
  rewrite (op_at K0 Hj Hi). rewrite (Hs y x) by auto.
  cbn [sconj CR]. rewrite cconj_real by apply vop_real. reflexivity.
Qed.

(** The E- and B-field ranges are lists of distinct indices among 0 and 1. *)
Lemma hit_spec : forall er sel low i,
  (forall p q, In p er -> In q er -> sel p = true -> sel q = true -> p = q) -> In i er ->
  match hit er sel low with Some q => (q =? i)%Z | None => false end = sel i && negb ((i =? 0)%Z && negb low).
Proof.
  intros er sel low i. induction er as [|p er IH]; intros U Hi; [contradiction|]. cbn [hit].
  destruct ((p =? 0)%Z && negb low) eqn:Z0.
  - destruct Hi as [->|Hi].
    + rewrite Z0, andb_false_r.
      assert (X : hit er sel low = None \/ exists q, hit er sel low = Some q /\ (q =? i)%Z = false).
      { clear IH U. induction er as [|a er IH]; cbn; auto. destruct ((a =? 0)%Z && negb low) eqn:Za; auto.
        destruct (sel a); auto. right. exists a. split; auto. destruct (a =? i)%Z eqn:E; auto. apply Z.eqb_eq in E. congruence. }
      destruct X as [-> | (q & -> & E)]; auto.
    + apply IH; auto. intros; apply U; auto; right; auto.
  - destruct (sel p) eqn:Sp.
    + destruct (p =? i)%Z eqn:E.
      * apply Z.eqb_eq in E. subst. rewrite Sp, Z0. reflexivity.
      * destruct (sel i) eqn:Si; auto. apply Z.eqb_neq in E. exfalso. apply E. apply U; auto. left; auto.
    + destruct Hi as [->|Hi]; [|apply IH; auto; intros; apply U; auto; right; auto].
      rewrite Sp. cbn. clear IH.
      assert (X : forall er', (forall q, hit er' sel low = Some q -> sel q = true)).
      { induction er' as [|a er' IH]; cbn; intros q; [discriminate|]. destruct ((a =? 0)%Z && negb low); auto.
        destruct (sel a) eqn:Sa; auto. intro Y; injection Y as <-; auto. }
      destruct (hit er sel low) as [q|] eqn:Hq; auto. specialize (X er q Hq).
      destruct (q =? i)%Z eqn:E; auto. apply Z.eqb_eq in E. congruence.
Qed.

Definition rel (l : opsT) : Prop :=
  (forall e, In e (oE l) -> right_op (KE (fst e)) (snd e)) /\
  (forall e, In e (oB l) -> right_op (KB (fst e)) (snd e)) /\
  (forall e, In e (oD l) -> right_op (KD (fst (fst e)) (snd (fst e))) (snd e)) /\
  (forall e, In e (oM l) -> right_op (KM (fst e)) (snd e)).

Lemma range_in : forall p (l : list (Z * mat CR)) i, In i (erange_of tol p l) -> (i = 0 \/ i = 1)%Z.
Proof. intros p l i H. apply filter_In in H. cbn in H. destruct H as [[H|[H|[]]] _]; auto. Qed.

Lemma store_right : forall er (mk : Z -> fkey) (keep : Z -> nat * State -> nat * State -> bool) (f : State -> State -> R),
  (forall i, In i er -> i = 0 \/ i = 1)%Z ->
  (forall i, In i er -> forall a b x y, nth_error tbl a = Some (a, x) -> nth_error tbl b = Some (b, y) -> ok x -> ok y ->
     (i <> 0%Z \/ (b <= a)%nat) ->
     (if artificial x || artificial y then (0, 0) else if keep i (a, x) (b, y) then ofR (f x y) else (0, 0)) = vop (mk i) x y) ->
  (forall i x y, ok x -> ok y -> vop (mk (- i)%Z) y x = cmul (sg i, 0) (vop (mk i) x y)) ->
  forall e, In e (flat_map (fun i => store B (length tbl) i (trips artificial tbl (keep i) f)) er) -> right_op (mk (fst e)) (snd e).
Proof.
  intros er mk keep f R01 Hk Hs e He. apply in_flat_map in He. destruct He as (i & Hi & He). unfold store in He.
  destruct (R01 i Hi) as [-> | ->]; cbn [Z.eqb] in He.
  - destruct He as [<-|[]]. cbn [fst snd]. apply lower_op.
    + intros; apply (Hk 0%Z); auto.
    + intros x y Ox Oy. pose proof (Hs 0%Z y x Oy Ox) as Q. change (- 0)%Z with 0%Z in Q. rewrite Q. unfold sg. cbn [Z.even]. cx.
  - assert (X : right_op (mk 1%Z) (mconj B (mtrip (length tbl) (length tbl) (trips artificial tbl (keep 1%Z) f)))).
    { apply full_op. intros; apply (Hk 1%Z); auto. left; lia. }
    destruct He as [<-|[<-|[]]]; cbn [fst snd]; auto.
    apply (@adj_op (mk 1%Z)); auto.
Qed.

Lemma store_right2 : forall dr (mk : Z -> Z -> fkey) (keep : Z -> Z -> nat * State -> nat * State -> bool) (f : Z -> State -> State -> R),
  (forall ki, In ki dr -> 0 <= snd ki)%Z ->
  (forall ki, In ki dr -> forall a b x y, nth_error tbl a = Some (a, x) -> nth_error tbl b = Some (b, y) -> ok x -> ok y ->
     (snd ki <> 0%Z \/ (b <= a)%nat) ->
     (if artificial x || artificial y then (0, 0) else if keep (fst ki) (snd ki) (a, x) (b, y) then ofR (f (fst ki) x y) else (0, 0)) = vop (mk (fst ki) (snd ki)) x y) ->
  (forall k i x y, ok x -> ok y -> vop (mk k (- i)%Z) y x = cmul (sg i, 0) (vop (mk k i) x y)) ->
  forall e, In e (flat_map (fun ki => map (fun e => ((fst ki, fst e), snd e))
     (store B (length tbl) (snd ki) (trips artificial tbl (keep (fst ki) (snd ki)) (f (fst ki))))) dr) ->
     right_op (mk (fst (fst e)) (snd (fst e))) (snd e).
Proof.
  intros dr mk keep f R01 Hk Hs e He. apply in_flat_map in He. destruct He as ([k i] & Hi & He). cbn [fst snd] in He.
  apply in_map_iff in He. destruct He as (e' & <- & He). cbn [fst snd]. unfold store in He. specialize (R01 _ Hi). cbn [snd] in R01.
  destruct (i =? 0)%Z eqn:E0.
  - apply Z.eqb_eq in E0. subst i. destruct He as [<-|[]]. cbn [fst snd]. apply lower_op.
    + intros; apply (Hk (k, 0%Z)); auto.
    + intros x y Ox Oy. pose proof (Hs k 0%Z y x Oy Ox) as Q. change (- 0)%Z with 0%Z in Q. rewrite Q. unfold sg. cbn [Z.even]. cx.
  - apply Z.eqb_neq in E0.
    assert (X : right_op (mk k i) (mconj B (mtrip (length tbl) (length tbl) (trips artificial tbl (keep k i) (f k))))).
    { apply full_op. intros; apply (Hk (k, i)); auto. }
    destruct He as [<-|[<-|[]]]; cbn [fst snd]; auto.
    apply (@adj_op (mk k i)); auto.
Qed.

Lemma init_rel : forall s l, rel l -> rel (initInt artificial m2 selE selB selM dE dB dD dM cdia cion tol s tbl B l).
Proof.
  intros s l (HE & HB & HD & HM). unfold initInt, rel. cbn [oE oB oD oM].
  refine (conj _ (conj _ (conj _ _))); intros e He; apply in_app_or in He; (destruct He as [He|He]; [auto|]).
  - apply (@store_right (erange_of tol (esph s) (oE l)) KE (keepE selE (erange_of tol (esph s) (oE l))) dE); auto.
    + apply range_in.
    + intros i Hi a b x y Ha Hb Ox Oy Hab. unfold keepE. cbn [fst snd]. unfold vop.
      destruct (artificial x) eqn:Ax; [auto|]. destruct (artificial y) eqn:Ay; [auto|]. cbn [orb].
      rewrite hit_spec with (i := i); auto.
      * destruct (selE 1 i x y); auto. cbn [andb]. destruct (i =? 0)%Z eqn:E0; auto. apply Z.eqb_eq in E0.
        destruct Hab as [X|X]; [congruence|]. apply Nat.leb_le in X. rewrite X. reflexivity.
      * intros p q _ _ Sp Sq. pose proof (@sy_Eq Sy 1 p x y Ox Oy Ax Ay Sp). pose proof (@sy_Eq Sy 1 q x y Ox Oy Ax Ay Sq). lia.
    + intros i x y Ox Oy. apply (vop_adj (KE i) Ox Oy).
  - apply (@store_right (erange_of tol (bsph s) (oB l)) KB (keepB selB (erange_of tol (bsph s) (oB l))) dB); auto.
    + apply range_in.
    + intros i Hi a b x y Ha Hb Ox Oy Hab. unfold keepB. cbn [fst snd]. unfold vop.
      destruct (artificial x) eqn:Ax; [auto|]. destruct (artificial y) eqn:Ay; [auto|]. cbn [orb].
      rewrite hit_spec with (i := i); auto.
      * destruct (selB i x y); auto. cbn [andb]. destruct (i =? 0)%Z eqn:E0; auto. apply Z.eqb_eq in E0.
        destruct Hab as [X|X]; [congruence|]. apply Nat.leb_le in X. rewrite X. reflexivity.
      * intros p q _ _ Sp Sq. pose proof (@sy_Bq Sy p x y Ox Oy Ax Ay Sp). pose proof (@sy_Bq Sy q x y Ox Oy Ax Ay Sq). lia.
    + intros i x y Ox Oy. apply (vop_adj (KB i) Ox Oy).
  - apply (@store_right2 (drange_of tol (diamag s) (dia s) (oD l)) KD (keepD selE) (fun k r c => cdia * dD k r c)); auto.
    + intros ki H. apply filter_In in H. cbn in H. destruct H as [[H|[H|[H|[H|[]]]]] _]; subst; cbn; lia.
    + intros [k i] Hi a b x y Ha Hb Ox Oy Hab. unfold keepD. cbn [fst snd] in *. unfold vop.
      destruct (artificial x) eqn:Ax; [auto|]. destruct (artificial y) eqn:Ay; [auto|]. cbn [orb].
      replace (negb ((i =? 0)%Z && (a <? b)%nat)) with true; auto.
      destruct (i =? 0)%Z eqn:E0; auto. apply Z.eqb_eq in E0. destruct Hab as [X|X]; [congruence|].
      apply Nat.ltb_ge in X. rewrite X. reflexivity.
    + intros k i x y Ox Oy. apply (vop_adj (KD k i) Ox Oy).
  - apply in_map_iff in He. destruct He as (o & <- & Ho). cbn [fst snd]. apply full_op.
    intros i j x y Hi Hj Ox Oy. unfold keepM, vop. cbn [snd]. destruct (artificial x || artificial y); auto.
Qed.

(** Every operator needed for the current parameters is stored after initializeInteraction. *)
Lemma lookup_app : forall {X} (eqb : X -> X -> bool) k (l l' : list (X * mat CR)),
  lookup eqb k (l ++ l') = if has eqb k l then lookup eqb k l else lookup eqb k l'.
Proof.
  intros X eqb k l l'. unfold lookup, has. induction l as [|e l IH]; cbn; auto.
  destruct (eqb (fst e) k); auto.
Qed.

Lemma lookup_in : forall {X} (eqb : X -> X -> bool) k (l : list (X * mat CR)),
  (forall a b, eqb a b = true <-> a = b) -> has eqb k l = true -> exists M, In (k, M) l /\ lookup eqb k l = M.
Proof.
  intros X eqb k l E H. unfold has in H. unfold lookup. induction l as [|[a M] l IH]; cbn in *; [discriminate|].
  destruct (eqb a k) eqn:Ek. { apply E in Ek. subst. exists M. cbn. auto. }
  destruct (IH H) as (M' & I & L). exists M'. auto.
Qed.

Lemma eqb2_eq : forall a b, eqb2 a b = true <-> a = b.
Proof. intros [a b] [c d]. unfold eqb2. cbn. rewrite andb_true_iff, !Z.eqb_eq. split; [intros []; congruence|intro X; injection X; auto]. Qed.

(** Operators are stored in pairs (q, -q). *)
Definition closed (l : opsT) : Prop :=
  has Z.eqb 1%Z (oE l) = has Z.eqb (-1)%Z (oE l) /\ has Z.eqb 1%Z (oB l) = has Z.eqb (-1)%Z (oB l) /\
  has eqb2 (2, 1)%Z (oD l) = has eqb2 (2, -1)%Z (oD l) /\ has eqb2 (2, 2)%Z (oD l) = has eqb2 (2, -2)%Z (oD l).

Lemma has_app : forall {X} (eqb : X -> X -> bool) k (l l' : list (X * mat CR)), has eqb k (l ++ l') = has eqb k l || has eqb k l'.
Proof. intros. unfold has. apply existsb_app. Qed.
Lemma has_flat : forall {X Y} (eqb : X -> X -> bool) k (g : Y -> list (X * mat CR)) l,
  has eqb k (flat_map g l) = existsb (fun y => has eqb k (g y)) l.
Proof. intros. unfold has. induction l; cbn; auto. rewrite existsb_app, IHl. auto. Qed.
Lemma has_map : forall {X} (eqb : X -> X -> bool) k (h : Z -> X) (l : list (Z * mat CR)),
  has eqb k (map (fun e => (h (fst e), snd e)) l) = existsb (fun e => eqb (h (fst e)) k) l.
Proof. intros. unfold has. induction l; cbn; auto. rewrite IHl. auto. Qed.

Notation INIT := (initInt artificial m2 selE selB selM dE dB dD dM cdia cion tol).

Lemma has_initE : forall (mkt : Z -> list (nat * nat * CR)) er k n, (forall i, In i er -> i = 0 \/ i = 1)%Z ->
  has Z.eqb k (flat_map (fun i => store B n i (mkt i)) er) = existsb (fun i => (i =? k)%Z || (- i =? k)%Z) er.
Proof.
  intros mkt er k n R. rewrite has_flat. induction er as [|i er IH]; auto. cbn [existsb].
  rewrite IH by (intros; apply R; right; auto). f_equal. unfold store, has.
  destruct (R i (or_introl eq_refl)) as [-> | ->]; cbn [Z.eqb existsb fst snd]; rewrite orb_false_r; [rewrite orb_diag|]; reflexivity.
Qed.

Lemma has_initD : forall (mkt : Z * Z -> list (nat * nat * CR)) dr k n,
  has eqb2 k (flat_map (fun ki => map (fun e => ((fst ki, fst e), snd e)) (store B n (snd ki) (mkt ki))) dr)
  = existsb (fun ki => eqb2 ki k || eqb2 (fst ki, - snd ki)%Z k) dr.
Proof.
  intros mkt dr k n. rewrite has_flat. induction dr as [|[a i] dr IH]; auto. cbn [existsb]. rewrite IH. f_equal.
  cbn [fst snd]. rewrite (has_map eqb2 k (fun z => (a, z))). unfold store.
  destruct (i =? 0)%Z eqn:E; cbn [existsb fst]; rewrite orb_false_r.
  - apply Z.eqb_eq in E. subst. change (- 0)%Z with 0%Z. rewrite orb_diag. reflexivity.
  - reflexivity.
Qed.

Lemma existsb_filter : forall {X} (f g : X -> bool) l, existsb f (filter g l) = existsb (fun x => g x && f x) l.
Proof. intros. induction l; cbn; auto. destruct (g a); cbn; rewrite IHl; auto. Qed.

Lemma init_closed : forall s l, closed l -> closed (INIT s tbl B l).
Proof.
  intros s l (HE & HB & H1 & H2). unfold closed, initInt. cbn [oE oB oD oM]. rewrite !has_app, <- HE, <- HB, <- H1, <- H2.
  unfold initE, initB, initD.
  rewrite !(@has_initE (fun i => trips artificial tbl (keepE selE (erange_of tol (esph s) (oE l)) i) dE)) by apply range_in.
  rewrite !(@has_initE (fun i => trips artificial tbl (keepB selB (erange_of tol (bsph s) (oB l)) i) dB)) by apply range_in.
  rewrite !(@has_initD (fun ki => trips artificial tbl (keepD selE (fst ki) (snd ki)) (fun r c => cdia * dD (fst ki) r c))).
  unfold erange_of, drange_of. rewrite !existsb_filter. cbn [existsb Z.eqb orb fst snd eqb2 andb].
  unfold eqb2. cbn [fst snd]. cbn [Z.eqb Pos.eqb Z.opp andb orb].
  rewrite ?andb_true_r, ?andb_false_r, ?orb_false_r. repeat split; reflexivity.
Qed.

(** Components related as those of a real vector. *)
Definition real_sph (e : sph) : Prop := s_p e = copp (cconj (s_m e)) /\ snd (s_0 e) = 0.
Definition fields_ok (s : one) : Prop := real_sph (esph s) /\ real_sph (bsph s) /\ dia s = diaTerms (bsph s).

Lemma big_conj : forall x : CR, big tol (cconj x) = big tol x.
Proof. intros [a b]. unfold big. cbn. replace (- b * - b) with (b * b) by ring. reflexivity. Qed.
Lemma big_opp : forall x : CR, big tol (copp x) = big tol x.
Proof. intros [a b]. unfold big. cbn. replace (- b * - b) with (b * b) by ring. replace (- a * - a) with (a * a) by ring. reflexivity. Qed.
Lemma big_pm : forall e, real_sph e -> big tol (s_p e) = big tol (s_m e).
Proof. intros e [-> _]. rewrite big_opp. apply big_conj. Qed.

Lemma dia_conj : forall b, real_sph b ->
  t2m1 (diaTerms b) = copp (cconj (t21 (diaTerms b))) /\ t2m2 (diaTerms b) = cconj (t22 (diaTerms b)) /\
  snd (t00 (diaTerms b)) = 0 /\ snd (t20 (diaTerms b)) = 0.
Proof.
  intros [[am bm] [a0 b0] [ap bp]] [H1 H2]. cbn in H1, H2. injection H1 as -> ->. subst b0.
  unfold diaTerms. cbn [t2m1 t21 t2m2 t22 t00 t20 s_m s_0 s_p]. split; [cx|]. split; [cx|]. cbn. split; ring.
Qed.

Definition stored (l : opsT) (k : fkey) : bool :=
  match k with
  | KE q => has Z.eqb q (oE l) | KB q => has Z.eqb q (oB l)
  | KD k q => has eqb2 (k, q) (oD l) | KM o => has Nat.eqb o (oM l) end.

Lemma opOf_right : forall l k, rel l -> stored l k = true -> right_op k (opOf l k).
Proof.
  intros l k (HE & HB & HD & HM) S. destruct k as [q|q|k q|o]; cbn [stored opOf] in *.
  - destruct (@lookup_in Z Z.eqb q (oE l) Z.eqb_eq S) as (M & I & ->). apply (HE _ I).
  - destruct (@lookup_in Z Z.eqb q (oB l) Z.eqb_eq S) as (M & I & ->). apply (HB _ I).
  - destruct (@lookup_in (Z * Z) eqb2 (k, q) (oD l) eqb2_eq S) as (M & I & ->). apply (HD _ I).
  - destruct (@lookup_in nat Nat.eqb o (oM l) Nat.eqb_eq S) as (M & I & ->). apply (HM _ I).
Qed.

Lemma init_present : forall s l, closed l -> fields_ok s -> forall e, In e (vkeys s) -> stored (INIT s tbl B l) (fst e) = true.
Proof.
  intros s l CL (Fe & Fb & Fd) e He.
  pose proof (init_closed s CL) as CL'. destruct CL' as (CE & CB & C1 & C2).
  assert (SE0 : big tol (s_0 (esph s)) = true -> stored (INIT s tbl B l) (KE 0) = true).
  { intro Hb. cbn [stored initInt oE]. rewrite has_app. unfold initE.
    rewrite (@has_initE (fun i => trips artificial tbl (keepE selE (erange_of tol (esph s) (oE l)) i) dE)) by apply range_in.
    unfold erange_of. rewrite existsb_filter. cbn [existsb Z.eqb Z.opp]. rewrite Hb. cbn [andb orb]. destruct (has Z.eqb 0%Z (oE l)); reflexivity. }
  assert (SB0 : big tol (s_0 (bsph s)) = true -> stored (INIT s tbl B l) (KB 0) = true).
  { intro Hb. cbn [stored initInt oB]. rewrite has_app. unfold initB.
    rewrite (@has_initE (fun i => trips artificial tbl (keepB selB (erange_of tol (bsph s) (oB l)) i) dB)) by apply range_in.
    unfold erange_of. rewrite existsb_filter. cbn [existsb Z.eqb Z.opp]. rewrite Hb. cbn [andb orb]. destruct (has Z.eqb 0%Z (oB l)); reflexivity. }
  destruct CL as (cE & cB & c1 & c2).
  assert (SE1 : big tol (s_p (esph s)) = true -> has Z.eqb 1%Z (oE (INIT s tbl B l)) = true).
  { intro Hb. cbn [initInt oE]. rewrite has_app. unfold initE.
    rewrite (@has_initE (fun i => trips artificial tbl (keepE selE (erange_of tol (esph s) (oE l)) i) dE)) by apply range_in.
    unfold erange_of. rewrite existsb_filter. cbn [existsb Z.eqb Z.opp Pos.eqb]. rewrite Hb, cE.
    cbn [andb orb]. destruct (has Z.eqb (-1)%Z (oE l)); rewrite ?orb_true_r; reflexivity. }
  assert (SB1 : big tol (s_p (bsph s)) = true -> has Z.eqb 1%Z (oB (INIT s tbl B l)) = true).
  { intro Hb. cbn [initInt oB]. rewrite has_app. unfold initB.
    rewrite (@has_initE (fun i => trips artificial tbl (keepB selB (erange_of tol (bsph s) (oB l)) i) dB)) by apply range_in.
    unfold erange_of. rewrite existsb_filter. cbn [existsb Z.eqb Z.opp Pos.eqb]. rewrite Hb, cB.
    cbn [andb orb]. destruct (has Z.eqb (-1)%Z (oB l)); rewrite ?orb_true_r; reflexivity. }
  assert (SD : forall k, In k [(0, 0); (2, 0); (2, 1); (2, 2)]%Z -> diamag s = true ->
     big tol (if eqb2 k (0, 0)%Z then t00 (dia s) else if eqb2 k (2, 0)%Z then t20 (dia s)
                               else if eqb2 k (2, 1)%Z then t21 (dia s) else t22 (dia s)) = true ->
     has eqb2 k (oD (INIT s tbl B l)) = true).
  { intros k Hk Hd Hb. cbn [initInt oD]. rewrite has_app. unfold initD.
    rewrite (@has_initD (fun ki => trips artificial tbl (keepD selE (fst ki) (snd ki)) (fun r c => cdia * dD (fst ki) r c))).
    destruct (has eqb2 k (oD l)) eqn:Hh; auto. cbn [orb]. apply existsb_exists. exists k. split.
    - apply filter_In. split; auto. rewrite Hd, Hb, Hh. reflexivity.
    - rewrite (proj2 (eqb2_eq k k) eq_refl). reflexivity. }
  destruct (dia_conj Fb) as (D1 & D2 & _ & _). rewrite <- Fd in D1, D2.
  unfold vkeys in He. rewrite !in_app_iff in He.
  repeat (destruct He as [He|He];
    [match type of He with In _ (if ?b then _ else _) => destruct b eqn:Eb end; [|contradiction];
     destruct He as [<-|[]]; cbn [fst]|]).
  - auto.
  - cbn [stored]. apply SE1. rewrite (big_pm Fe). auto.
  - cbn [stored]. rewrite <- CE. auto.
  - auto.
  - cbn [stored]. apply SB1. rewrite (big_pm Fb). auto.
  - cbn [stored]. rewrite <- CB. auto.
  - apply andb_true_iff in Eb. destruct Eb. cbn [stored]. apply SD; cbn; auto.
  - apply andb_true_iff in Eb. destruct Eb. cbn [stored]. apply SD; cbn; auto.
  - apply andb_true_iff in Eb. destruct Eb. cbn [stored]. apply SD; cbn; auto.
  - apply andb_true_iff in Eb. destruct Eb as [Ed Eb]. cbn [stored]. rewrite <- C1. apply SD; cbn; auto.
    rewrite D1, big_opp, big_conj in Eb. auto.
  - apply andb_true_iff in Eb. destruct Eb. cbn [stored]. apply SD; cbn; auto.
  - apply andb_true_iff in Eb. destruct Eb as [Ed Eb]. cbn [stored]. rewrite <- C2. apply SD; cbn; auto.
    rewrite D2, big_conj in Eb. auto.
  - destruct (charge s =? 0)%Z eqn:Ec; cbn [negb] in He; [contradiction|].
    destruct (distance s) as [d|]; [|contradiction]. apply in_map_iff in He. destruct He as (o & <- & Ho). cbn [fst stored initInt oM].
    rewrite has_app. destruct (has Nat.eqb o (oM l)) eqn:Hh; auto. cbn [orb]. unfold initM, has. rewrite existsb_exists.
    eexists (o, _). split; [|apply Nat.eqb_refl]. apply in_map_iff. exists o. split; [reflexivity|].
    unfold orange_of. rewrite Ec. apply filter_In. rewrite Hh. auto.
Qed.

(** ** The sum of the interactions *)
Definition wsum (l : list (fkey * CR)) (r c : State) : CR :=
  fold_right (fun e a => cadd (cmul (snd e) (vop (fst e) r c)) a) (0, 0) l.
Lemma wsum_app : forall a b r c, wsum (a ++ b) r c = cadd (wsum a r c) (wsum b r c).
Proof. induction a as [|e a IH]; intros; cbn [wsum fold_right app]. { symmetry. apply (Radd_0_l cx_ring). } fold (wsum a r c). fold (wsum (a ++ b) r c). rewrite IH. apply (Radd_assoc cx_ring). Qed.

Lemma vop_E1 : forall r c, ok r -> ok c -> vop (KE (-1)) c r = copp (vop (KE 1) r c).
Proof. intros r c Or Oc. pose proof (vop_adj (KE 1) Or Oc) as H. cbn in H. rewrite H. unfold sg. cbn [Z.even]. cx. Qed.
Lemma vop_E0 : forall r c, ok r -> ok c -> vop (KE 0) c r = vop (KE 0) r c.
Proof. intros r c Or Oc. pose proof (vop_adj (KE 0) Or Oc) as H. cbn in H. rewrite H. unfold sg. cbn [Z.even]. cx. Qed.
Lemma vop_B1 : forall r c, ok r -> ok c -> vop (KB (-1)) c r = copp (vop (KB 1) r c).
Proof. intros r c Or Oc. pose proof (vop_adj (KB 1) Or Oc) as H. cbn in H. rewrite H. unfold sg. cbn [Z.even]. cx. Qed.
Lemma vop_B0 : forall r c, ok r -> ok c -> vop (KB 0) c r = vop (KB 0) r c.
Proof. intros r c Or Oc. pose proof (vop_adj (KB 0) Or Oc) as H. cbn in H. rewrite H. unfold sg. cbn [Z.even]. cx. Qed.
Lemma vop_D1 : forall k r c, ok r -> ok c -> vop (KD k (-1)) c r = copp (vop (KD k 1) r c).
Proof. intros k r c Or Oc. pose proof (vop_adj (KD k 1) Or Oc) as H. cbn in H. rewrite H. unfold sg. cbn [Z.even]. cx. Qed.
Lemma vop_D2 : forall k r c, ok r -> ok c -> vop (KD k (-2)) c r = vop (KD k 2) r c.
Proof. intros k r c Or Oc. pose proof (vop_adj (KD k 2) Or Oc) as H. cbn in H. rewrite H. unfold sg. cbn [Z.even]. cx. Qed.
Lemma vop_D0 : forall k r c, ok r -> ok c -> vop (KD k 0) c r = vop (KD k 0) r c.
Proof. intros k r c Or Oc. pose proof (vop_adj (KD k 0) Or Oc) as H. cbn in H. rewrite H. unfold sg. cbn [Z.even]. cx. Qed.

Definition hermW (f : State -> State -> CR) : Prop := forall r c, ok r -> ok c -> cconj (f c r) = f r c.
Lemma hermW_add : forall f g, hermW f -> hermW g -> hermW (fun r c => cadd (f r c) (g r c)).
Proof. intros f g Hf Hg r c Or Oc. rewrite <- (Hf r c), <- (Hg r c) by auto. cx. Qed.

Lemma wsum_one : forall (b : bool) k (x : CR) r c, wsum (if b then [(k, x)] else []) r c = if b then cmul x (vop k r c) else (0, 0).
Proof. intros. destruct b; cbn [wsum fold_right fst snd]; [cx|reflexivity]. Qed.

(** One term with a real coefficient and a symmetric operator. *)
Lemma herm_single : forall (b : bool) k (x : CR), snd x = 0 -> (forall r c, ok r -> ok c -> vop k c r = vop k r c) ->
  hermW (fun r c => if b then cmul x (vop k r c) else ((0, 0) : CR)).
Proof.
  intros b k [x xi] X H r c Or Oc. cbn in X. subst xi. destruct b; [|cx]. rewrite H by auto.
  pose proof (vop_real k r c). destruct (vop k r c) as [v vi]. cbn in H0. subst. cx.
Qed.
(** A pair of operators of index q, -q, odd and even. *)
Lemma herm_pair : forall (b : bool) kp km (xp xm : CR) (e : R),
  e * e = 1 -> xm = cmul (e, 0) (cconj xp) -> (forall r c, ok r -> ok c -> vop km c r = cmul (e, 0) (vop kp r c)) ->
  hermW (fun r c => cadd (if b then cmul xp (vop kp r c) else ((0, 0) : CR)) (if b then cmul xm (vop km r c) else (0, 0))).
Proof.
  intros b kp km [a ai] xm e E -> H r c Or Oc. destruct b; [|cx].
  rewrite (H r c), (H c r) by auto. pose proof (vop_real kp r c) as X. pose proof (vop_real kp c r) as Y.
  destruct (vop kp r c) as [v vi]. destruct (vop kp c r) as [w wi]. cbn in X, Y. subst.
  apply cx_eq; unfold cadd, cmul, cconj; cbn [fst snd]; ring_simplify.
  - replace (e ^ 2) with 1 by (rewrite <- E; ring). ring.
  - replace (e ^ 2) with 1 by (rewrite <- E; ring). ring.
Qed.

Lemma wsum_herm : forall s, fields_ok s -> hermW (wsum (vkeys s)).
Proof.
  intros s (Fe & Fb & Fd) r c Or Oc. unfold vkeys. rewrite !wsum_app, !wsum_one.
  destruct (dia_conj Fb) as (D1 & D2 & D3 & D4). rewrite <- Fd in *.
  rewrite (big_pm Fe), (big_pm Fb), D1, D2, big_opp, !big_conj.
  set (be := big tol (s_m (esph s))). set (bb := big tol (s_m (bsph s))).
  set (b1 := diamag s && big tol (t21 (dia s))). set (b2 := diamag s && big tol (t22 (dia s))).
  assert (A1 := @herm_single (big tol (s_0 (esph s))) (KE 0) (copp (s_0 (esph s)))). 
  assert (X0 : snd (copp (s_0 (esph s))) = 0) by (destruct Fe as [_ E]; cbn; rewrite E; ring).
  specialize (A1 X0 vop_E0). 
  assert (A2 := @herm_pair be (KE 1) (KE (-1)) (s_m (esph s)) (s_p (esph s)) (-1)).
  assert (X1 : s_p (esph s) = cmul (-1, 0) (cconj (s_m (esph s)))) by (destruct Fe as [E _]; rewrite E; cx).
  specialize (A2 ltac:(ring) X1). 
  assert (A2' := A2 ltac:(intros; rewrite vop_E1 by auto; cx)). clear A2.
  assert (A3 := @herm_single (big tol (s_0 (bsph s))) (KB 0) (copp (s_0 (bsph s)))). 
  assert (X3 : snd (copp (s_0 (bsph s))) = 0) by (destruct Fb as [_ E]; cbn; rewrite E; ring).
  specialize (A3 X3 vop_B0). 
  assert (A4 := @herm_pair bb (KB 1) (KB (-1)) (s_m (bsph s)) (s_p (bsph s)) (-1)).
  assert (X4 : s_p (bsph s) = cmul (-1, 0) (cconj (s_m (bsph s)))) by (destruct Fb as [E _]; rewrite E; cx).
  specialize (A4 ltac:(ring) X4). 
  assert (A4' := A4 ltac:(intros; rewrite vop_B1 by auto; cx)). clear A4.
  assert (A5 := @herm_single (diamag s && big tol (t00 (dia s))) (KD 0 0) (t00 (dia s)) D3 (@vop_D0 0%Z)).
  assert (A6 := @herm_single (diamag s && big tol (t20 (dia s))) (KD 2 0) (copp (t20 (dia s))) ltac:(cbn; rewrite D4; ring) (@vop_D0 2%Z)).
  assert (A7 := @herm_pair b1 (KD 2 1) (KD 2 (-1)) (cmul (t21 (dia s)) (ofR (sqrt 3)))
     (cmul (copp (cconj (t21 (dia s)))) (ofR (sqrt 3))) (-1) ltac:(ring) ltac:(cx) ltac:(intros; rewrite vop_D1 by auto; cx)).
  assert (A8 := @herm_pair b2 (KD 2 2) (KD 2 (-2)) (copp (cmul (t22 (dia s)) (ofR (sqrt (3/2)))))
     (copp (cmul (cconj (t22 (dia s))) (ofR (sqrt (3/2))))) 1 ltac:(ring) ltac:(cx) ltac:(intros; rewrite vop_D2 by auto; cx)).
  assert (A9 : hermW (wsum (if negb (charge s =? 0)%Z then
     match distance s with
     | None => []
     | Some r => map (fun o => (KM o, ofR (IZR (charge s) * (/ r ^ (o + 1))))) (seq 1 (ordermax s))
     end
   else []))).
  { destruct (negb (charge s =? 0)%Z); [|intros ? ? ? ?; cbn; cx]. destruct (distance s) as [d|]; [|intros ? ? ? ?; cbn; cx].
    induction (seq 1 (ordermax s)) as [|o os IH]; [intros ? ? ? ?; cbn; cx|]. intros x y Ox Oy.
    cbn [map wsum fold_right fst snd].
    specialize (IH x y Ox Oy). unfold wsum in IH. rewrite <- IH. pose proof (vop_adj (KM o) Ox Oy) as Q. cbn in Q. rewrite Q.
    pose proof (vop_real (KM o) x y) as Y. destruct (vop (KM o) x y) as [v vi]. cbn in Y. subst. cx. }
  pose proof (A1 r c Or Oc) as B1. pose proof (A2' r c Or Oc) as B2. pose proof (A3 r c Or Oc) as B3.
  pose proof (A4' r c Or Oc) as B4. pose proof (A5 r c Or Oc) as B5. pose proof (A6 r c Or Oc) as B6.
  pose proof (A7 r c Or Oc) as B7. pose proof (A8 r c Or Oc) as B8. pose proof (A9 r c Or Oc) as B9.
  cbv beta in *. apply sum13; assumption.
Qed.

(** ** Assembled Hamiltonian *)
Lemma addInt_Hsum : forall s l H, addInt tol s l H = Hsum H (opOf l) (vkeys s).
Proof.
  intros. unfold addInt, Hsum. rewrite terms_keys. generalize (vkeys s). intro ks. revert H.
  induction ks as [|e ks IH]; intros; cbn; auto.
Qed.

Lemma Hsum_mconj : forall (T : mat CR) n (F : fkey -> mat CR) ks (X Y : mat CR),
  nr X = nc T -> nc X = nc T -> nr Y = n -> nc Y = n -> (forall k, nr (F k) = n /\ nc (F k) = n) ->
  meq (Hsum (madd X (mconj T Y)) (fun k => mconj T (F k)) ks) (madd X (mconj T (Hsum Y F ks))).
Proof.
  intros T n F ks. induction ks as [|e ks IH]; intros X Y a b c d HF; cbn [Hsum fold_left]. { reflexivity. }
  destruct (HF (fst e)) as [e1 e2].
  fold (Hsum (madd (madd X (mconj T Y)) (mscale (snd e) (mconj T (F (fst e))))) (fun k => mconj T (F k)) ks).
  fold (Hsum (madd Y (mscale (snd e) (F (fst e)))) F ks).
  rewrite <- IH; auto.
  - apply Hsum_ext; [|reflexivity]. rewrite madd_assoc.
    rewrite (@mconj_add CR T Y (mscale (snd e) (F (fst e)))); [|cbn [nr mscale]; congruence|cbn [nc mscale]; congruence].
    rewrite mconj_scale. reflexivity.
  - cbn [nr madd mscale]. rewrite c, e1. apply Nat.min_id.
  - cbn [nc madd mscale]. rewrite d, e2. apply Nat.min_id.
Qed.

Definition Wmat (s : one) : mat CR := Hsum (mzero (length tbl) (length tbl)) (fun k => OP k) (vkeys s).

Lemma Hsum_at : forall ks (X : mat CR) i j x y, nth_error tbl i = Some (i, x) -> nth_error tbl j = Some (j, y) ->
  at_ (Hsum X (fun k => OP k) ks) i j = cadd (at_ X i j) (wsum ks x y).
Proof.
  induction ks as [|e ks IH]; intros X i j x y Hi Hj; cbn [Hsum fold_left wsum fold_right]. { cx. }
  fold (wsum ks x y). fold (Hsum (madd X (mscale (snd e) (OP (fst e)))) (fun k => OP k) ks).
  rewrite (IH _ i j x y Hi Hj). cbn [madd mscale at_]. rewrite (op_at (fst e) Hi Hj).
  cbn [sadd smul CR]. symmetry. apply (Radd_assoc cx_ring).
Qed.

Lemma Wmat_at : forall s i j x y, nth_error tbl i = Some (i, x) -> nth_error tbl j = Some (j, y) ->
  at_ (Wmat s) i j = wsum (vkeys s) x y.
Proof. intros. unfold Wmat. rewrite (Hsum_at _ _ H H0). cbn. cx. Qed.

Lemma Wmat_dims : forall s, nr (Wmat s) = length tbl /\ nc (Wmat s) = length tbl.
Proof. intro s. apply Hsum_dims; auto. Qed.

Lemma Wmat_herm : forall s, fields_ok s -> hermitian (Wmat s).
Proof.
  intros s F. destruct (Wmat_dims s) as [R C]. unfold hermitian.
  apply mt_eq; auto. intros i j x y Hi Hj Ox Oy. cbn [madj at_]. rewrite (Wmat_at s Hj Hi), (Wmat_at s Hi Hj).
  apply wsum_herm; auto.
Qed.

Theorem addInt_formula : forall s l H, rel l -> closed l -> fields_ok s -> nr H = nc B -> nc H = nc B ->
  meq (addInt tol s (INIT s tbl B l) H) (madd H (mconj B (Wmat s))).
Proof.
  intros s l H Rl Cl F a b. rewrite addInt_Hsum.
  rewrite (@Hsum_ext CR fkey (opOf (INIT s tbl B l)) (fun k => mconj B (OP k)) (vkeys s) H (madd H (mconj B (mzero (length tbl) (length tbl))))).
  - apply (@Hsum_mconj B (length tbl)); auto.
  - split; [cbn; rewrite a; symmetry; apply Nat.min_id|]. split; [cbn; rewrite b; symmetry; apply Nat.min_id|].
    intros i j Hi Hj. cbn [madd at_].
    assert (X : forall T n m i j, at_ (mconj T (@mzero CR n m)) i j = s0).
    { intros. cbn [mconj mmul madj mzero at_ nc nr]. apply bsum_zero. intros. rewrite bsum_zero; [apply cx_eq; cbn; ring|]. intros. apply cx_eq; cbn; ring. }
    rewrite X. apply cx_eq; cbn; ring.
  - intros e He. apply opOf_right. { apply init_rel; auto. } apply init_present; auto.
Qed.
End Ops.
