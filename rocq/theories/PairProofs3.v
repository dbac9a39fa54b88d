(** Exchange-symmetrised vectors: orthonormality, completeness; coefficients of the columns. *)
From Verif Require Import Base StateModel StateProofs Matrix LookupModel LookupProofs SystemModel RangeModel BasisProofs
  SystemProofs OverlapProofs OverlapProofs2 PairModel PairSpec PairProofs PairProofs2.
From Coq Require Import ZArith Lia Bool String Arith List.
Import ListNotations.
Set Implicit Arguments.
Local Open Scope nat_scope.
Local Open Scope list_scope.

Section Math.
Context {K : StarRing}.
Add Ring Kr8 : (s_ring K).
Local Open Scope star_scope.

Lemma lsum_prod : forall A B (f : A -> K) (g : B -> K) xs ys, lsum (fun p => f (fst p) * g (snd p)) (list_prod xs ys) = lsum f xs * lsum g ys.
Proof.
  intros A B f g xs ys. induction xs as [|x xs IH]; [cbn; ring|]. cbn [list_prod]. rewrite lsum_app, IH, lsum_map, lsum_cons.
  cbn [fst snd]. rewrite <- lsum_mul_l. ring.
Qed.
Lemma lsum_conj : forall A (f : A -> K) xs, sconj (lsum f xs) = lsum (fun x => sconj (f x)) xs.
Proof. induction xs; cbn; [apply sconj_0|]. rewrite s_conj_add. f_equal. exact IHxs. Qed.

Variable rt : K.
Hypothesis rt_conj : sconj rt = rt.
Hypothesis rt_half : rt * rt + rt * rt = 1.
Variable u : nat -> state1 -> K.
Variable ss : list state1.
Variable n : nat.
Hypothesis orth : forall i k, (i < n)%nat -> (k < n)%nat -> lsum (fun a => sconj (u i a) * u k a) ss = if Nat.eqb i k then 1 else 0.

Definition gram (i k : nat) : K := lsum (fun a => sconj (u i a) * u k a) ss.

Lemma gram_prod : forall i j k q, lsum (fun p => (sconj (u i (fst p)) * u k (fst p)) * (sconj (u j (snd p)) * u q (snd p))) (list_prod ss ss) = gram i k * gram j q.
Proof. intros. apply (lsum_prod (fun a => sconj (u i a) * u k a) (fun b => sconj (u j b) * u q b)). Qed.

Lemma lsum_add4 : forall A (f g h k : A -> K) xs, lsum (fun x => f x + g x + h x + k x) xs = lsum f xs + lsum g xs + lsum h xs + lsum k xs.
Proof. intros. rewrite !lsum_add. reflexivity. Qed.

Lemma inner_off_off : forall s s' i j k q, sconj s = s ->
  lsum (fun p => sconj (rt * (u i (fst p) * u j (snd p) + s * (u i (snd p) * u j (fst p)))) *
                 (rt * (u k (fst p) * u q (snd p) + s' * (u k (snd p) * u q (fst p))))) (list_prod ss ss)
  = rt * rt * (gram i k * gram j q + s' * (gram i q * gram j k) + s * (gram j k * gram i q) + s * s' * (gram j q * gram i k)).
Proof.
  intros s s' i j k q Hs. rewrite <- !gram_prod.
  rewrite (@lsum_mul_l K _ _ s'), (@lsum_mul_l K _ _ s), (@lsum_mul_l K _ _ (s * s')). rewrite <- !lsum_add, lsum_mul_l.
  apply lsum_ext. intros [a b] _. cbn [fst snd]. rewrite !s_conj_mul, s_conj_add, !s_conj_mul, rt_conj, Hs. ring.
Qed.
Lemma inner_off_diag : forall s i j k, sconj s = s ->
  lsum (fun p => sconj (rt * (u i (fst p) * u j (snd p) + s * (u i (snd p) * u j (fst p)))) * (u k (fst p) * u k (snd p))) (list_prod ss ss)
  = rt * (gram i k * gram j k + s * (gram j k * gram i k)).
Proof.
  intros s i j k Hs. rewrite <- !gram_prod. rewrite (@lsum_mul_l K _ _ s), <- !lsum_add, lsum_mul_l.
  apply lsum_ext. intros [a b] _. cbn [fst snd]. rewrite !s_conj_mul, s_conj_add, !s_conj_mul, rt_conj, Hs. ring.
Qed.
Lemma inner_diag_off : forall s i j k,
  lsum (fun p => sconj (u k (fst p) * u k (snd p)) * (rt * (u i (fst p) * u j (snd p) + s * (u i (snd p) * u j (fst p))))) (list_prod ss ss)
  = rt * (gram k i * gram k j + s * (gram k j * gram k i)).
Proof.
  intros s i j k. rewrite <- !gram_prod. rewrite (@lsum_mul_l K _ _ s), <- !lsum_add, lsum_mul_l.
  apply lsum_ext. intros [a b] _. cbn [fst snd]. rewrite !s_conj_mul. ring.
Qed.
Lemma inner_diag_diag : forall i k, lsum (fun p => sconj (u i (fst p) * u i (snd p)) * (u k (fst p) * u k (snd p))) (list_prod ss ss) = gram i k * gram i k.
Proof. intros. rewrite <- gram_prod. apply lsum_ext. intros [a b] _. cbn [fst snd]. rewrite !s_conj_mul. ring. Qed.

(** Orthonormality of the vectors of the triangle j <= i, the sign depending on the pair. *)
Lemma exchanged_orthonormal : forall (s : nat -> nat -> K), (forall i j, sconj (s i j) = s i j /\ s i j * s i j = 1) ->
  forall i j k q, (i < n)%nat -> (k < n)%nat -> (j <= i)%nat -> (q <= k)%nat ->
  inner2 ss (exchanged rt u (s i j) i j) (exchanged rt u (s k q) k q) = if Nat.eqb i k && Nat.eqb j q then 1 else 0.
Proof.
  intros s Hs i j k q Li Lk Lj Lq. unfold inner2, exchanged.
  assert (G : forall x y, (x < n)%nat -> (y < n)%nat -> gram x y = if Nat.eqb x y then 1 else 0) by (intros; apply orth; auto).
  destruct (Nat.eqb_spec i j) as [<-|Nij]; destruct (Nat.eqb_spec k q) as [<-|Nkq].
  - rewrite inner_diag_diag, G by auto. destruct (Nat.eqb i k); cbn; ring.
  - rewrite inner_diag_off, !G by lia. destruct (Nat.eqb_spec i k); destruct (Nat.eqb_spec i q); cbn; try lia; ring.
  - rewrite inner_off_diag by apply Hs. rewrite !G by lia. destruct (Nat.eqb_spec i k); destruct (Nat.eqb_spec j k); cbn; try lia; ring.
  - rewrite inner_off_off by apply Hs. rewrite !G by lia.
    destruct (Nat.eqb_spec i k); destruct (Nat.eqb_spec j q); destruct (Nat.eqb_spec i q); destruct (Nat.eqb_spec j k); cbn; try lia; try ring.
    subst. transitivity (rt * rt + rt * rt * (s k q * s k q)); [ring|]. rewrite (proj2 (Hs k q)). transitivity (rt * rt + rt * rt); [ring|auto].
Qed.

(** The vectors of the two sectors are orthogonal, and every product is a combination of them. *)
Lemma exchanged_sectors : forall (s : nat -> nat -> K), (forall i j, sconj (s i j) = s i j /\ s i j * s i j = 1) ->
  forall i j k q, (i < n)%nat -> (k < n)%nat -> (j < i)%nat -> (q <= k)%nat ->
  inner2 ss (exchanged rt u (- s i j) i j) (exchanged rt u (s k q) k q) = 0.
Proof.
  intros s Hs i j k q Li Lk Lj Lq. unfold inner2, exchanged.
  assert (G : forall x y, (x < n)%nat -> (y < n)%nat -> gram x y = if Nat.eqb x y then 1 else 0) by (intros; apply orth; auto).
  destruct (Nat.eqb_spec i j) as [<-|Nij]; [lia|]. assert (C : sconj (- s i j) = - s i j) by (rewrite sconj_opp; f_equal; apply Hs).
  destruct (Nat.eqb_spec k q) as [<-|Nkq].
  - rewrite inner_off_diag by auto. rewrite !G by lia. destruct (Nat.eqb_spec i k); destruct (Nat.eqb_spec j k); cbn; try lia; ring.
  - rewrite inner_off_off by auto. rewrite !G by lia.
    destruct (Nat.eqb_spec i k); destruct (Nat.eqb_spec j q); destruct (Nat.eqb_spec i q); destruct (Nat.eqb_spec j k); cbn; try lia; try ring.
    subst. transitivity (rt * rt - rt * rt * (s k q * s k q)); [ring|]. rewrite (proj2 (Hs k q)). ring.
Qed.

Lemma exchanged_complete : forall s i j a b, s * s = 1 -> i <> j ->
  u i a * u j b = rt * (exchanged rt u s i j a b + exchanged rt u (- s) i j a b) /\
  u j a * u i b = s * rt * (exchanged rt u s i j a b - exchanged rt u (- s) i j a b).
Proof.
  intros s i j a b Hs N. unfold exchanged. destruct (Nat.eqb_spec i j); [contradiction|]. split.
  - transitivity ((rt * rt + rt * rt) * (u i a * u j b)); [rewrite rt_half; ring|ring].
  - transitivity ((rt * rt + rt * rt) * (s * s) * (u j a * u i b)); [rewrite rt_half, Hs; ring|ring].
Qed.

Lemma exchanged_swap : forall s i j a b, s * s = 1 -> i <> j ->
  exchanged rt u s i j b a = s * exchanged rt u s i j a b.
Proof.
  intros s i j a b Hs N. unfold exchanged. destruct (Nat.eqb_spec i j); [contradiction|].
  transitivity (rt * (u i b * u j a * (s * s) + s * (u i a * u j b))); [rewrite Hs|]; ring.
Qed.
End Math.

Section Columns.
Context {K : StarRing}.
Add Ring Kr9 : (s_ring K).
Local Open Scope star_scope.
Variable hs : string -> N.
Variable hi : Z -> N.
Variable hf : Z -> N.
Variable rt : K.
Variables sys1 sys2 : @onesys K.
Variables sinv sperm : parity.
Variable srot : option (list Z).
Notation entriesK := (entries hs hi hf rt sinv NA sperm srot).
Notation col_entriesK := (col_entries hs hi hf rt sys1 sys2 sinv NA sperm srot).

(** Conditions and signs, without reflection. *)
Definition rot_ok (art : bool) (a b : state1) : bool :=
  match (if art then None else srot) with None => true | Some ms => existsb (Z.eqb (Z.quot (m2 a + m2 b) 2)) ms end.
Definition linv (art : bool) : parity := if art then NA else sinv.
Definition sgnX (art : bool) (a b : state1) : Z :=
  if isS (linv art) then sgn_inv (linv art) (pm (l a + l b)) else sgn_perm sperm.
Definition exch (art : bool) (i j : nat) : bool := negb (Nat.eqb i j) && (isS (linv art) || isS sperm).
Definition agree (art : bool) (i j : nat) (a b : state1) : bool :=
  negb (negb (Nat.eqb i j) && isS (linv art) && isS sperm && negb (Z.eqb (sgn_inv (linv art) (pm (l a + l b))) (sgn_perm sperm))).

Lemma entries_noref : forall i j art a b x, (art = true \/ Z.odd (j2 a + j2 b) = false) ->
  entriesK i j art a b x =
  Ok (if rot_ok art a b && agree art i j a b
      then (mkTwo_pair a b, if exch art i j then x * rt else x) ::
           (if exch art i j then [(mkTwo_pair b a, kz (sgnX art a b) (x * rt))] else [])
      else []).
Proof.
  intros i j art a b x H. unfold entries.
  assert (N : negb art && Z.odd (j2 a + j2 b) = false) by (destruct H as [->| ->]; [reflexivity|apply andb_false_r]). rewrite N.
  assert (RN : (if art then NA else NA) = NA) by (destruct art; auto). rewrite RN. cbn [isS].
  unfold rot_ok, agree. fold (linv art).
  destruct (if art then None else srot) as [ms|]; [destruct (existsb _ ms)|]; cbn [negb andb]; auto.
  all: destruct (negb (Nat.eqb i j) && isS (linv art) && isS sperm && negb (Z.eqb (sgn_inv (linv art) (pm (l a + l b))) (sgn_perm sperm))); cbn [negb bind]; auto.
  all: rewrite !andb_false_r; cbn [negb andb]; unfold exch, sgnX; destruct (negb (Nat.eqb i j) && (isS (linv art) || isS sperm)); cbn [app]; reflexivity.
Qed.

Definition one_amp (s : @onesys K) (a : state1) (e : nat * K) : K :=
  match nth_error (o_states s) (fst e) with Some st => if eq1 st a then snd e else 0 | None => 0 end.
Definition one_wt (s : @onesys K) (a : state1) (e : nat * K) : K :=
  match nth_error (o_states s) (fst e) with Some st => if eq1 st a then sqv (snd e) else 0 | None => 0 end.

Lemma eq1_same : forall a b, eq1 a b = true -> l a = l b /\ m2 a = m2 b /\ j2 a = j2 b /\ n a = n b.
Proof. intros a b H. apply eq1_iff in H. unfold same1 in H. intuition congruence. Qed.

Lemma sgnX_sym : forall art a b, sgnX art a b = sgnX art b a.
Proof. intros. unfold sgnX. rewrite (Z.add_comm (l a)). reflexivity. Qed.
Lemma rot_sym : forall art a b, rot_ok art a b = rot_ok art b a.
Proof. intros. unfold rot_ok. rewrite (Z.add_comm (m2 a)). reflexivity. Qed.
Lemma agree_sym : forall art i j a b, agree art i j a b = agree art i j b a.
Proof. intros. unfold agree. rewrite (Z.add_comm (l a)). reflexivity. Qed.
Lemma sgnX_eq : forall art a b a' b', eq1 a a' = true -> eq1 b b' = true -> sgnX art a b = sgnX art a' b'.
Proof. intros art a b a' b' H H'. apply eq1_same in H, H'. unfold sgnX. replace (l a) with (l a') by (symmetry; apply H). replace (l b) with (l b') by (symmetry; apply H'). auto. Qed.
Lemma rot_eq : forall art a b a' b', eq1 a a' = true -> eq1 b b' = true -> rot_ok art a b = rot_ok art a' b'.
Proof. intros art a b a' b' H H'. apply eq1_same in H, H'. unfold rot_ok. replace (m2 a) with (m2 a') by (symmetry; apply H). replace (m2 b) with (m2 b') by (symmetry; apply H'). auto. Qed.
Lemma agree_eq : forall art i j a b a' b', eq1 a a' = true -> eq1 b b' = true -> agree art i j a b = agree art i j a' b'.
Proof. intros art i j a b a' b' H H'. apply eq1_same in H, H'. unfold agree. replace (l a) with (l a') by (symmetry; apply H). replace (l b) with (l b') by (symmetry; apply H'). auto. Qed.

Lemma kz_mul : forall z (v : K), kz z v = kof z * v.
Proof. intros. unfold kz, kof. destruct (Z.ltb z 0); ring. Qed.
Lemma sqv_kz : forall z (v : K), sqv (kz z v) = sqv v.
Proof. intros. unfold sqv, kz. destruct (Z.ltb z 0); auto. rewrite sconj_opp. ring. Qed.

(** Every pair of entries is fine: rows inside, no half-integer total j. *)
Definition cols_ok (art : bool) (c1 c2 : list (nat * K)) : Prop :=
  forall e1 e2, In e1 c1 -> In e2 c2 -> exists a b, nth_error (o_states sys1) (fst e1) = Some a /\ nth_error (o_states sys2) (fst e2) = Some b /\
    (art = true \/ Z.odd (j2 a + j2 b) = false).

Definition ent (i j : nat) (art : bool) (e : (nat * K) * (nat * K)) : list (state2 * K) :=
  match nth_error (o_states sys1) (fst (fst e)), nth_error (o_states sys2) (fst (snd e)) with
  | Some a, Some b =>
      let x := snd (fst e) * snd (snd e) in
      if rot_ok art a b && agree art i j a b
      then (mkTwo_pair a b, if exch art i j then x * rt else x) ::
           (if exch art i j then [(mkTwo_pair b a, kz (sgnX art a b) (x * rt))] else [])
      else []
  | _, _ => []
  end.

Lemma col_entries_ok : forall i j art c1 c2, cols_ok art c1 c2 ->
  col_entriesK i j art c1 c2 = Ok (flat_map (ent i j art) (list_prod c1 c2)).
Proof.
  intros i j art c1 c2 H. unfold col_entries.
  assert (G : forall e, In e (list_prod c1 c2) -> exists a b, nth_error (o_states sys1) (fst (fst e)) = Some a /\ nth_error (o_states sys2) (fst (snd e)) = Some b /\ (art = true \/ Z.odd (j2 a + j2 b) = false)).
  { intros [e1 e2] He. apply in_prod_iff in He. apply H; apply He. }
  induction (list_prod c1 c2) as [|[[r1 v1] [r2 v2]] xs IH]; auto.
  cbn [fold_right flat_map]. destruct (G _ (or_introl eq_refl)) as (a & b & Ha & Hb & Hj). cbn [fst snd] in Ha, Hb.
  unfold ent at 1. cbn [fst snd]. rewrite Ha, Hb, (entries_noref i j a b _ Hj). cbn [bind].
  rewrite IH; [reflexivity|]. intros e He. apply G. right. auto.
Qed.

Lemma coef_app : forall (a b : list (state2 * K)) x, coef (a ++ b) x = coef a x + coef b x.
Proof. intros. apply lsum_app. Qed.
Lemma coef_flat_map : forall A (f : A -> list (state2 * K)) xs x, coef (flat_map f xs) x = lsum (fun e => coef (f e) x) xs.
Proof. intros A f xs x. induction xs; [reflexivity|]. cbn [flat_map]. rewrite coef_app, IHxs. reflexivity. Qed.
Lemma weight_flat_map : forall A (f : A -> list (state2 * K)) xs x, weight (flat_map f xs) x = lsum (fun e => weight (f e) x) xs.
Proof. intros A f xs x. induction xs; [reflexivity|]. cbn [flat_map]. rewrite weight_app, IHxs. reflexivity. Qed.
Lemma coef_cons : forall (e : state2 * K) es x, coef (e :: es) x = (if eq2 (fst e) x then snd e else 0) + coef es x.
Proof. reflexivity. Qed.
Lemma weight_cons : forall (e : state2 * K) es x, weight (e :: es) x = (if eq2 (fst e) x then sqv (snd e) else 0) + weight es x.
Proof. reflexivity. Qed.
Lemma eq2_parts : forall a b x, eq2 (mkTwo_pair a b) x = eq1 a (fst1 x) && eq1 b (snd1 x).
Proof. reflexivity. Qed.

(** The coefficient that one pair of entries contributes. *)
Lemma coef_ent : forall i j art e x,
  let a := fst1 x in let b := snd1 x in
  coef (ent i j art e) x =
  if rot_ok art a b && agree art i j a b then
    if exch art i j
    then rt * (one_amp sys1 a (fst e) * one_amp sys2 b (snd e)) + kof (sgnX art a b) * rt * (one_amp sys1 b (fst e) * one_amp sys2 a (snd e))
    else one_amp sys1 a (fst e) * one_amp sys2 b (snd e)
  else 0.
Proof.
  intros i j art [[r1 v1] [r2 v2]] x a b. unfold ent, one_amp. cbn [fst snd].
  destruct (nth_error (o_states sys1) r1) as [s|]; [|change (coef (@nil (state2 * K)) x) with (0 : K); destruct (rot_ok art a b && agree art i j a b), (exch art i j); ring].
  destruct (nth_error (o_states sys2) r2) as [t|]; [|change (coef (@nil (state2 * K)) x) with (0 : K); destruct (rot_ok art a b && agree art i j a b), (exch art i j); ring].
  destruct (eq1 s a && eq1 t b) eqn:E1; [|destruct (eq1 s b && eq1 t a) eqn:E2].
  - apply andb_true_iff in E1. destruct E1 as [Es Et]. rewrite (@rot_eq art _ _ _ _ Es Et), (@agree_eq art i j _ _ _ _ Es Et), (@sgnX_eq art _ _ _ _ Es Et).
    destruct (rot_ok art a b && agree art i j a b); [|reflexivity].
    destruct (exch art i j); rewrite ?coef_cons; change (coef (@nil (state2 * K)) x) with (0 : K); cbn [fst snd]; rewrite !eq2_parts; fold a b; rewrite Es, Et; cbn [andb].
    + rewrite kz_mul. destruct (eq1 t a), (eq1 s b); cbn [andb]; ring.
    + ring.
  - apply andb_true_iff in E2. destruct E2 as [Es Et]. rewrite (rot_sym art a b), (agree_sym art i j a b), (sgnX_sym art a b).
    rewrite (@rot_eq art _ _ _ _ Es Et), (@agree_eq art i j _ _ _ _ Es Et), (@sgnX_eq art _ _ _ _ Es Et).
    destruct (rot_ok art b a && agree art i j b a); [|reflexivity].
    destruct (exch art i j); rewrite ?coef_cons; change (coef (@nil (state2 * K)) x) with (0 : K); cbn [fst snd]; rewrite !eq2_parts; fold a b; rewrite E1, ?Es, ?Et; cbn [andb].
    + rewrite kz_mul. destruct (eq1 s a), (eq1 t b); cbn [andb] in *; try discriminate; ring.
    + destruct (eq1 s a), (eq1 t b); cbn [andb] in *; try discriminate; ring.
  - assert (Z : coef (if rot_ok art s t && agree art i j s t
      then (mkTwo_pair s t, if exch art i j then v1 * v2 * rt else v1 * v2) :: (if exch art i j then [(mkTwo_pair t s, kz (sgnX art s t) (v1 * v2 * rt))] else [])
      else []) x = 0).
    { destruct (rot_ok art s t && agree art i j s t); [|reflexivity].
      destruct (exch art i j); rewrite ?coef_cons; change (coef (@nil (state2 * K)) x) with (0 : K); cbn [fst snd]; rewrite !eq2_parts; fold a b; rewrite E1, ?(andb_comm (eq1 t a)), ?E2; ring. }
    cbv zeta. rewrite Z. destruct (rot_ok art a b && agree art i j a b); auto.
    destruct (eq1 s a), (eq1 t b), (eq1 s b), (eq1 t a); cbn [andb] in *; try discriminate; destruct (exch art i j); ring.
Qed.

(** Coefficients of a whole column. *)
Lemma coef_col : forall i j art c1 c2 x,
  let a := fst1 x in let b := snd1 x in
  let A1 := fun a => lsum (one_amp sys1 a) c1 in let A2 := fun a => lsum (one_amp sys2 a) c2 in
  coef (flat_map (ent i j art) (list_prod c1 c2)) x =
  if rot_ok art a b && agree art i j a b then
    if exch art i j then rt * (A1 a * A2 b + kof (sgnX art a b) * (A1 b * A2 a)) else A1 a * A2 b
  else 0.
Proof.
  intros i j art c1 c2 x a b A1 A2. rewrite coef_flat_map.
  rewrite (lsum_ext _ _ _ (fun e _ => coef_ent i j art e x)). cbv zeta. fold a b.
  destruct (rot_ok art a b && agree art i j a b); [|apply lsum_zero; auto]. destruct (exch art i j).
  - rewrite lsum_add, <- lsum_mul_l, <- lsum_mul_l, (@lsum_prod K _ _ (one_amp sys1 a) (one_amp sys2 b)), (@lsum_prod K _ _ (one_amp sys1 b) (one_amp sys2 a)).
    unfold A1, A2. ring.
  - apply (@lsum_prod K _ _ (one_amp sys1 a) (one_amp sys2 b)).
Qed.

Lemma weight_ent : forall i j art e x,
  let a := fst1 x in let b := snd1 x in
  weight (ent i j art e) x =
  if rot_ok art a b && agree art i j a b then
    if exch art i j
    then sqv rt * (one_wt sys1 a (fst e) * one_wt sys2 b (snd e)) + sqv rt * (one_wt sys1 b (fst e) * one_wt sys2 a (snd e))
    else one_wt sys1 a (fst e) * one_wt sys2 b (snd e)
  else 0.
Proof.
  intros i j art [[r1 v1] [r2 v2]] x a b. unfold ent, one_wt. cbn [fst snd].
  assert (S1 : sqv (v1 * v2) = sqv v1 * sqv v2) by (unfold sqv; rewrite s_conj_mul; ring).
  assert (S2 : sqv (v1 * v2 * rt) = sqv rt * (sqv v1 * sqv v2)) by (unfold sqv; rewrite !s_conj_mul; ring).
  destruct (nth_error (o_states sys1) r1) as [s|]; [|change (weight (@nil (state2 * K)) x) with (0 : K); destruct (rot_ok art a b && agree art i j a b), (exch art i j); ring].
  destruct (nth_error (o_states sys2) r2) as [t|]; [|change (weight (@nil (state2 * K)) x) with (0 : K); destruct (rot_ok art a b && agree art i j a b), (exch art i j); ring].
  destruct (eq1 s a && eq1 t b) eqn:E1; [|destruct (eq1 s b && eq1 t a) eqn:E2].
  - apply andb_true_iff in E1. destruct E1 as [Es Et]. rewrite (@rot_eq art _ _ _ _ Es Et), (@agree_eq art i j _ _ _ _ Es Et).
    destruct (rot_ok art a b && agree art i j a b); [|reflexivity].
    destruct (exch art i j); rewrite ?weight_cons; change (weight (@nil (state2 * K)) x) with (0 : K); cbn [fst snd]; rewrite !eq2_parts; fold a b; rewrite Es, Et; cbn [andb].
    + rewrite sqv_kz, S2. destruct (eq1 t a), (eq1 s b); cbn [andb]; ring.
    + rewrite S1. ring.
  - apply andb_true_iff in E2. destruct E2 as [Es Et]. rewrite (rot_sym art a b), (agree_sym art i j a b).
    rewrite (@rot_eq art _ _ _ _ Es Et), (@agree_eq art i j _ _ _ _ Es Et).
    destruct (rot_ok art b a && agree art i j b a); [|reflexivity].
    destruct (exch art i j); rewrite ?weight_cons; change (weight (@nil (state2 * K)) x) with (0 : K); cbn [fst snd]; rewrite !eq2_parts; fold a b; rewrite E1, ?Es, ?Et; cbn [andb].
    + rewrite sqv_kz, S2. destruct (eq1 s a), (eq1 t b); cbn [andb] in *; try discriminate; ring.
    + destruct (eq1 s a), (eq1 t b); cbn [andb] in *; try discriminate; ring.
  - assert (Z : weight (if rot_ok art s t && agree art i j s t
      then (mkTwo_pair s t, if exch art i j then v1 * v2 * rt else v1 * v2) :: (if exch art i j then [(mkTwo_pair t s, kz (sgnX art s t) (v1 * v2 * rt))] else [])
      else []) x = 0).
    { destruct (rot_ok art s t && agree art i j s t); [|reflexivity].
      destruct (exch art i j); rewrite ?weight_cons; change (weight (@nil (state2 * K)) x) with (0 : K); cbn [fst snd]; rewrite !eq2_parts; fold a b; rewrite E1, ?(andb_comm (eq1 t a)), ?E2; ring. }
    cbv zeta. rewrite Z. destruct (rot_ok art a b && agree art i j a b); auto.
    destruct (eq1 s a), (eq1 t b), (eq1 s b), (eq1 t a); cbn [andb] in *; try discriminate; destruct (exch art i j); ring.
Qed.

Lemma weight_col : forall i j art c1 c2 x,
  let a := fst1 x in let b := snd1 x in
  let A1 := fun a => lsum (one_wt sys1 a) c1 in let A2 := fun a => lsum (one_wt sys2 a) c2 in
  weight (flat_map (ent i j art) (list_prod c1 c2)) x =
  if rot_ok art a b && agree art i j a b then
    if exch art i j then sqv rt * (A1 a * A2 b + A1 b * A2 a) else A1 a * A2 b
  else 0.
Proof.
  intros i j art c1 c2 x a b A1 A2. rewrite weight_flat_map.
  rewrite (lsum_ext _ _ _ (fun e _ => weight_ent i j art e x)). cbv zeta. fold a b.
  destruct (rot_ok art a b && agree art i j a b); [|apply lsum_zero; auto]. destruct (exch art i j).
  - rewrite lsum_add, <- lsum_mul_l, <- lsum_mul_l, (@lsum_prod K _ _ (one_wt sys1 a) (one_wt sys2 b)), (@lsum_prod K _ _ (one_wt sys1 b) (one_wt sys2 a)).
    unfold A1, A2. ring.
  - apply (@lsum_prod K _ _ (one_wt sys1 a) (one_wt sys2 b)).
Qed.

(** One coefficient per state: the weight is the squared modulus of the amplitude. *)
Lemma one_wt_amp : forall s c a, distinct (o_states s) -> NoDup (map fst c) -> lsum (one_wt s a) c = sqv (lsum (one_amp s a) c).
Proof.
  intros s c a D. assert (Z : forall c, (forall e st, In e c -> nth_error (o_states s) (fst e) = Some st -> eq1 st a = false) ->
    lsum (one_wt s a) c = 0 /\ lsum (one_amp s a) c = 0).
  { intros c' H. split; apply lsum_zero; intros e He; unfold one_wt, one_amp; destruct (nth_error (o_states s) (fst e)) as [st|] eqn:E; auto; rewrite (H e st He E); auto. }
  induction c as [|e c IH]; intros ND.
  - cbn. unfold sqv. rewrite sconj_0. ring.
  - inversion ND; subst. rewrite !lsum_cons. destruct (nth_error (o_states s) (fst e)) as [st|] eqn:E; [destruct (eq1 st a) eqn:Ea|].
    + destruct (Z c) as [Z1 Z2].
      { intros e' st' He' E'. destruct (eq1 st' a) eqn:Ea'; auto. exfalso. apply H1.
        assert (fst e' = fst e).
        { clear - D E E' Ea Ea'. assert (X : eq1 st' st = true) by (eapply eq1_trans; [eauto|rewrite eq1_sym; auto]).
          revert E E'. generalize (fst e) (fst e'). intros p q. revert p q. induction D as [|y ys F D IH]; intros p q Hp Hq; [destruct p; discriminate|].
          rewrite Forall_forall in F. destruct p, q; cbn in *; auto.
          - injection Hp as ->. apply nth_error_In in Hq. apply F in Hq. rewrite eq1_sym in X. congruence.
          - injection Hq as ->. apply nth_error_In in Hp. apply F in Hp. congruence. }
        rewrite <- H. apply in_map. auto. }
      rewrite Z1, Z2. unfold one_wt, one_amp. rewrite E, Ea. unfold sqv. replace (snd e + 0) with (snd e) by ring. ring.
    + rewrite IH by auto. unfold one_wt at 1, one_amp at 2. rewrite E, Ea. unfold sqv. replace (0 + lsum (one_amp s a) c) with (lsum (one_amp s a) c) by ring. ring.
    + rewrite IH by auto. unfold one_wt at 1, one_amp at 2. rewrite E. unfold sqv. replace (0 + lsum (one_amp s a) c) with (lsum (one_amp s a) c) by ring. ring.
Qed.
End Columns.
