(** [combine] without reflection: the columns of the result in closed form. *)
From Coq Require Import ZArith Lia Bool List.
Import ListNotations.
From Verif Require Import Base Matrix BasisnamesModel CombineModel CombineSpec OverlapProofs PropNames CombineProofs.
Set Implicit Arguments.

Lemma sg_add : forall x y, sg (x + y) = (sg x * sg y)%Z.
Proof. intros. unfold sg. rewrite Z.even_add. destruct (Z.even x), (Z.even y); reflexivity. Qed.
Lemma sg_cases : forall x, sg x = 1%Z \/ sg x = (-1)%Z. Proof. intros. unfold sg. destruct (Z.even x); auto. Qed.

Lemma all_pairs_prod : forall n1 n2, all_pairs n1 n2 = list_prod (seq 0 n1) (seq 0 n2).
Proof. intros. unfold all_pairs. induction (seq 0 n1) as [|x l IH]; [reflexivity|]. cbn [flat_map list_prod]. rewrite IH. reflexivity. Qed.
Lemma in_all_pairs : forall n1 n2 c1 c2, In (c1, c2) (all_pairs n1 n2) <-> (c1 < n1 /\ c2 < n2)%nat.
Proof. intros. rewrite all_pairs_prod, in_prod_iff, !in_seq. lia. Qed.

Section Proofs.
Variable K : StarRing.
Add Ring KRing : (s_ring K).
Local Open Scope star_scope.
Variable rt : K.
Variable keep : K -> bool.

(** what the loop over the pairs does if every column is computed without undefined behaviour *)
Lemma combine_loop_ok : forall (lhs rhs : hmat K) names sym map (COL : nat -> nat -> list (nat * K)) ps,
  (forall c1 c2, In (c1, c2) ps -> c1 < dim lhs /\ c2 < dim rhs)%nat ->
  length (ediag lhs) = dim lhs -> length (ediag rhs) = dim rhs ->
  (forall c1 c2, In (c1, c2) ps -> column rt sym names map (coords rhs) (coords lhs * coords rhs) (negb (Nat.eqb c1 c2))
     (nth c1 (bcols lhs) []) (nth c2 (bcols rhs) []) = Ok (COL c1 c2)) ->
  combine_loop rt keep lhs rhs names sym map ps =
  Ok (flat_map (fun c => if skipped sym (fst c) (snd c) then [] else if keep (energy lhs (fst c) + energy rhs (snd c)) then
      match COL (fst c) (snd c) with [] => [] | x => [(x, energy lhs (fst c) + energy rhs (snd c))] end else []) ps).
Proof.
  intros lhs rhs names sym map COL ps B L1 L2 H. induction ps as [|[c1 c2] ps IH]; [reflexivity|]. cbn [combine_loop flat_map fst snd].
  specialize (IH ltac:(intros; apply B; cbn; auto) ltac:(intros; apply H; cbn; auto)). destruct (B c1 c2) as [B1 B2]; [cbn; auto|]. unfold dim in *.
  rewrite IH. destruct (skipped sym c1 c2); [reflexivity|]. unfold at_vec.
  rewrite (nth_error_nth' (ediag lhs) s0) by lia. rewrite (nth_error_nth' (ediag rhs) s0) by lia. cbn [bind].
  fold (energy lhs c1) (energy rhs c2). destruct (keep _); [|reflexivity].
  rewrite (nth_error_nth' (bcols lhs) []) by lia. rewrite (nth_error_nth' (bcols rhs) []) by lia. cbn [bind].
  rewrite H by (cbn; auto). cbn [bind]. destruct (COL c1 c2); reflexivity.
Qed.

Lemma flat_select : forall A B (p : A -> bool) (f : A -> B) l, flat_map (fun c => if p c then [f c] else []) l = map f (filter p l).
Proof. intros A B p f l. induction l as [|x l IH]; [reflexivity|]. cbn [flat_map filter]. destruct (p x); cbn [map]; rewrite <- IH; reflexivity. Qed.

(** the pairs in the result and their columns *)
Lemma combine_ok : forall (lhs rhs : hmat K) names sym map (COL : nat -> nat -> list (nat * K)) (sel : nat -> nat -> bool),
  mapping sym names (coords lhs * coords rhs) = Ok map ->
  length (ediag lhs) = dim lhs -> length (ediag rhs) = dim rhs ->
  (forall c1 c2, c1 < dim lhs -> c2 < dim rhs -> column rt sym names map (coords rhs) (coords lhs * coords rhs) (negb (Nat.eqb c1 c2))
     (nth c1 (bcols lhs) []) (nth c2 (bcols rhs) []) = Ok (COL c1 c2))%nat ->
  (forall c1 c2, c1 < dim lhs -> c2 < dim rhs -> (COL c1 c2 = [] <-> sel c1 c2 = false))%nat ->
  let ps := pairs_with (dim lhs) (dim rhs) (fun c1 c2 => negb (skipped sym c1 c2) && keep (energy lhs c1 + energy rhs c2) && sel c1 c2) in
  combine rt keep lhs rhs names sym = Ok (HMat (coords lhs * coords rhs) (List.map (fun c => COL (fst c) (snd c)) ps)
      (List.map (fun c => energy lhs (fst c) + energy rhs (snd c)) ps)).
Proof.
  intros lhs rhs names sym map COL sel HM L1 L2 HC HS ps. unfold combine. rewrite HM. cbn [bind]. fold (dim lhs) (dim rhs).
  rewrite (@combine_loop_ok lhs rhs names sym map COL) ; auto.
  2:{ intros c1 c2 H. apply in_all_pairs in H. auto. }
  2:{ intros c1 c2 H. apply in_all_pairs in H. apply HC; tauto. }
  cbn [bind]. f_equal.
  assert (E : flat_map (fun c => if skipped sym (fst c) (snd c) then [] else if keep (energy lhs (fst c) + energy rhs (snd c)) then
      match COL (fst c) (snd c) with [] => [] | x => [(x, energy lhs (fst c) + energy rhs (snd c))] end else []) (all_pairs (dim lhs) (dim rhs)) =
    List.map (fun c => (COL (fst c) (snd c), energy lhs (fst c) + energy rhs (snd c))) ps).
  { unfold ps, pairs_with. rewrite <- flat_select, <- all_pairs_prod. rewrite !flat_map_concat_map. f_equal. apply map_ext_in. intros [c1 c2] H.
    apply in_all_pairs in H. cbn [fst snd]. destruct (skipped sym c1 c2); [reflexivity|]. cbn [negb andb]. destruct (keep _); [|reflexivity]. cbn [andb].
    destruct (HS c1 c2) as [S1 S2]; [tauto|tauto|]. destruct (COL c1 c2) as [|x y]; [rewrite S1 by reflexivity; reflexivity|].
    destruct (sel c1 c2); [reflexivity|]. discriminate S2. reflexivity. }
  rewrite E, !map_map. reflexivity.
Qed.

Lemma flat_nil : forall A B (f : A -> list B) l, (forall x, In x l -> f x = []) -> flat_map f l = [].
Proof. intros A B f l H. induction l as [|x l IH]; [reflexivity|]. cbn. rewrite H, IH; cbn; auto. intros; apply H; cbn; auto. Qed.

(** * Columns without reflection for vectors with definite quantum numbers *)
Definition sel_ok (sym : symmetry) (m p : Z) (dif : bool) : bool :=
  match rot sym with Some R => (2 * R =? m)%Z | None => true end &&
  negb (used (inv sym) && used (per sym) && dif && negb (invsign sym p =? persign sym)%Z).
Definition sel_sign (sym : symmetry) (p : Z) : Z := if used (inv sym) then invsign sym p else persign sym.

Section Cols.
Variables (b1 b2 : names_one) (start : one * one) (sym : symmetry) (dif : bool) (c1 c2 : list (nat * K)) (m p : Z).
Let n2 := length (names1 b2).
Let names := names2 (build2 start b1 b2).
Hypothesis NR : ref sym = NA.
Hypothesis H1 : half b1.
Hypothesis H2 : half b2.
Hypothesis SM : small b1 b2.
Hypothesis SAME : sympair sym dif = true -> length (names1 b1) = n2.
Hypothesis R1 : forall e, In e c1 -> (fst e < length (names1 b1))%nat.
Hypothesis R2 : forall e, In e c2 -> (fst e < n2)%nat.
Hypothesis DM : rot sym <> None -> forall e1 e2 s1 s2, In e1 c1 -> In e2 c2 -> nth_error (names1 b1) (fst e1) = Some s1 ->
  nth_error (names1 b2) (fst e2) = Some s2 -> (mm s1 + mm s2 = m)%Z.
Hypothesis DP : used (inv sym) = true -> forall e1 e2 s1 s2, In e1 c1 -> In e2 c2 -> nth_error (names1 b1) (fst e1) = Some s1 ->
  nth_error (names1 b2) (fst e2) = Some s2 -> (sg (l_ s1) * sg (l_ s2) = p)%Z.

Definition ecol : list (nat * K) :=
  flat_map (fun e1 => flat_map (fun e2 => if sel_ok sym m p dif then
    ((n2 * fst e1 + fst e2)%nat, @fac K rt sym dif (snd e1 * snd e2)) ::
    (if sympair sym dif then [((n2 * fst e2 + fst e1)%nat, sc (sel_sign sym p) (@fac K rt sym dif (snd e1 * snd e2)))] else [])
  else []) c2) c1.

Lemma column_ok : forall map, column rt sym names map n2 (length (names1 b1) * n2) dif c1 c2 = Ok ecol.
Proof.
  intros map. unfold column, ecol. apply mapR_ok. intros e1 I1. apply mapR_ok. intros e2 I2.
  destruct (nth_error (names1 b1) (fst e1)) as [s1|] eqn:N1; [|apply nth_error_None in N1; apply R1 in I1; lia].
  destruct (nth_error (names1 b2) (fst e2)) as [s2|] eqn:N2; [|apply nth_error_None in N2; apply R2 in I2; unfold n2 in I2; lia].
  assert (N : nth_error names (n2 * fst e1 + fst e2) = Some (Two (Z.of_nat (fst e1 * n2 + fst e2)) s1 s2)).
  { rewrite (Nat.mul_comm n2). apply C55_rowmajor; auto. }
  destruct (H1 s1) as [J1 M1]; [eapply nth_error_In; eauto|]. destruct (H2 s2) as [J2 M2]; [eapply nth_error_In; eauto|].
  assert (A1 := R1 _ I1). assert (A2 := R2 _ I2).
  rewrite (@one_entry_noref K rt sym names map n2 _ dif e1 e2 (Z.of_nat (fst e1 * n2 + fst e2)) s1 s2) ; auto.
  - f_equal. unfold entry. assert (E : accept sym dif s1 s2 = sel_ok sym m p dif).
    { unfold accept, sel_ok. f_equal.
      - destruct (rot sym) eqn:Ro; [|reflexivity]. rewrite (DM ltac:(discriminate) _ _ I1 I2 N1 N2). reflexivity.
      - destruct (used (inv sym)) eqn:U; [|reflexivity]. rewrite sg_add, (DP eq_refl _ _ I1 I2 N1 N2). reflexivity. }
    rewrite E. destruct (sel_ok sym m p dif); [|reflexivity]. f_equal. unfold symsign, sel_sign.
    destruct (used (inv sym)) eqn:U; [|reflexivity]. rewrite sg_add, (DP eq_refl _ _ I1 I2 N1 N2). reflexivity.
  - clear - A1 A2. nia.
  - intros S. specialize (SAME S). clear - A1 A2 SAME. nia.
Qed.

Lemma ecol_empty : c1 <> [] -> c2 <> [] -> (ecol = [] <-> sel_ok sym m p dif = false).
Proof.
  clear SAME R1 R2 DM DP. intros N1 N2. unfold ecol. destruct (sel_ok sym m p dif).
  - split; [|discriminate]. destruct c1 as [|e1 d1]; [destruct N1; reflexivity|]. destruct c2 as [|e2 d2]; [destruct N2; reflexivity|]. cbn [flat_map app]. discriminate.
  - split; auto. intros _. apply flat_nil. intros. apply flat_nil. auto.
Qed.

Lemma ecol_coef : forall r, sel_ok sym m p dif = true ->
  coef ecol r = if sympair sym dif then rt * (kron n2 (coef c1) (coef c2) r + sc (sel_sign sym p) (coef c1 (r mod n2) * coef c2 (r / n2)))
                else kron n2 (coef c1) (coef c2) r.
Proof.
  intros r S. unfold ecol. rewrite S. rewrite coef_flat. unfold kron.
  rewrite <- (@kron_sum K n2 c1 c2 r) by auto.
  destruct (sympair sym dif) eqn:SP.
  - rewrite <- (@kron_sum' K n2 c1 c2 r) by (rewrite <- SAME by auto; auto).
    assert (Scl : forall z (x y : K), sc z x + sc z y = sc z (x + y)) by (intros z x y; unfold sc; destruct (z =? 1)%Z; ring).
    assert (Scm : forall z (x y : K), sc z (x * y) = sc z x * y) by (intros z x y; unfold sc; destruct (z =? 1)%Z; ring).
    assert (Sc0 : forall z, sc z (0 : K) = 0) by (intros z; unfold sc; destruct (z =? 1)%Z; ring).
    assert (Scs : forall A z (f : A -> K) l, sc z (lsum f l) = lsum (fun x => sc z (f x)) l).
    { intros A z f l. induction l as [|x l IH]; [apply Sc0|]. cbn [lsum fold_right]. rewrite <- Scl. unfold lsum in IH. rewrite IH. reflexivity. }
    rewrite Scs, <- lsum_add, <- lsum_mul_l. apply lsum_ext. intros e1 I1. rewrite coef_flat, Scs, <- lsum_add, <- lsum_mul_l. apply lsum_ext. intros e2 I2.
    rewrite coef_cons, coef_one. cbn [fst snd]. unfold fac. rewrite SP.
    destruct (Nat.eqb (n2 * fst e1 + fst e2) r), (Nat.eqb (n2 * fst e2 + fst e1) r); rewrite ?Sc0, ?Scm; ring.
  - apply lsum_ext. intros e1 I1. rewrite coef_flat. apply lsum_ext. intros e2 I2. rewrite coef_one. cbn [fst snd]. unfold fac. rewrite SP. reflexivity.
Qed.
End Cols.

(** * [combine] without reflection *)
Definition sel_pair (sym : symmetry) (m1 m2 p1 p2 : nat -> Z) (c1 c2 : nat) : bool :=
  sel_ok sym (m1 c1 + m2 c2) (p1 c1 * p2 c2) (negb (Nat.eqb c1 c2)).
Theorem combine_noref : forall (lhs rhs : hmat K) b1 b2 start sym m1 m2 p1 p2,
  ref sym = NA -> over lhs b1 -> over rhs b2 -> half b1 -> half b2 -> small b1 b2 ->
  (used (inv sym) || used (per sym) = true -> length (names1 b1) = length (names1 b2)) ->
  (rot sym <> None -> forall k, k < dim lhs -> definite lhs b1 mm k (m1 k))%nat ->
  (rot sym <> None -> forall k, k < dim rhs -> definite rhs b2 mm k (m2 k))%nat ->
  (used (inv sym) = true -> forall k, k < dim lhs -> definite lhs b1 (fun s => sg (l_ s)) k (p1 k))%nat ->
  (used (inv sym) = true -> forall k, k < dim rhs -> definite rhs b2 (fun s => sg (l_ s)) k (p2 k))%nat ->
  let ps := pairs_with (dim lhs) (dim rhs) (fun c1 c2 => negb (skipped sym c1 c2) && keep (energy lhs c1 + energy rhs c2) && sel_pair sym m1 m2 p1 p2 c1 c2) in
  exists M, combine rt keep lhs rhs (names2 (build2 start b1 b2)) sym = Ok M /\ coords M = (coords lhs * coords rhs)%nat /\
  dim M = length ps /\ length (ediag M) = length ps /\
  forall k c1 c2, nth_error ps k = Some (c1, c2) -> energy M k = energy lhs c1 + energy rhs c2 /\
    forall r, bvec M k r = if sympair sym (negb (Nat.eqb c1 c2))
      then rt * (kron (coords rhs) (bvec lhs c1) (bvec rhs c2) r +
                 sc (sel_sign sym (p1 c1 * p2 c2)) (bvec lhs c1 (r mod coords rhs)%nat * bvec rhs c2 (r / coords rhs)%nat))
      else kron (coords rhs) (bvec lhs c1) (bvec rhs c2) r.
Proof.
  intros lhs rhs b1 b2 start sym m1 m2 p1 p2 NR (C1 & L1 & V1) (C2 & L2 & V2) HH1 HH2 SM SA DM1 DM2 DP1 DP2 ps.
  set (COL := fun c1 c2 => ecol b2 sym (negb (Nat.eqb c1 c2)) (nth c1 (bcols lhs) []) (nth c2 (bcols rhs) []) (m1 c1 + m2 c2) (p1 c1 * p2 c2)).
  assert (IN1 : forall c, (c < dim lhs)%nat -> In (nth c (bcols lhs) []) (bcols lhs)) by (intros; apply nth_In; auto).
  assert (IN2 : forall c, (c < dim rhs)%nat -> In (nth c (bcols rhs) []) (bcols rhs)) by (intros; apply nth_In; auto).
  assert (SAME : forall c1 c2, sympair sym (negb (Nat.eqb c1 c2)) = true -> length (names1 b1) = length (names1 b2)).
  { intros c1 c2 S. apply andb_true_iff in S. tauto. }
  assert (R1 : forall c1, (c1 < dim lhs)%nat -> forall e, In e (nth c1 (bcols lhs) []) -> (fst e < length (names1 b1))%nat).
  { intros c1 B e He. rewrite <- C1. destruct (V1 _ (IN1 _ B)) as [_ V]. auto. }
  assert (R2 : forall c2, (c2 < dim rhs)%nat -> forall e, In e (nth c2 (bcols rhs) []) -> (fst e < length (names1 b2))%nat).
  { intros c2 B e He. rewrite <- C2. destruct (V2 _ (IN2 _ B)) as [_ V]. auto. }
  eexists. split; [|split; [|split; [|split]]].
  - eapply (@combine_ok lhs rhs (names2 (build2 start b1 b2)) sym _ COL (sel_pair sym m1 m2 p1 p2)); auto.
    + unfold mapping. rewrite NR. reflexivity.
    + intros c1 c2 B1 B2. rewrite C2, C1. unfold COL.
      apply column_ok; [exact NR|exact HH1|exact HH2|exact SM|apply SAME|apply (R1 _ B1)|apply (R2 _ B2)| |].
      * intros Ro e1 e2 s1 s2 I1 I2 N1 N2. rewrite (DM1 Ro _ B1 _ _ I1 N1), (DM2 Ro _ B2 _ _ I2 N2). reflexivity.
      * intros U e1 e2 s1 s2 I1 I2 N1 N2. rewrite (DP1 U _ B1 _ _ I1 N1), (DP2 U _ B2 _ _ I2 N2). reflexivity.
    + intros c1 c2 B1 B2. apply ecol_empty; [apply (V1 _ (IN1 _ B1))|apply (V2 _ (IN2 _ B2))].
  - reflexivity.
  - unfold dim. cbn [bcols]. apply map_length.
  - cbn [ediag]. apply map_length.
  - intros k c1 c2 Hk. unfold energy at 1, bvec at 1. cbn [ediag bcols].
    assert (Lk : (k < length ps)%nat) by (apply nth_error_Some; congruence).
    assert (Hin := nth_error_In _ _ Hk). unfold ps, pairs_with in Hin. apply filter_In in Hin. destruct Hin as [Hp Hs]. rewrite <- all_pairs_prod in Hp.
    apply in_all_pairs in Hp. destruct Hp as [B1 B2]. cbn [fst snd] in Hs. apply andb_true_iff in Hs. destruct Hs as [_ Hs].
    assert (N : nth k ps (0, 0)%nat = (c1, c2)) by (apply nth_error_nth; auto).
    split.
    + rewrite (nth_indep _ _ ((fun c => energy lhs (fst c) + energy rhs (snd c)) (0, 0)%nat)) by (rewrite map_length; auto).
      fold ps. rewrite (map_nth (fun c => energy lhs (fst c) + energy rhs (snd c))). rewrite N. reflexivity.
    + intros r. rewrite (nth_indep _ _ ((fun c => COL (fst c) (snd c)) (0, 0)%nat)) by (rewrite map_length; auto).
      fold ps. rewrite (map_nth (fun c => COL (fst c) (snd c))). rewrite N. cbn [fst snd]. unfold COL. rewrite C2.
      rewrite (@ecol_coef b1 b2); [reflexivity|..].
      all: try (intros; match goal with H : sympair _ _ = true |- _ => apply (SAME _ _ H) end); try apply (R1 _ B1); try apply (R2 _ B2); try exact Hs.
Qed.
End Proofs.
