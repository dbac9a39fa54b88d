(** C78: restriction of the one-atom states in the command line program (HamiltonianTwo.cpp:186-258, HamiltonianOne.cpp:118-150,
    Hamiltonian.hpp:38-43).  The list of the names and the matrices of all steps are restricted separately; they stay aligned. *)
From Coq Require Import ZArith Lia Bool List QArith Qcanon Permutation.
Import ListNotations.
From Verif Require Import Base Matrix PairDemo BasisnamesModel BasisnamesProofs CombineModel CombineSpec NecessaryModel NecessarySpec CombineDemo PropNames
  CombineProofs CombineProofs2 CombineProofs3 CombineProofs4 NecessaryProofs NecessaryProofs2 NecessaryProofs3 PropCombine PropCombine2 PropNecessary.
Set Implicit Arguments.
Local Open Scope nat_scope.

Lemma nodup_map_filter : forall A B (f : A -> B) p l, NoDup (map f l) -> NoDup (map f (filter p l)).
Proof.
  induction l as [|x l IH]; intros H; [constructor|]. cbn [map] in H. apply NoDup_cons_iff in H. destruct H as [N H]. cbn [filter]. destruct (p x); [|auto].
  cbn [map]. constructor; [|auto]. intros I. apply N. apply in_map_iff in I. destruct I as (y & E & I). apply filter_In in I. rewrite <- E. apply in_map. tauto.
Qed.
Lemma nodup_nth : forall A B (f : A -> B) l i k x y, NoDup (map f l) -> nth_error l i = Some x -> nth_error l k = Some y -> f x = f y -> i = k.
Proof.
  intros A B f l i k x y N Hi Hk E. apply (proj1 (NoDup_nth_error (map f l)) N).
  - rewrite map_length. apply nth_error_Some. congruence.
  - rewrite !nth_error_map, Hi, Hk. cbn. congruence.
Qed.

(** The restricted list contains exactly the valid states, in their order, with the indices 0, 1, ...; the matrix of every step has one
    coordinate for each of them, and the amplitude of a state in a basis vector is the same as before. *)
Theorem C78_restrict : forall (K : StarRing) d b (mats : list (hmat K)),
  in_order b -> NoDup (map quad (names1 b)) -> (Z.of_nat (length (names1 b)) < 2 ^ 32)%Z -> (forall h, In h mats -> coords h = length (names1 b)) ->
  exists b' mats', restrict_one d b mats = Ok (b', mats') /\ in_order b' /\ initial1 b' = initial1 b /\ dim1 b' = Z.of_nat (length (names1 b')) /\
    map quad (names1 b') = map quad (filter (valid_state d (initial1 b)) (names1 b)) /\
    length mats' = length mats /\
    forall k h h', nth_error mats k = Some h -> nth_error mats' k = Some h' ->
      coords h' = length (names1 b') /\ dim h' = dim h /\ ediag h' = ediag h /\
      forall c i i' s s', nth_error (names1 b) i = Some s -> nth_error (names1 b') i' = Some s' -> quad s' = quad s -> bvec h' c i' = bvec h c i.
Proof.
  intros K d b mats O ND B C. set (p := valid_state d (initial1 b)). destruct (@valid_mask p b O) as (mask & Em & Lm & Nm).
  destruct (@remove1_in_order p b mask O B Lm Nm) as (b' & Eb & Ob & Ib & Qb & Db). unfold restrict_one. fold p. rewrite Em. cbn [bind]. rewrite Eb. cbn [bind].
  rewrite (@map_res_ok _ _ _ (fun h => HMat (rank mask (coords h)) (map (keep_rows mask) (bcols h)) (ediag h))) by (intros h I; apply remove_states_ok; rewrite (C _ I); exact Lm).
  cbn [bind]. eexists. eexists. split; [reflexivity|]. split; [exact Ob|]. split; [exact Ib|]. split; [exact Db|]. split; [exact Qb|]. split; [apply map_length|].
  intros k h h' Hh Hh'. rewrite nth_error_map, Hh in Hh'. cbn in Hh'. injection Hh' as <-. cbn [coords]. unfold dim. cbn [bcols ediag].
  pose proof (C _ (nth_error_In _ _ Hh)) as Ch. pose proof (select_filter p (names1 b) mask Lm Nm) as Sf.
  split; [|split; [apply map_length|split; [reflexivity|]]].
  - rewrite Ch. rewrite <- (@select_length _ mask (names1 b) Lm), Sf, <- (map_length quad), <- Qb, map_length. reflexivity.
  - intros c i i' s s' Hi Hi' Eq. destruct (@map_nth_eq _ _ quad _ _ Qb i' s' Hi') as (s2 & H2 & Q2).
    assert (Sel : nth_error (select mask (names1 b)) i' = Some s2) by (rewrite Sf; exact H2).
    assert (I2 : In s2 (filter p (names1 b))) by (eapply nth_error_In; exact H2). apply filter_In in I2. destruct I2 as [I2 P2].
    apply In_nth_error in I2. destruct I2 as [i2 Hi2]. assert (i2 = i) by (apply (@nodup_nth _ _ quad (names1 b) i2 i s2 s ND Hi2 Hi); congruence). subst i2.
    rewrite Hi in Hi2. injection Hi2 as <-. assert (M : nth i mask false = true) by (rewrite (Nm _ _ Hi); exact P2).
    assert (Li : i < length (names1 b)) by (apply nth_error_Some; congruence).
    pose proof (@select_rank _ mask (names1 b) i M Li Lm) as SR. rewrite Hi in SR.
    assert (i' = rank mask i). { apply (@nodup_nth _ _ quad (select mask (names1 b)) i' (rank mask i) s s); auto. rewrite Sf. apply nodup_map_filter. exact ND. }
    subst i'. unfold bvec. cbn [bcols]. change (@nil (nat * K)) with (keep_rows mask (@nil (nat * K))) at 1. rewrite map_nth. apply keep_rows_coef. exact M.
Qed.

(** Which states are valid: each quantum number is within the limit of some initial state ... *)
Theorem C78_valid : forall d initial s, valid_state d initial s = true <->
  (exists i, In i initial /\ (dN d < 0 \/ Z.abs (n_ s - n_ i) <= dN d)%Z) /\ (exists i, In i initial /\ (dL d < 0 \/ Z.abs (l_ s - l_ i) <= dL d)%Z) /\
  (exists i, In i initial /\ (dJ d < 0 \/ Z.abs (jj s - jj i) <= 2 * dJ d)%Z) /\ (exists i, In i initial /\ (dM d < 0 \/ Z.abs (mm s - mm i) <= 2 * dM d)%Z).
Proof.
  intros d initial s. unfold valid_state. rewrite !andb_true_iff, !existsb_exists.
  assert (G : forall (a : Z) (f g : one -> Z), (exists x, In x initial /\ ((a <? 0) || (f x <=? g x))%Z = true) <-> (exists i, In i initial /\ (a < 0 \/ f i <= g i)%Z)).
  { intros a f g. split; intros (x & I & H); exists x; (split; [exact I|]).
    - apply orb_true_iff in H. rewrite Z.ltb_lt, Z.leb_le in H. exact H.
    - apply orb_true_iff. rewrite Z.ltb_lt, Z.leb_le. exact H. }
  rewrite (G (dN d) (fun i => Z.abs (n_ s - n_ i)) (fun _ => dN d)), (G (dL d) (fun i => Z.abs (l_ s - l_ i)) (fun _ => dL d)),
    (G (dJ d) (fun i => Z.abs (jj s - jj i)) (fun _ => 2 * dJ d))%Z, (G (dM d) (fun i => Z.abs (mm s - mm i)) (fun _ => 2 * dM d))%Z. tauto.
Qed.
(** ... with one initial state: exactly the states near to it. *)
Corollary C78_near_partial : forall d i s, valid_state d [i] s = true <-> near d i s.
Proof.
  intros d i s. rewrite C78_valid. unfold near. split.
  - intros ((a & [<-|[]] & A) & (b & [<-|[]] & B) & (c & [<-|[]] & C) & (e & [<-|[]] & E)). auto.
  - intros (A & B & C & E). repeat split; exists i; (split; [left; reflexivity|assumption]).
Qed.
(** With two: the states near to one of them are kept ... *)
Theorem C78_near_kept : forall d initial i s, In i initial -> near d i s -> valid_state d initial s = true.
Proof. intros d initial i s I (A & B & C & E). apply C78_valid. repeat split; exists i; auto. Qed.
(** ... and the initial states themselves (limits that are not negative or absent). *)
Theorem C78_initial_kept : forall d initial i, In i initial -> valid_state d initial i = true.
Proof. intros d initial i I. apply (@C78_near_kept d initial i i I). unfold near. rewrite !Z.sub_diag. change (Z.abs 0) with 0%Z. lia. Qed.
(** ... but also states near to none of them: 10 D 3/2 with the initial states 10 S 1/2 and 20 D 3/2, all limits 0. *)
Theorem C78_near_refuted : let d := Limits 0 0 0 0 in let i1 := One 0 10 0 1 1 in let i2 := One 0 20 2 3 1 in let s := One 0 10 2 3 1 in
  valid_state d [i1; i2] s = true /\ ~ near d i1 s /\ ~ near d i2 s.
Proof. cbv zeta. split; [reflexivity|]. unfold near. cbn. lia. Qed.

(** The one-atom Hamiltonian without fields: the energy loop *)
Section Energy.
Variable K : StarRing.
Variable keep : K -> bool.
Variable level : one -> K.
Variable e0 : K.
Let v s := ssub (level s) e0.
Lemma energy_loop_ok : forall l mask, (forall s, In s l -> (0 <= idx s)%Z /\ Z.to_nat (idx s) < length mask) ->
  exists mask', energy_loop keep level e0 l mask = Ok (mask', map v (filter (fun s => keep (v s)) l)) /\ length mask' = length mask /\
    forall r, nth r mask' false = true <-> nth r mask false = true \/ exists s, In s l /\ keep (v s) = true /\ Z.to_nat (idx s) = r.
Proof.
  induction l as [|s l IH]; intros mask B.
  - exists mask. split; [reflexivity|]. split; [reflexivity|]. intros r. split; [auto|]. intros [H|(s & [] & _)]; auto.
  - cbn [energy_loop filter]. fold (v s). destruct (keep (v s)) eqn:P.
    + destruct (B s) as [B1 B2]; [left; auto|]. replace (idx s <? 0)%Z with false by (symmetry; apply Z.ltb_ge; exact B1).
      destruct (@set_vec_lt _ mask (Z.to_nat (idx s)) true B2) as (m1 & E1). rewrite E1. cbn [bind]. destruct (set_vec_some _ _ _ E1) as (L1 & _ & N1).
      destruct (IH m1) as (m' & E' & L' & N'); [intros x Hx; rewrite L1; apply B; right; auto|]. rewrite E'. cbn [bind fst snd map]. exists m'. split; [reflexivity|]. split; [congruence|].
      intros r. rewrite N', N1. split.
      * intros [H|(x & I & Px & Ex)]; [|right; exists x; split; [right; auto|auto]]. destruct (Nat.eqb_spec r (Z.to_nat (idx s))) as [Er|Ne]; [subst r; right; exists s; split; [left; auto|auto]|auto].
      * intros [H|(x & [<-|I] & Px & Ex)]; [left; destruct (Nat.eqb r (Z.to_nat (idx s))); auto|left; rewrite <- Ex, Nat.eqb_refl; reflexivity|right; exists x; auto].
    + destruct (IH mask) as (m' & E' & L' & N'); [intros; apply B; right; auto|]. exists m'. split; [exact E'|]. split; [exact L'|]. intros r. rewrite N'. split.
      * intros [H|(x & I & Px & Ex)]; [auto|right; exists x; split; [right; auto|auto]].
      * intros [H|(x & [<-|I] & Px & Ex)]; [auto|congruence|right; exists x; auto].
Qed.
Lemma indexed_bound : forall b s, indexed b -> In s (names1 b) -> (0 <= idx s)%Z /\ Z.to_nat (idx s) < length (names1 b).
Proof.
  intros b s [I _] H. assert (X : In (idx s) (map Z.of_nat (seq 0 (length (names1 b))))) by (apply (Permutation_in _ I); apply in_map; exact H).
  apply in_map_iff in X. destruct X as (k & E & X). apply in_seq in X. lia.
Qed.
Lemma indexed_inj : forall b s t, indexed b -> In s (names1 b) -> In t (names1 b) -> idx s = idx t -> s = t.
Proof.
  intros b s t [I _] Hs Ht E. assert (N : NoDup (map idx (names1 b))).
  { eapply Permutation_NoDup; [symmetry; exact I|]. apply FinFun.Injective_map_NoDup; [intros x y; lia|apply seq_NoDup]. }
  apply In_nth_error in Hs, Ht. destruct Hs as [i Hi], Ht as [k Hk]. pose proof (@nodup_nth _ _ idx (names1 b) i k s t N Hi Hk E) as <-. congruence.
Qed.
End Energy.

(** The one-atom Hamiltonian: exactly the states within the energy cutoff remain, in the order of the list (which before need not be the
    order of the indices: C55_both_indices); the i-th name has the index i, and the i-th diagonal entry is the energy of the i-th
    name relative to [e0]; the basis vectors are the states. *)
Theorem C78_energies : forall (K : StarRing) (keep : K -> bool) level e0 b,
  (forall s s', quad s = quad s' -> level s = level s') ->
  indexed b -> (Z.of_nat (length (names1 b)) < 2 ^ 32)%Z ->
  exists b' h, one_atom keep level e0 b = Ok (b', h) /\ in_order b' /\ initial1 b' = initial1 b /\
    map quad (names1 b') = map quad (filter (fun s => keep (ssub (level s) e0)) (names1 b)) /\
    coords h = length (names1 b') /\ dim h = length (names1 b') /\ length (ediag h) = length (names1 b') /\
    forall i s, nth_error (names1 b') i = Some s -> energy h i = ssub (level s) e0 /\ keep (energy h i) = true /\ forall r, bvec h i r = delta r i.
Proof.
  intros K keep level e0 b LQ IX B. set (v := fun s => ssub (level s) e0).
  destruct (@energy_loop_ok K keep level e0 (names1 b) (repeat false (length (names1 b)))) as (mask & E & L & N).
  { intros s Hs. rewrite repeat_length. apply indexed_bound; auto. }
  rewrite repeat_length in L. destruct (@C55_one b mask IX L B) as (b' & Eb & Qb & Xb & Db). unfold one_atom. rewrite E. cbn [bind fst snd]. rewrite Eb. cbn [bind].
  assert (Fl : filter (fun s => nth (Z.to_nat (idx s)) mask false) (names1 b) = filter (fun s => keep (v s)) (names1 b)).
  { apply filter_ext_in. intros s Hs. assert (G : nth (Z.to_nat (idx s)) mask false = true <-> keep (v s) = true).
    { rewrite N. split.
      - intros [H|(x & I & P & Ex)]; [rewrite nth_repeat in H; discriminate H|]. destruct (@indexed_bound b s IX Hs), (@indexed_bound b x IX I).
        assert (x = s) by (apply (@indexed_inj b x s IX); auto; lia). subst x. exact P.
      - intros P. right. exists s. auto. }
    destruct (nth (Z.to_nat (idx s)) mask false), (keep (v s)); try reflexivity; [destruct (proj1 G eq_refl)|destruct (proj2 G eq_refl)]; reflexivity. }
  rewrite Fl in Qb. fold v. set (kept := filter (fun s => keep (v s)) (names1 b)) in *.
  change (filter (fun s => keep (ssub (level s) e0)) (names1 b)) with kept. change (fun s => ssub (level s) e0) with v.
  assert (Ln : length (names1 b') = length kept) by (rewrite <- (map_length quad), Qb, map_length; reflexivity).
  rewrite map_length, Db, Ln, Z.leb_refl, Nat2Z.id. eexists. eexists. split; [reflexivity|].
  assert (Ini : initial1 b' = initial1 b).
  { unfold remove1 in Eb. destruct (remove1_loop mask 0 (names1 b)) as [x| |]; cbn [bind] in Eb; [|discriminate Eb..]. injection Eb as <-. reflexivity. }
  split; [|split; [exact Ini|split; [exact Qb|]]].
  { intros i s Hi. assert (X : nth_error (map idx (names1 b')) i = Some (idx s)) by (rewrite nth_error_map, Hi; reflexivity). rewrite Xb, nth_error_map in X.
    assert (i < length (names1 b')) by (apply nth_error_Some; congruence). rewrite (nth_error_nth' _ 0) in X by (rewrite seq_length; auto). rewrite seq_nth in X by auto. cbn in X. congruence. }
  cbn [coords ediag]. unfold dim. cbn [bcols]. unfold unit_columns. rewrite !map_length, seq_length. split; [auto|]. split; [auto|]. split; [auto|].
  intros i s Hi. destruct (@map_nth_eq _ _ quad _ _ Qb i s Hi) as (t & Ht & Qt). assert (Li : i < length kept) by (apply nth_error_Some; congruence).
  assert (En : energy (HMat (length kept) (map (fun i => [(i, Matrix.s1 (s := K))]) (seq 0 (length kept))) (map v kept)) i = v s).
  { unfold energy. cbn [ediag]. assert (X : nth_error (map v kept) i = Some (v t)) by (rewrite nth_error_map, Ht; reflexivity). rewrite (nth_error_nth _ _ _ X). unfold v. f_equal. apply LQ. exact Qt. }
  rewrite En. split; [reflexivity|]. split.
  - apply nth_error_In in Ht. apply filter_In in Ht. destruct Ht as [_ P]. unfold v in *. rewrite (LQ s t) by congruence. exact P.
  - intros r. unfold bvec. cbn [bcols]. assert (X : nth_error (map (fun i => [(i, Matrix.s1 (s := K))]) (seq 0 (length kept))) i = Some [(i, Matrix.s1 (s := K))]).
    { rewrite nth_error_map, (nth_error_nth' _ 0) by (rewrite seq_length; exact Li). rewrite seq_nth by exact Li. reflexivity. }
    rewrite (nth_error_nth _ _ _ X), coef_one. unfold delta. cbn [fst snd]. rewrite (Nat.eqb_sym r i). reflexivity.
Qed.

(** Basis vectors that have lost their weight (removeUnnecessaryBasisvectors after the restriction): exactly those whose squared norm
    exceeds the threshold remain, in their order and with their energies.  The squared norm is the sum of the squared moduli of the
    coefficients listed for the vector, if no state is listed twice. *)
Section SquaredNorm.
Context {K : StarRing}.
Add Ring Kr78 : (s_ring K).
Local Open Scope star_scope.
Definition squared_norm (c : list (nat * K)) : K := fold_right (fun e a => sconj (snd e) * snd e + a) 0 c.
Lemma coef_notin : forall (c : list (nat * K)) r, ~ In r (map fst c) -> coef c r = 0.
Proof.
  induction c as [|e c IH]; intros r N; [reflexivity|]. cbn [coef fold_right]. destruct (Nat.eqb_spec (fst e) r); [exfalso; apply N; left; assumption|].
  apply IH. intro H. apply N. right. exact H.
Qed.
Lemma squared_norm_weight : forall N (c : list (nat * K)), NoDup (map fst c) -> Forall (fun e => fst e < N)%nat c ->
  bsum N (fun r => sconj (coef c r) * coef c r) = squared_norm c.
Proof.
  intros N. induction c as [|e c IH]; intros ND F.
  - cbn [squared_norm fold_right]. apply bsum_zero. intros i _. cbn. rewrite sconj_0. ring.
  - inversion ND as [|? ? Ni ND']; subst. inversion F as [|? ? Fe F']; subst. cbn [squared_norm fold_right]. change (fold_right _ 0 c) with (squared_norm c).
    rewrite <- (IH ND' F'). clear IH.
    rewrite (@bsum_ext K N (fun r => sconj (coef (e :: c) r) * coef (e :: c) r)
       (fun r => delta (fst e) r * (sconj (snd e) * snd e) + sconj (coef c r) * coef c r)).
    + rewrite bsum_add. f_equal. exact (@bsum_delta_l K N (fst e) (fun _ => sconj (snd e) * snd e) Fe).
    + intros r _. cbn [coef fold_right]. change (fold_right _ 0 c) with (coef c r). unfold delta. destruct (Nat.eqb_spec (fst e) r) as [<-|Ne].
      * rewrite (@coef_notin c (fst e) Ni). rewrite s_conj_add, sconj_0. ring.
      * ring.
Qed.
Theorem C78_short_vectors : forall (big : K -> bool) (h : hmat K), length (bcols h) = length (ediag h) ->
  Forall (fun c => NoDup (map fst c) /\ Forall (fun e => fst e < coords h)%nat c) (bcols h) ->
  coords (remove_small big h) = coords h /\ length (bcols (remove_small big h)) = length (ediag (remove_small big h)) /\
  List.combine (bcols (remove_small big h)) (ediag (remove_small big h)) =
    filter (fun c => big (squared_norm (fst c))) (List.combine (bcols h) (ediag h)).
Proof.
  intros big h L F. unfold remove_small. cbn [coords bcols ediag]. split; [reflexivity|]. split; [rewrite !map_length; reflexivity|].
  assert (S : forall l : list (list (nat * K) * K), List.combine (map fst l) (map snd l) = l) by (induction l as [|[a b] l IH]; cbn; congruence).
  rewrite S. apply filter_ext_in. intros [c e] I. cbn [fst]. f_equal. apply List.in_combine_l in I. rewrite Forall_forall in F. destruct (F c I) as [A B].
  apply squared_norm_weight; assumption.
Qed.
End SquaredNorm.

(** The basis vectors of the restricted matrices need not be orthonormal.  S and P mixed by a field, limit 0 for l: both basis vectors
    become the same vector of squared length 1/2, the pair basis has four times the same vector over one coordinate, and all four have a
    squared length above 0.05, so that none of them is removed. *)
Definition SPinit : names_one := NamesOne 2 [Sp; Pp] [Sp].
Definition above005 (x : R2) : bool := negb (Qle_bool (this (fst x)) (1 # 20)).
Definition restricted_pair : res (hmat R2) :=
  do! r <- restrict_one (Limits (-1) 0 (-1) (-1)) SPinit [mixed];
  match snd r with
  | [h'] => do! M <- combine half_sqrt any h' h' (names2 (build2 (Sp, Sp) (fst r) (fst r))) (Sym NA NA NA None); Ok (remove_small above005 M)
  | _ => UB
  end.
Theorem C78_orthonormal_refuted : orthonormal mixed /\ in_order SPinit /\ NoDup (map quad (names1 SPinit)) /\
  (exists b h', restrict_one (Limits (-1) 0 (-1) (-1)) SPinit [mixed] = Ok (b, [h']) /\ vectors (Ok h') = [[ch]; [ch]]) /\
  vectors restricted_pair = [[q2 (1 # 2)]; [q2 (1 # 2)]; [q2 (1 # 2)]; [q2 (1 # 2)]].
Proof.
  split; [|split; [|split; [|split]]].
  - intros a b Ha Hb. cbn in Ha, Hb. destruct a as [|[|a]], b as [|[|b]]; try lia; apply r2_eq; vm_compute; split; reflexivity.
  - intros i s H. destruct i as [|[|i]]; cbn in H; [injection H as <-; reflexivity..|destruct i; discriminate H].
  - cbn. constructor; [intros [X|[]]; discriminate X|constructor; [intros []|constructor]].
  - assert (V : match restrict_one (Limits (-1) 0 (-1) (-1)) SPinit [mixed] with Ok (_, [h']) => map (map raw) (vectors (Ok h')) | _ => [] end = map (map raw) [[ch]; [ch]]) by (vm_compute; reflexivity).
    destruct (restrict_one (Limits (-1) 0 (-1) (-1)) SPinit [mixed]) as [[b l]| |]; try discriminate V. destruct l as [|h' [|]]; try discriminate V. exists b, h'. split; [reflexivity|]. apply list_eq2. exact V.
  - same.
Qed.

(** The hypotheses are met: both lists (one initial state, two initial states), a matrix with mixed states; the order of the indices is
    not the order of the list before the energy cutoff. *)
Example C78_nonvacuous : in_order SPinit /\ (forall h, In h [mixed; plain] -> coords h = length (names1 SPinit)) /\
  exists b' mats', restrict_one (Limits 0 0 0 0) SPinit [mixed; plain] = Ok (b', mats') /\ map quad (names1 b') = [quad Sp] /\
    forall h', nth_error mats' 0 = Some h' -> bvec h' 1 0 = bvec mixed 1 0.
Proof.
  assert (O : in_order SPinit) by apply C78_orthonormal_refuted. assert (N : NoDup (map quad (names1 SPinit))) by apply C78_orthonormal_refuted.
  assert (C : forall h, In h [mixed; plain] -> coords h = length (names1 SPinit)) by (intros h [<-|[<-|[]]]; reflexivity).
  split; [exact O|]. split; [exact C|]. destruct (@C78_restrict R2 (Limits 0 0 0 0) SPinit [mixed; plain] O N eq_refl C) as (b' & mats' & E & _ & _ & _ & Q & _ & A).
  exists b', mats'. split; [exact E|]. split; [exact Q|]. intros h' H. destruct (A 0 mixed h' eq_refl H) as (_ & _ & _ & F).
  change (map quad (filter (valid_state (Limits 0 0 0 0) (initial1 SPinit)) (names1 SPinit))) with [quad Sp] in Q.
  destruct (names1 b') as [|s' [|]] eqn:En; try discriminate Q. apply (F 1 0 0 Sp s'); [reflexivity|reflexivity|]. cbn [map] in Q. congruence.
Qed.
Definition twoinit : names_one := build_both (One 0 2 0 1 1) (One 0 3 1 1 1) (Deltas 1 0 0 0).
Definition level_n (s : one) : R2 := q2 (inject_Z (n_ s)).
Example C78_energies_nonvacuous : indexed twoinit /\ ~ in_order twoinit /\
  (exists b' h, one_atom any level_n (q2 2) twoinit = Ok (b', h) /\ in_order b' /\ length (names1 b') = 6 /\ dim h = 6).
Proof.
  assert (I : indexed twoinit) by (apply C55_both_indices; reflexivity). split; [exact I|]. split.
  - intros O. specialize (O 2 (nth 2 (names1 twoinit) Sp) eq_refl). vm_compute in O. discriminate O.
  - destruct (@C78_energies R2 any level_n (q2 2) twoinit) as (b' & h & E & O & _ & Q & _ & D & _); auto; [intros s s' X; injection X; intros; unfold level_n; congruence|reflexivity|].
    exists b', h. split; [exact E|]. split; [exact O|]. assert (L : length (names1 b') = 6) by (rewrite <- (map_length quad), Q; reflexivity). split; [exact L|congruence].
Qed.
Print Assumptions C78_short_vectors. Print Assumptions C78_restrict. Print Assumptions C78_valid. Print Assumptions C78_near_partial. Print Assumptions C78_near_kept. Print Assumptions C78_initial_kept.
Print Assumptions C78_near_refuted. Print Assumptions C78_energies. Print Assumptions C78_orthonormal_refuted.
