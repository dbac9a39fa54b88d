(** C40, C41: the basis of pair states.

    [initBasis2 hs hi hf rt energy sys1 sys2 species1 species2 sinv sref sperm srot chosen thr rq] is
    SystemTwo::initializeBasis (PairModel): [rt] is 1/sqrt 2, [sys1], [sys2] the diagonalised one-atom
    systems, [sinv], [sref], [sperm], [srot] the symmetries set by the user, [chosen] the argument of
    setOneAtomBasisvectors, [thr] the threshold for basis vectors, [rq] the restrictions and added
    states.  It returns the states, the basis vectors and the Hamiltonian.
    [exchange_basis], [in_sector], [product_basis], [exchanged], [amp], ...: PairSpec. *)
From Verif Require Import Base StateModel StateProofs Matrix LookupModel LookupProofs SystemModel RangeModel BasisProofs
  SystemProofs OverlapProofs OverlapProofs2 PairModel PairSpec PairProofs PairProofs2 PairProofs3 PairProofs4 PairProofs5 PairProofs6 PairDemo.
From Coq Require Import ZArith Lia Bool String Arith Permutation List.
Import ListNotations.
Set Implicit Arguments.
Local Open Scope nat_scope.
Local Open Scope list_scope.

Section P.
Context {K : StarRing}.
Add Ring Kr13 : (s_ring K).
Local Open Scope star_scope.
Variable hs : string -> N.
Variable hi : Z -> N.
Variable hf : Z -> N.
Variable rt : K.
Variable energy : state1 -> res K.
Variables species1 species2 : string.
Variable thr : K.

(** 1/sqrt 2, and a threshold between 0 and 1 *)
Definition scalars_ok : Prop := sconj rt = rt /\ rt * rt + rt * rt = 1 /\ sltre thr 0 = false /\ sltre thr 1 = true.
Definition all_pairs (rq : @request K state2) : Prop := rq_emin rq = None /\ rq_emax rq = None /\ rq_add rq = [].

(** ** C40 *)
(** Permutation symmetry, whatever the one-atom basis vectors are. *)
Theorem C40_permutation : forall s rq sperm, scalars_ok -> wf_one s -> same_kind s -> orthonormal s -> rq_add rq = [] ->
  sperm <> NA ->
  exists tbl b h, initBasis2 hs hi hf rt energy s s species1 species2 NA NA sperm None [] thr rq = (tbl, Ok (b, h)) /\
    exchange_basis rt s rq thr (fun _ _ => kof (permutation_sign sperm)) (fun i j => i = j -> sperm = ODD) tbl b h.
Proof.
  intros s rq sperm (R1 & R2 & T0 & T1) W SK O A P.
  destruct (@exchange_sector K hs hi hf rt R1 R2 energy s species1 species2 NA sperm None thr T0 T1 rq A W SK O (fun _ => 1%Z) (fun _ => 0%Z)) as (tbl & b & h & E & X); auto; try congruence.
  exists tbl, b, h. split; auto. eapply exchange_basis_ext; [|exact X]. intros i j _ _. unfold in_sector. split.
  - intros (Q & _) Hij. destruct (Q Hij). destruct sperm; congruence.
  - intros Q. split; [|split]; try congruence. intros Hij. rewrite (Q Hij). split; congruence.
Qed.

(** Inversion symmetry, basis vectors of definite parity. *)
Theorem C40_inversion : forall s rq sinv p, scalars_ok -> wf_one s -> same_kind s -> orthonormal s -> rq_add rq = [] ->
  sinv <> NA -> (forall i, (i < List.length (o_cols s))%nat -> parity_of s i (p i)) ->
  exists tbl b h, initBasis2 hs hi hf rt energy s s species1 species2 sinv NA NA None [] thr rq = (tbl, Ok (b, h)) /\
    exchange_basis rt s rq thr (fun i j => kof (inversion_sign sinv p i j)) (fun i j => i = j -> sinv = ODD) tbl b h.
Proof.
  intros s rq sinv p (R1 & R2 & T0 & T1) W SK O A I P.
  destruct (@exchange_sector K hs hi hf rt R1 R2 energy s species1 species2 sinv NA None thr T0 T1 rq A W SK O p (fun _ => 0%Z)) as (tbl & b & h & E & X); auto; try congruence.
  exists tbl, b, h. split; auto.
  assert (Y : exchange_basis rt s rq thr (fun i j => kof (sector_sign sinv NA p i j)) (fun i j => i = j -> sinv = ODD) tbl b h).
  { eapply exchange_basis_ext; [|exact X]. intros i j _ _. unfold in_sector. split.
    - intros (Q & _) Hij. destruct (Q Hij). destruct sinv; congruence.
    - intros Q. split; [|split]; try congruence. intros Hij. rewrite (Q Hij). split; congruence. }
  unfold sector_sign in Y. destruct sinv; [exfalso; congruence|exact Y|exact Y] || destruct sinv; exact Y.
Qed.

(** Inversion, permutation and rotation symmetry combined; basis vectors of definite parity and momentum
    (as far as the symmetry asks for it). *)
Theorem C40_combined : forall s rq sinv sperm srot p m, scalars_ok -> wf_one s -> same_kind s -> orthonormal s -> rq_add rq = [] ->
  (sinv <> NA \/ sperm <> NA) ->
  (sinv <> NA -> forall i, (i < List.length (o_cols s))%nat -> parity_of s i (p i)) ->
  (srot <> None -> forall i, (i < List.length (o_cols s))%nat -> momentum_of s i (m i)) ->
  exists tbl b h, initBasis2 hs hi hf rt energy s s species1 species2 sinv NA sperm srot [] thr rq = (tbl, Ok (b, h)) /\
    exchange_basis rt s rq thr (fun i j => kof (sector_sign sinv sperm p i j)) (in_sector sinv sperm srot p m) tbl b h.
Proof. intros s rq sinv sperm srot p m (R1 & R2 & T0 & T1) W SK O A S P M. apply exchange_sector; auto. Qed.

(** The vectors of a sector are orthonormal. *)
Theorem C40_orthonormal : forall s sinv sperm p, sconj rt = rt -> rt * rt + rt * rt = 1 -> orthonormal s ->
  let v i j := exchanged rt (amp s) (kof (sector_sign sinv sperm p i j)) i j in
  forall i j k q, (i < List.length (o_cols s))%nat -> (k < List.length (o_cols s))%nat -> (j <= i)%nat -> (q <= k)%nat ->
  inner2 (o_states s) (v i j) (v k q) = if Nat.eqb i k && Nat.eqb j q then 1 else 0.
Proof.
  intros s sinv sperm p R1 R2 O v i j k q Hi Hk Hj Hq.
  apply (@exchanged_orthonormal K rt R1 R2 (amp s) (o_states s) _ O (fun i j => kof (sector_sign sinv sperm p i j))); auto.
  intros x y. unfold kof. destruct (Z.ltb _ 0); split; rewrite ?sconj_opp, ?sconj_1; auto; ring.
Qed.

Lemma kof_opp : forall z, z <> 0%Z -> (kof (- z) : K) = - kof z.
Proof. intros z H. unfold kof. destruct (Z.ltb_spec (- z) 0), (Z.ltb_spec z 0); try lia; ring. Qed.

(** The vectors of the two sectors are orthogonal, and the products of the one-atom vectors are
    combinations of the vectors of both sectors. *)
Theorem C40_sectors : forall s sg, sconj rt = rt -> rt * rt + rt * rt = 1 -> orthonormal s ->
  (forall i j, sg i j = 1 \/ sg i j = -1)%Z ->
  let v s' i j := exchanged rt (amp s) (kof (s' * sg i j)%Z) i j in
  (forall i j k q, (i < List.length (o_cols s))%nat -> (k < List.length (o_cols s))%nat -> (j < i)%nat -> (q <= k)%nat ->
     inner2 (o_states s) (v (-1)%Z i j) (v 1%Z k q) = 0) /\
  (forall i j a b, i <> j ->
     amp s i a * amp s j b = rt * (v 1%Z i j a b + v (-1)%Z i j a b) /\
     amp s j a * amp s i b = kof (sg i j) * rt * (v 1%Z i j a b - v (-1)%Z i j a b)) /\
  (forall i a b, v 1%Z i i a b = amp s i a * amp s i b).
Proof.
  intros s sg R1 R2 O S v.
  assert (KK : forall i j, sconj (kof (sg i j) : K) = kof (sg i j) /\ (kof (sg i j) : K) * kof (sg i j) = 1).
  { intros x y. unfold kof. destruct (Z.ltb _ 0); split; rewrite ?sconj_opp, ?sconj_1; auto; ring. }
  assert (V1 : forall i j a b, v 1%Z i j a b = exchanged rt (amp s) (kof (sg i j)) i j a b) by (intros; unfold v; rewrite Z.mul_1_l; auto).
  assert (V2 : forall i j a b, v (-1)%Z i j a b = exchanged rt (amp s) (- kof (sg i j)) i j a b).
  { intros; unfold v. replace (-1 * sg i j)%Z with (- sg i j)%Z by lia. rewrite kof_opp; auto. destruct (S i j); lia. }
  split; [|split].
  - intros i j k q Hi Hk Hj Hq. pose proof (@exchanged_sectors K rt R1 (amp s) (o_states s) _ O (fun i j => kof (sg i j)) KK i j k q Hi Hk Hj Hq) as X.
    rewrite <- X. unfold inner2. apply lsum_ext. intros [a b] _. cbn [fst snd]. rewrite V1, V2. reflexivity.
  - intros i j a b N. rewrite V1, V2. apply exchanged_complete; auto. apply KK.
  - intros i a b. unfold v, exchanged. rewrite Nat.eqb_refl. reflexivity.
Qed.

(** The vectors have the declared symmetry under exchange of the atoms. *)
Theorem C40_exchange : forall s sg i j a b, (sg = 1 \/ sg = -1)%Z -> i <> j ->
  exchanged rt (amp s) (kof sg) i j b a = kof sg * exchanged rt (amp s) (kof sg) i j a b.
Proof.
  intros s sg i j a b S N. apply exchanged_swap; auto. unfold kof. destruct (Z.ltb _ 0); ring.
Qed.

(** Both sectors together have as many vectors as the product space has dimensions. *)
Lemma count_pairs : forall n pe po, NoDup pe -> NoDup po -> (forall i j, In (i, j) pe <-> (i < n /\ j < i)%nat) ->
  (forall i j, In (i, j) po <-> (i < n /\ j <= i)%nat) -> (List.length pe + List.length po = n * n)%nat.
Proof.
  intros n pe po Ne No He Ho. transitivity (List.length (map (fun p => (snd p, fst p)) pe ++ po)%list).
  { rewrite app_length, map_length. reflexivity. }
  transitivity (List.length (list_prod (seq 0 n) (seq 0 n))); [|rewrite prod_length, seq_length; reflexivity].
  apply Permutation_length. apply NoDup_Permutation.
  - apply NoDup_app_; auto.
    + apply FinFun.Injective_map_NoDup; auto. intros [a b] [c d] E. cbn in E. congruence.
    + intros [i j] H1 H2. apply in_map_iff in H1. destruct H1 as ([k q] & E & H1). cbn in E. injection E as <- <-. apply He in H1. apply Ho in H2. lia.
  - apply nodup_list_prod; apply seq_NoDup.
  - intros [i j]. rewrite in_app_iff, in_prod_iff, !in_seq, in_map_iff, Ho. split.
    + intros [([k q] & E & H)|H]; [cbn in E; injection E as <- <-; apply He in H|]; lia.
    + intros H. destruct (le_lt_dec j i); [right; lia|left]. exists (j, i). split; auto. apply He. lia.
Qed.

Theorem C40_union : forall s rq sg sg' tbl b h tbl' b' h', all_pairs rq ->
  exchange_basis rt s rq thr sg (fun i j => i <> j) tbl b h ->
  exchange_basis rt s rq thr sg' (fun i j => True) tbl' b' h' ->
  (nc b + nc b' = List.length (o_cols s) * List.length (o_cols s))%nat.
Proof.
  intros s rq sg sg' tbl b h tbl' b' h' (A1 & A2 & _) (pe & Ne & Ie & R) (po & No & Io & R').
  destruct R as (_ & _ & _ & _ & _ & C & _). destruct R' as (_ & _ & _ & _ & _ & C' & _). rewrite C, C'.
  assert (W : forall e, in_window rq e) by (intros e; split; intros x Hx; congruence).
  apply count_pairs; auto.
  - intros i j. rewrite Ie. split; intros H; [lia|]. split; [lia|]. split; [lia|]. split; [lia|apply W].
  - intros i j. rewrite Io. split; intros H; [lia|]. split; [lia|]. split; [lia|]. split; [auto|apply W].
Qed.

Corollary C40_permutation_union : forall s rq, scalars_ok -> wf_one s -> same_kind s -> orthonormal s -> all_pairs rq ->
  exists tbl b h tbl' b' h',
    initBasis2 hs hi hf rt energy s s species1 species2 NA NA EVEN None [] thr rq = (tbl, Ok (b, h)) /\
    initBasis2 hs hi hf rt energy s s species1 species2 NA NA ODD None [] thr rq = (tbl', Ok (b', h')) /\
    (nc b + nc b' = List.length (o_cols s) * List.length (o_cols s))%nat.
Proof.
  intros s rq Sc W SK O A. destruct (@C40_permutation s rq EVEN Sc W SK O) as (tbl & b & h & E & X); [apply A|congruence|].
  destruct (@C40_permutation s rq ODD Sc W SK O) as (tbl' & b' & h' & E' & X'); [apply A|congruence|].
  exists tbl, b, h, tbl', b', h'. split; auto. split; auto.
  eapply (@C40_union s rq _ _ tbl b h tbl' b' h' A).
  - eapply exchange_basis_ext; [|exact X]. intros i j _ _. split; intros H; [intro Q; specialize (H Q); congruence|congruence].
  - eapply exchange_basis_ext; [|exact X']. intros i j _ _. split; auto.
Qed.

Corollary C40_inversion_union : forall s rq p, scalars_ok -> wf_one s -> same_kind s -> orthonormal s -> all_pairs rq ->
  (forall i, (i < List.length (o_cols s))%nat -> parity_of s i (p i)) ->
  exists tbl b h tbl' b' h',
    initBasis2 hs hi hf rt energy s s species1 species2 EVEN NA NA None [] thr rq = (tbl, Ok (b, h)) /\
    initBasis2 hs hi hf rt energy s s species1 species2 ODD NA NA None [] thr rq = (tbl', Ok (b', h')) /\
    (nc b + nc b' = List.length (o_cols s) * List.length (o_cols s))%nat.
Proof.
  intros s rq p Sc W SK O A P. destruct (@C40_inversion s rq EVEN p Sc W SK O) as (tbl & b & h & E & X); [apply A|congruence|auto|].
  destruct (@C40_inversion s rq ODD p Sc W SK O) as (tbl' & b' & h' & E' & X'); [apply A|congruence|auto|].
  exists tbl, b, h, tbl', b', h'. split; auto. split; auto.
  eapply (@C40_union s rq _ _ tbl b h tbl' b' h' A).
  - eapply exchange_basis_ext; [|exact X]. intros i j _ _. split; intros H; [intro Q; specialize (H Q); congruence|congruence].
  - eapply exchange_basis_ext; [|exact X']. intros i j _ _. split; auto.
Qed.

(** Exchange symmetry and states added by addStates: if a pair of different one-atom states is added without its exchanged partner, the
    request is refused. *)
Lemma loop2_stop : forall X (f : X -> @acc2 K -> @acc2 K * res unit) x, (forall c, snd (f x c) <> Ok tt) ->
  forall xs c, In x xs -> snd (loop2 f xs c) <> Ok tt.
Proof.
  intros X f x Hx. induction xs as [|y xs IH]; intros c I; [destruct I|]. cbn [loop2]. destruct I as [->|I].
  - specialize (Hx c). destruct (f x c) as [c1 [[]| |]]; cbn in *; congruence.
  - destruct (f y c) as [c1 [[]| |]]; cbn; try discriminate. apply IH; assumption.
Qed.
Theorem C40_user_partner : forall s1 s2 rq sinv sref sperm chosen x tbl r,
  In x (rq_add rq) -> neq1 (fst1 x) (snd1 x) = true -> (forall y, In y (rq_add rq) -> eq2 (mkTwo_pair (snd1 x) (fst1 x)) y = false) ->
  (sinv = NA /\ sperm <> NA) \/ (sinv <> NA /\ sperm = NA /\ isArtificial (fst1 x) = false /\ isArtificial (snd1 x) = false) ->
  initBasis2 hs hi hf rt energy s1 s2 species1 species2 sinv sref sperm None chosen thr rq <> (tbl, Ok r).
Proof.
  intros s1 s2 rq sinv sref sperm chosen x tbl r I D N Sy H.
  assert (Ex : existsb (eq2 (mkTwo_pair (snd1 x) (fst1 x))) (rq_add rq) = false).
  { destruct (existsb _ _) eqn:E; [|reflexivity]. apply existsb_exists in E as (y & Iy & Ey). rewrite (N y Iy) in Ey. discriminate. }
  assert (X : forall c, snd (user_step rt energy sinv sperm None rq x c) <> Ok tt).
  { intro c. unfold user_step. destruct (user_energy energy x) as [e| |]; cbn [snd]; try discriminate. rewrite D, Ex.
    destruct Sy as [[-> P]|(P & -> & Ha & Hb)]; [|rewrite Ha, Hb].
    - destruct (isArtificial (fst1 x) || isArtificial (snd1 x)); destruct sperm; try congruence; cbn; discriminate.
    - destruct sinv; try congruence; cbn; discriminate. }
  unfold initBasis2 in H.
  match type of H with context [loop2 ?f ?ps ?c0] => destruct (loop2 f ps c0) as [c1 [[]| |]]; try discriminate H end.
  match type of H with context [loop2 ?f (rq_add rq) c1] => destruct (loop2 f (rq_add rq) c1) as [c2 [[]| |]]; try discriminate H end.
  pose proof (@loop2_stop _ _ x X (rq_add rq) c2 I) as Y.
  destruct (loop2 (user_step rt energy sinv sperm None rq) (rq_add rq) c2) as [c3 [[]| |]]; try discriminate H. apply Y. reflexivity.
Qed.

(** ** C41 *)
(** A list with a repeated pair is rejected and the old list is kept; any other list is stored. *)
Theorem C41_accepted : forall ps old, setOneAtomBasisvectors ps old = (ps, Ok tt) /\ NoDup ps \/
  setOneAtomBasisvectors ps old = (old, Throw) /\ ~ NoDup ps.
Proof.
  intros ps old. unfold setOneAtomBasisvectors.
  assert (X : idx_unique ps = true <-> NoDup ps).
  { induction ps as [|p ps IH]; cbn [idx_unique]; [split; [constructor|auto]|]. rewrite andb_true_iff, IH, negb_true_iff. split.
    - intros [N U]. constructor; auto. intro I. apply not_true_iff_false in N. apply N. apply existsb_exists. exists p. split; auto. unfold idx_eqb. rewrite !Nat.eqb_refl. reflexivity.
    - intros H. inversion H; subst. split; auto. apply not_true_iff_false. intro Q. apply existsb_exists in Q. destruct Q as ([a b] & Hq & Eq).
      unfold idx_eqb in Eq. apply andb_true_iff in Eq. destruct Eq as [E1 E2]. apply Nat.eqb_eq in E1, E2. destruct p as [c d]. cbn in *. subst. contradiction. }
  destruct (idx_unique ps); [left|right]; split; auto; [apply X; auto|]. intro N. apply X in N. discriminate.
Qed.

(** Without symmetries, the basis vectors are exactly the products of the chosen pairs, in the given order, that the
    energy restriction admits. *)
Theorem C41_exact : forall s1 s2 ps rq, scalars_ok -> wf_one s1 -> wf_one s2 -> kinds_fit s1 s2 -> orthonormal s1 -> orthonormal s2 ->
  rq_add rq = [] -> ps <> [] -> in_range s1 s2 ps ->
  exists tbl b h f, initBasis2 hs hi hf rt energy s1 s2 species1 species2 NA NA NA None ps thr rq = (tbl, Ok (b, h)) /\
    (forall i j, f (i, j) = true <-> in_window rq (nth i (o_en s1) 0 + nth j (o_en s2) 0)) /\
    product_basis s1 s2 thr (filter f ps) tbl b h.
Proof.
  intros s1 s2 ps rq (R1 & R2 & T0 & T1) W1 W2 KF O1 O2 A Ne IR. assert (PP : pairs s1 s2 ps = ps) by (destruct ps; [congruence|reflexivity]).
  destruct (@product_core K hs hi hf rt energy s1 s2 species1 species2 ps thr T0 T1 rq A W1 W2 KF O1 O2) as (tbl & b & h & E & X); [rewrite PP; auto|].
  rewrite PP in X. exists tbl, b, h, (validP s1 s2 rq). split; auto. split; auto. intros i j. eapply validP_iff; eauto.
Qed.

(** Without a choice and without symmetries, all products. *)
Theorem C41_default : forall s1 s2 rq, scalars_ok -> wf_one s1 -> wf_one s2 -> kinds_fit s1 s2 -> orthonormal s1 -> orthonormal s2 ->
  rq_add rq = [] ->
  exists tbl b h f, initBasis2 hs hi hf rt energy s1 s2 species1 species2 NA NA NA None [] thr rq = (tbl, Ok (b, h)) /\
    (forall i j, f (i, j) = true <-> in_window rq (nth i (o_en s1) 0 + nth j (o_en s2) 0)) /\
    product_basis s1 s2 thr (filter f (list_prod (seq 0 (List.length (o_cols s1))) (seq 0 (List.length (o_cols s2))))) tbl b h.
Proof.
  intros s1 s2 rq (R1 & R2 & T0 & T1) W1 W2 KF O1 O2 A.
  destruct (@product_core K hs hi hf rt energy s1 s2 species1 species2 [] thr T0 T1 rq A W1 W2 KF O1 O2) as (tbl & b & h & E & X).
  { intros i j H. cbn in H. apply in_prod_iff in H. rewrite !in_seq in H. lia. }
  exists tbl, b, h, (validP s1 s2 rq). split; auto. split; auto. intros i j. eapply validP_iff; eauto.
Qed.

(** An index that does not exist is not noticed. *)
Theorem C85_pair_index_refuted : forall s1 s2 i j ps rq, (List.length (o_cols s1) <= i)%nat ->
  snd (setOneAtomBasisvectors [(i, j)] ps) = Ok tt /\
  snd (initBasis2 hs hi hf rt energy s1 s2 species1 species2 NA NA NA None [(i, j)] thr rq) = UB.
Proof.
  intros s1 s2 i j ps rq H. split; [reflexivity|]. unfold initBasis2. cbn [pairs loop2].
  assert (N : nth_error (o_cols s1) i = None) by (apply nth_error_None; auto).
  assert (Q : forall c, pair_step hs hi hf rt s1 s2 NA NA NA None rq (i, j) c = (c, UB)) by (intros c; unfold pair_step; rewrite N; reflexivity).
  rewrite Q. reflexivity.
Qed.

(** An empty list means all pairs. *)
Theorem C41_empty_refuted : forall s1 s2 old rq,
  setOneAtomBasisvectors [] old = ([], Ok tt) /\
  initBasis2 hs hi hf rt energy s1 s2 species1 species2 NA NA NA None [] thr rq =
  match list_prod (seq 0 (List.length (o_cols s1))) (seq 0 (List.length (o_cols s2))) with
  | [] => initBasis2 hs hi hf rt energy s1 s2 species1 species2 NA NA NA None [] thr rq
  | l => initBasis2 hs hi hf rt energy s1 s2 species1 species2 NA NA NA None l thr rq
  end.
Proof.
  intros s1 s2 old rq. split; [reflexivity|]. destruct (list_prod _ _) eqn:E; [reflexivity|]. unfold initBasis2. cbn [pairs]. rewrite E. reflexivity.
Qed.
End P.

(** ** Examples and counterexamples, with the scalars a + b sqrt 2 *)
Local Open Scope nat_scope.
Lemma scalars_demo : @scalars_ok R2 half_sqrt thr2.
Proof. unfold scalars_ok. split; [reflexivity|]. split; [apply injective_projections; apply Qcanon.Qc_is_canon; vm_compute; reflexivity|]. split; vm_compute; reflexivity. Qed.

Lemma r2_eq : forall x y : r2, QArith_base.Qeq (Qcanon.this (fst x)) (Qcanon.this (fst y)) -> QArith_base.Qeq (Qcanon.this (snd x)) (Qcanon.this (snd y)) -> x = y.
Proof. intros [a b] [c d] H1 H2. apply injective_projections; apply Qcanon.Qc_is_canon; auto. Qed.

(** The result is undefined behaviour. *)
Definition is_UB (r : list (nat * state2) * res (mat R2 * mat R2)) : bool := match snd r with UB => true | _ => false end.
Definition demo_p (i : nat) : Z := if Nat.eqb i 1 then (-1)%Z else 1%Z.
Lemma demo_wf : wf_one mixedSD /\ same_kind mixedSD /\ orthonormal mixedSD /\ (forall i, i < 3 -> parity_of mixedSD i (demo_p i)).
Proof.
  split; [|split; [|split]].
  - split; [|split; [reflexivity|]].
    + repeat constructor.
    + intros col H. cbn in H. destruct H as [<-|[<-|[<-|[]]]]; (split; [cbn; repeat constructor; cbn; intuition lia|intros e He; cbn in He; repeat destruct He as [<-|He]; cbn; try lia; destruct He]).
  - intros a b Ha Hb _ _. cbn in Ha, Hb. destruct Ha as [<-|[<-|[<-|[]]]]; destruct Hb as [<-|[<-|[<-|[]]]]; reflexivity.
  - intros i k Hi Hk. cbn in Hi, Hk. destruct i as [|[|[|i]]]; [| | |lia]; destruct k as [|[|[|k]]]; try lia; apply r2_eq; vm_compute; reflexivity.
  - intros i Hi. destruct i as [|[|[|i]]]; [| | |lia]; (split; [cbn; auto|]); intros e st0 He E; cbn in He; repeat destruct He as [<-|He]; try destruct He; cbn in E; injection E as <-; split; reflexivity.
Qed.

(** The hypotheses of C40 are met by a system in which S and D are mixed; the two sectors have 3 and 6 basis vectors. *)
Example C40_nonvacuous : @scalars_ok R2 half_sqrt thr2 /\ wf_one mixedSD /\ same_kind mixedSD /\ orthonormal mixedSD /\
  (forall i, i < List.length (o_cols mixedSD) -> parity_of mixedSD i (demo_p i)) /\ all_pairs free2 /\
  List.length (lengths (run2 mixedSD mixedSD EVEN NA NA None [])) = 3 /\
  List.length (lengths (run2 mixedSD mixedSD ODD NA NA None [])) = 6 /\
  List.length (lengths (run2 mixedSD mixedSD EVEN NA ODD None [])) = 2 /\
  List.length (lengths (run2 mixedSD mixedSD NA NA EVEN None [])) = 3.
Proof.
  split; [apply scalars_demo|]. destruct demo_wf as (A & B & C & D). split; auto. split; auto. split; auto. split; [exact D|].
  split; [split; [reflexivity|split; reflexivity]|]. split; [vm_compute; reflexivity|]. split; [vm_compute; reflexivity|]. split; vm_compute; reflexivity.
Qed.

(** SP without PS: refused; both: one more basis vector in each sector. *)
Definition run_added (l : list state2) (sperm : parity) :=
  initBasis2 (K:=R2) h0 h0 h0 half_sqrt (fun _ => Ok (@Matrix.s0 R2)) (pure [sS]) (pure [sS]) "Rb" "Rb" NA NA sperm None [] thr2 (Request (K:=R2) (State:=state2) (Ranges [] [] [] []) None None l).
Definition verdict (r : list (nat * state2) * res (mat R2 * mat R2)) : option nat := match snd r with Ok (b, _) => Some (nc b) | _ => None end.
Example C40_user_nonvacuous : let sp := mkTwo_pair sS sP in let ps := mkTwo_pair sP sS in
  neq1 (fst1 sp) (snd1 sp) = true /\ eq2 (mkTwo_pair (snd1 sp) (fst1 sp)) sp = false /\
  verdict (run_added [sp] ODD) = None /\ verdict (run_added [sp; ps] ODD) = Some 2 /\ verdict (run_added [sp; ps] EVEN) = Some 1.
Proof. repeat split; vm_compute; reflexivity. Qed.

Example C41_nonvacuous : in_range mixedSD (pure [sS; sP]) [(2, 0); (0, 1)] /\ kinds_fit mixedSD (pure [sS; sP]) /\
  wf_one (pure [sS; sP]) /\ orthonormal (pure [sS; sP]) /\
  List.length (lengths (run2 mixedSD (pure [sS; sP]) NA NA NA None [(2, 0); (0, 1)])) = 2.
Proof.
  split. { intros i j [E|[E|[]]]; injection E as <- <-; cbn; lia. }
  split. { intros a b Ha Hb _ _. cbn in Ha, Hb. destruct Ha as [<-|[<-|[<-|[]]]]; destruct Hb as [<-|[<-|[]]]; reflexivity. }
  split. { split; [|split; [reflexivity|]].
    - repeat constructor.
    - intros col H. cbn in H. destruct H as [<-|[<-|[]]]; (split; [cbn; repeat constructor; cbn; intuition lia|intros e He; cbn in He; repeat destruct He as [<-|He]; cbn; try lia; destruct He]). }
  split. { intros i k Hi Hk. cbn in Hi, Hk. destruct i as [|[|i]]; [| |lia]; destruct k as [|[|k]]; try lia; apply r2_eq; vm_compute; reflexivity. }
  vm_compute; reflexivity.
Qed.

(** Inversion symmetry of basis vectors without definite parity (Stark effect), nothing throws: the basis vector of the
    pair (1,0) has squared length 2 in the ODD sector and is missing in the EVEN sector. *)
Theorem C94_mixed_parity_refuted :
  orthonormal stark /\ wf_one stark /\
  map (fun x => Qcanon.this (fst x)) (lengths (run2 stark stark ODD NA NA None [])) =
    [QArith_base.Qmake 1 1; QArith_base.Qmake 2 1; QArith_base.Qmake 1 1] /\
  lengths (run2 stark stark EVEN NA NA None []) = [] /\
  match snd (run2 stark stark EVEN NA NA None []) with Ok _ => true | _ => false end = true.
Proof.
  split. { intros i k Hi Hk. cbn in Hi, Hk. destruct i as [|[|i]]; [| |lia]; destruct k as [|[|k]]; try lia; apply r2_eq; vm_compute; reflexivity. }
  split. { split; [|split; [reflexivity|]].
    - repeat constructor.
    - intros col H. cbn in H. destruct H as [<-|[<-|[]]]; (split; [cbn; repeat constructor; cbn; intuition lia|intros e He; cbn in He; repeat destruct He as [<-|He]; cbn; try lia; destruct He]). }
  split; [vm_compute; reflexivity|]. split; [vm_compute; reflexivity|].
  vm_compute. reflexivity.
Qed.

(** Permutation symmetry of two different one-atom systems is not rejected: exchanged states do not fit
    into the list of weights, which is written out of bounds. *)
Theorem C94_different_systems_refuted : is_UB (run2 (pure [sS; sP; sD]) (pure [sS]) NA NA ODD None []) = true.
Proof. vm_compute. reflexivity. Qed.

(** Reflection symmetry of pairs of basis vectors that are not reflection symmetric: four vectors of squared length 1/2 in each
    sector, of which two are repeated; out of bounds if the mirror images are not in the one-atom basis. *)
Theorem C94_reflection_refuted :
  map (fun x => Qcanon.this (fst x)) (lengths (run2 (pure [sS; sSm]) (pure [sS; sSm]) NA EVEN NA None [])) =
    [QArith_base.Qmake 1 2; QArith_base.Qmake 1 2; QArith_base.Qmake 1 2; QArith_base.Qmake 1 2] /\
  (let o := QArith_base.Qmake 0 1 in let h := QArith_base.Qmake 1 2 in let mh := QArith_base.Qmake (-1) 2 in
   map (map (fun x => Qcanon.this (fst x))) (rows2 (run2 (pure [sS; sSm]) (pure [sS; sSm]) NA EVEN NA None [])) =
   [[h; o; o; h]; [h; o; o; h]; [o; h; mh; o]; [o; mh; h; o]]) /\
  is_UB (run2 (pure [sS]) (pure [sS]) NA EVEN NA None []) = true.
Proof.
  split; [vm_compute; reflexivity|]. split; vm_compute; reflexivity.
Qed.

(** Inversion symmetry and artificial states: every pair is in both sectors. *)
Theorem C94_artificial_refuted :
  List.length (lengths (run2 (pure [arti "a"; arti "b"]) (pure [arti "a"; arti "b"]) EVEN NA NA None [])) = 4 /\
  List.length (lengths (run2 (pure [arti "a"; arti "b"]) (pure [arti "a"; arti "b"]) ODD NA NA None [])) = 4.
Proof. split; vm_compute; reflexivity. Qed.

(** An atom with half-integer and one with integer j: pow(-1, 1/2) is converted to int, with or without symmetries. *)
Definition singlet : state1 := St1 "Sr1" "Sr" 10 0 0 0 0 0.
Theorem C94_half_integer_refuted : is_UB (run2 (pure [sS]) (pure [singlet]) NA NA NA None []) = true.
Proof. vm_compute. reflexivity. Qed.

(** With permutation symmetry a chosen pair (i, j), i < j, is dropped. *)
Theorem C94_dropped_refuted :
  setOneAtomBasisvectors [(0, 1)] [] = ([(0, 1)], Ok tt) /\
  lengths (run2 (pure [sS; sP]) (pure [sS; sP]) NA NA ODD None [(0, 1)]) = [] /\
  List.length (lengths (run2 (pure [sS; sP]) (pure [sS; sP]) NA NA ODD None [(1, 0)])) = 1.
Proof. split; [reflexivity|]. split; vm_compute; reflexivity. Qed.

Print Assumptions C40_user_partner. Print Assumptions C40_permutation. Print Assumptions C40_inversion. Print Assumptions C40_combined. Print Assumptions C40_orthonormal.
Print Assumptions C40_sectors. Print Assumptions C40_exchange. Print Assumptions C40_union. Print Assumptions C40_permutation_union.
Print Assumptions C40_inversion_union. Print Assumptions C94_mixed_parity_refuted. Print Assumptions C94_different_systems_refuted.
Print Assumptions C94_reflection_refuted. Print Assumptions C94_artificial_refuted. Print Assumptions C94_half_integer_refuted.
Print Assumptions C41_accepted. Print Assumptions C41_exact. Print Assumptions C41_default. Print Assumptions C85_pair_index_refuted.
Print Assumptions C41_empty_refuted. Print Assumptions C94_dropped_refuted.
