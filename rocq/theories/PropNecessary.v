(** C77: the list of the necessary pair states of the command line program (HamiltonianTwo.cpp:345-387).  The interaction is
    calculated only between the states of this list. *)
From Coq Require Import ZArith Lia Bool List QArith Qcanon.
Import ListNotations.
From Verif Require Import Base Matrix PairDemo BasisnamesModel CombineModel CombineSpec NecessaryModel NecessarySpec CombineDemo
  CombineProofs CombineProofs2 CombineProofs3 CombineProofs4 NecessaryProofs NecessaryProofs2 PropCombine PropCombine2.
Set Implicit Arguments.
Local Open Scope nat_scope.

Lemma accepted_fits : forall sametrafo initpar sym t, accepted sametrafo initpar sym t = true <-> fits sametrafo initpar sym (fst_ t) (snd_ t).
Proof.
  intros sametrafo initpar sym t. unfold accepted, fits. rewrite andb_true_iff, !negb_true_iff.
  assert (A : match rot sym with Some R => negb (2 * R =? mm (fst_ t) + mm (snd_ t))%Z && (negb (used (ref sym)) || negb (2 * R =? - (mm (fst_ t) + mm (snd_ t)))%Z) | None => false end = false <->
    (forall R, rot sym = Some R -> mm (fst_ t) + mm (snd_ t) = 2 * R \/ (ref sym <> NA /\ mm (fst_ t) + mm (snd_ t) = - 2 * R))%Z).
  { destruct (rot sym) as [R|]; [|split; auto; discriminate]. rewrite andb_false_iff, orb_false_iff, !negb_false_iff, !Z.eqb_eq. split.
    - intros H R' E. injection E as <-. destruct H as [H|[U H]]; [left; lia|right]. split; [destruct (ref sym); [discriminate U|discriminate..]|lia].
    - intros H. destruct (H R eq_refl) as [E|[U E]]; [left; lia|right]. split; [destruct (ref sym); [congruence|reflexivity..]|lia]. }
  rewrite A. apply and_iff_compat_l. rewrite !andb_false_iff, negb_false_iff, Z.eqb_eq.
  destruct (inv sym), (per sym), sametrafo; cbn; split; intros H; try tauto; try (intros; congruence); try (intros; discriminate);
    try (right; left; apply H; congruence); try (left; right; apply H; discriminate);
    intuition (try discriminate; try congruence).
Qed.

(** A pair state is on the list exactly if it has an entry in a product of basis vectors within the energy cutoff, at some step, and
    fits to one of the symmetries. *)
Theorem C77_exact : forall (K : StarRing) (keep : K -> bool) sametrafo initpar syms b1 b2 start steps,
  small b1 b2 -> (forall lhs rhs, In (lhs, rhs) steps -> over lhs b1 /\ over rhs b2) ->
  exists m, necessary keep sametrafo initpar syms (names2 (build2 start b1 b2)) steps = Ok m /\
    length m = length (names1 b1) * length (names1 b2) /\
    forall r, nth r m false = true <->
      (exists lhs rhs, In (lhs, rhs) steps /\ touched keep lhs rhs r) /\
      (exists sym s t, In sym syms /\ states_at b1 b2 r s t /\ fits sametrafo initpar sym s t).
Proof.
  intros K keep sametrafo initpar syms b1 b2 start steps SM O. unfold necessary. set (names := names2 (build2 start b1 b2)).
  assert (L : length names = length (names1 b1) * length (names1 b2)) by apply names_length'.
  destruct (@all_steps_ok K keep steps b1 b2 (repeat false (length names)) O) as (tmp & E & Lt & Nt); [rewrite repeat_length; exact L|]. rewrite E. cbn [bind].
  rewrite repeat_length in Lt.
  destruct (@necessary_loop_ok sametrafo initpar syms tmp names (repeat false (length names))) as (m & Em & Lm & Nm).
  { intros t Ht. rewrite Lt, repeat_length. destruct (@names_lt b1 b2 start SM t Ht). auto. }
  { apply names_nodup; auto. }
  exists m. split; [exact Em|]. rewrite repeat_length in Lm. split; [congruence|].
  assert (Z : forall r n, nth r (repeat false n) false = true -> False).
  { intros r n H. destruct (Nat.lt_ge_cases r n) as [B|B]; [rewrite nth_repeat in H; discriminate H|rewrite nth_overflow in H; [discriminate H|rewrite repeat_length; exact B]]. }
  intros r. rewrite Nm. split.
  - intros [(t & I & R & A & T)|[H _]]; [|destruct (Z _ _ H)]. split; [apply Nt in T; destruct T as [T|T]; [destruct (Z _ _ T)|exact T]|].
    apply existsb_exists in A. destruct A as (sym & Is & A). apply accepted_fits in A. apply (@in_names' b1 b2 start SM) in I. destruct I as (r' & s & u & B & -> & E1 & E2).
    cbn [idx2 fst_ snd_] in *. rewrite Nat2Z.id in R. subst r'. exists sym, s, u. split; [exact Is|]. split; [split; assumption|exact A].
  - intros ((lhs & rhs & I & T) & sym & s & t & Is & [S1 S2] & F). left.
    assert (B : (r < length (names1 b1) * length (names1 b2))%nat).
    { destruct (O _ _ I) as [O1 O2]. pose proof (touched_lt O1 O2 T) as B. destruct O1 as [A1 _], O2 as [A2 _]. rewrite A1, A2 in B. exact B. }
    exists (Two (Z.of_nat r) s t). split; [apply in_names'; auto; exists r, s, t; auto|]. cbn [idx2]. rewrite Nat2Z.id. split; [reflexivity|]. split.
    + apply existsb_exists. exists sym. split; [exact Is|]. apply accepted_fits. exact F.
    + apply Nt. right. exists lhs, rhs. auto.
Qed.

Lemma sum_pos : forall n i k, k < n -> (n * i + k) / n = i /\ (n * i + k) mod n = k.
Proof.
  intros n i k H. split.
  - symmetry. apply (Nat.div_unique _ n i k); auto.
  - symmetry. apply (Nat.mod_unique _ n i k); auto.
Qed.
Lemma sg_pm : forall x, sg x = 1%Z \/ sg x = (-1)%Z. Proof. intros. unfold sg. destruct (Z.even x); auto. Qed.

(** Every pair state that has an amplitude in a basis vector of a block without reflection symmetry is on the list.  (Inversion and
    permutation are symmetries of equal atoms.  If both are used and the initial state is to be kept, the blocks are those of the
    parity of the initial state, see C77_blocks, and the one-atom basis vectors must have a parity.) *)
Theorem C77_covers : forall (K : StarRing) (rt : K) keep sametrafo initpar syms b1 b2 start steps lhs rhs sym m M,
  small b1 b2 -> (forall lhs rhs, In (lhs, rhs) steps -> over lhs b1 /\ over rhs b2) ->
  In (lhs, rhs) steps -> In sym syms -> ref sym = NA ->
  (inv sym <> NA \/ per sym <> NA -> lhs = rhs /\ b1 = b2) ->
  (inv sym <> NA -> per sym <> NA -> sametrafo = true -> initpar = (pnum (inv sym) * pnum (per sym))%Z /\
     exists q, forall k, k < dim lhs -> definite lhs b1 (fun s => sg (l_ s)) k (q k)) ->
  necessary keep sametrafo initpar syms (names2 (build2 start b1 b2)) steps = Ok m ->
  combine rt keep lhs rhs (names2 (build2 start b1 b2)) sym = Ok M ->
  forall k r, k < dim M -> bvec M k r <> s0 -> nth r m false = true.
Proof.
  intros K rt keep sametrafo initpar syms b1 b2 start steps lhs rhs sym m M SM O I Is R0 Same Par Em EM k r Hk Nz.
  destruct (@C77_exact K keep sametrafo initpar syms b1 b2 start steps SM O) as (m' & Em' & _ & X). rewrite Em in Em'. injection Em' as <-. apply X. clear X.
  destruct (O _ _ I) as [O1 O2]. pose proof O1 as (L1 & _ & A1). pose proof O2 as (L2 & _ & A2).
  destruct (@combine_rows K rt keep lhs rhs _ sym M k r R0 EM Hk Nz) as (c1 & c2 & e1 & e2 & t & B1 & B2 & Sk & Kp & I1 & I2 & Nt & Rt & Pt & Fr).
  destruct (A1 _ (nth_In (bcols lhs) [] B1)) as [_ F1]. destruct (A2 _ (nth_In (bcols rhs) [] B2)) as [_ F2]. specialize (F1 _ I1). specialize (F2 _ I2).
  set (row := (coords rhs * fst e1 + fst e2)%nat) in *.
  assert (Br : (row < length (names1 b1) * length (names1 b2))%nat) by (rewrite <- L1, <- L2; subst row; clear - F1 F2; nia).
  destruct (@name_at b1 b2 start SM row Br) as (s & u & S1 & S2 & Et). rewrite Et in Nt. injection Nt as <-. cbn [fst_ snd_] in *.
  destruct (@sum_pos (coords rhs) (fst e1) (fst e2) F2) as [D1 D2]. fold row in D1, D2. rewrite <- L2, D1 in S1. rewrite <- L2, D2 in S2.
  assert (Fit : fits sametrafo initpar sym s u).
  { split; [intros R ER; left; symmetry; apply Rt; exact ER|]. intros Ni Np St. destruct (Par Ni Np St) as (Ei & q & Q).
    destruct (Same (or_introl Ni)) as [<- <-]. destruct (Nat.eq_dec c1 c2) as [<-|Ne].
    - assert (Ps : inv sym = ODD /\ per sym = ODD).
      { unfold skipped in Sk. apply orb_false_iff in Sk. destruct (inv sym), (per sym); try congruence; destruct Sk as [Sk1 Sk2]; rewrite ?Nat.leb_refl in *; try discriminate; auto. }
      destruct Ps as [Pi Pp]. rewrite Ei, Pi, Pp. rewrite sg_add, (Q _ B1 e1 s I1 S1), (Q _ B1 e2 u I2 S2). cbn. rewrite <- (Q _ B1 e1 s I1 S1). destruct (sg_pm (l_ s)) as [->| ->]; reflexivity.
    - assert (U1 : used (inv sym) = true) by (destruct (inv sym); [destruct Ni|..]; reflexivity). assert (U2 : used (per sym) = true) by (destruct (per sym); [destruct Np|..]; reflexivity).
      specialize (Pt U1 U2 Ne). rewrite Ei. unfold invsign, persign in Pt. destruct (inv sym), (per sym); try (exfalso; congruence); cbn; cbn in Pt; lia. }
  assert (Comm : forall x y : K, sadd x y = sadd y x) by (intros; apply (Ring_theory.Radd_comm (s_ring K))).
  destruct Fr as [->|[U ->]].
  - split; [exists lhs, rhs; split; [exact I|]; exists c1, c2, e1, e2; auto 10|]. exists sym, s, u. split; [exact Is|]. split; [|exact Fit].
    unfold states_at. rewrite <- L2, D1, D2. auto.
  - destruct Same as [<- <-]; [destruct U as [U|U]; [left|right]; intros E; rewrite E in U; discriminate U|].
    split; [exists lhs, lhs; split; [exact I|]; exists c2, c1, e2, e1; rewrite (Comm (energy lhs c2)); auto 10|].
    destruct (@sum_pos (coords lhs) (fst e2) (fst e1) F1) as [D3 D4]. exists sym, u, s. split; [exact Is|]. split.
    + unfold states_at. rewrite <- L2, D3, D4. auto.
    + destruct Fit as [Fa Fb]. split; [intros R ER; rewrite (Z.add_comm (mm u)); auto|]. intros a b c. rewrite Z.add_comm. auto.
Qed.


Section Entries.
Variable K : StarRing.
Lemma entry_or_zero : forall (h : hmat K) k i, (exists e, In e (nth k (bcols h) []) /\ fst e = i) \/ bvec h k i = s0.
Proof.
  intros h k i. destruct (existsb (fun e => Nat.eqb (fst e) i) (nth k (bcols h) [])) eqn:X.
  - left. apply existsb_exists in X. destruct X as (e & I & E). apply Nat.eqb_eq in E. eauto.
  - right. apply coef_out. intros e I E. assert (Y : existsb (fun e => Nat.eqb (fst e) i) (nth k (bcols h) []) = true) by (apply existsb_exists; exists e; split; auto; apply Nat.eqb_eq; auto). congruence.
Qed.
Add Ring KRingN : (s_ring K).
Lemma kron_entry : forall (lhs rhs : hmat K) n2 c1 c2 r, (exists e1 e2, In e1 (nth c1 (bcols lhs) []) /\ In e2 (nth c2 (bcols rhs) []) /\ fst e1 = r / n2 /\ fst e2 = r mod n2) \/
  kron n2 (bvec lhs c1) (bvec rhs c2) r = s0.
Proof.
  intros lhs rhs n2 c1 c2 r. destruct (entry_or_zero lhs c1 (r / n2)) as [(e1 & I1 & E1)|Z]; [|right; unfold kron; rewrite Z; ring].
  destruct (entry_or_zero rhs c2 (r mod n2)) as [(e2 & I2 & E2)|Z]; [|right; unfold kron; rewrite Z; ring]. left. exists e1, e2. auto.
Qed.
Lemma zero_sum : forall rt z g : K, smul rt (sadd s0 (smul z (smul g s0))) = s0. Proof. intros. ring. Qed.
End Entries.

(** Blocks with reflection symmetry: if every one-atom basis vector has a partner with opposite m and the same energy (no magnetic
    field), every pair state that has an amplitude in a basis vector is on the list. *)
Theorem C77_covers_reflection_partial : forall (K : StarRing) (rt : K) keep sametrafo initpar syms b1 b2 start steps lhs rhs p R m1 m2 m M,
  sadd (smul rt rt) (smul rt rt) = s1 -> sconj rt = rt ->
  p <> NA -> half b1 -> half b2 -> small b1 b2 -> closed b1 -> closed b2 ->
  (forall lhs rhs, In (lhs, rhs) steps -> over lhs b1 /\ over rhs b2) -> In (lhs, rhs) steps -> In (Sym NA p NA R) syms ->
  (forall k, k < dim lhs -> definite lhs b1 mm k (m1 k)) -> (forall k, k < dim rhs -> definite rhs b2 mm k (m2 k)) ->
  partners lhs b1 -> partners rhs b2 ->
  necessary keep sametrafo initpar syms (names2 (build2 start b1 b2)) steps = Ok m ->
  combine rt keep lhs rhs (names2 (build2 start b1 b2)) (Sym NA p NA R) = Ok M ->
  forall k r, k < dim M -> r < coords M -> bvec M k r <> s0 -> nth r m false = true.
Proof.
  intros K rt keep sametrafo initpar syms b1 b2 start steps lhs rhs p R m1 m2 m M RT RC NP H1 H2 SM C1 C2 O I Is D1 D2 P1 P2 Em EM k r Hk Hr Nz.
  destruct (@C77_exact K keep sametrafo initpar syms b1 b2 start steps SM O) as (m' & Em' & _ & X). rewrite Em in Em'. injection Em' as <-. apply X. clear X.
  destruct (O _ _ I) as [O1 O2]. pose proof O1 as (L1 & _ & A1). pose proof O2 as (L2 & _ & A2).
  destruct (@C76_reflection_partial K rt keep lhs rhs b1 b2 start p R m1 m2) as (M' & E' & CM & DM & _ & F & _); auto. rewrite EM in E'. injection E' as <-.
  match type of DM with _ = length ?l => set (ps := l) in * end. rewrite DM in Hk. destruct (nth_error ps k) as [[c1 c2]|] eqn:Nk; [|apply nth_error_None in Nk; lia].
  destruct (F _ _ _ Nk) as [_ Fr]. rewrite CM in Hr. rewrite Fr in Nz by exact Hr. apply nth_error_In, in_pairs_with in Nk. destruct Nk as [[B1 B2] Sel].
  rewrite !andb_true_iff in Sel. destruct Sel as [[Kp _] Sel].
  set (n2 := coords rhs) in *. assert (N2 : n2 <> 0) by (intros E; rewrite E, Nat.mul_0_r in Hr; lia).
  assert (Hr' : r < length (names1 b1) * length (names1 b2)) by (rewrite <- L1, <- L2; exact Hr).
  destruct (@name_at b1 b2 start SM r Hr') as (s & t & S1 & S2 & _).
  assert (SelZ : forall a b, (a = m1 c1 /\ b = m2 c2 \/ a = - m1 c1 /\ b = - m2 c2)%Z -> forall Q, R = Some Q -> (a + b = 2 * Q \/ a + b = - 2 * Q)%Z).
  { intros a b Hab Q ->. rewrite orb_true_iff, !Z.eqb_eq in Sel. lia. }
  assert (Fit : (mm s = m1 c1 /\ mm t = m2 c2 \/ mm s = - m1 c1 /\ mm t = - m2 c2)%Z -> exists sym s t, In sym syms /\ states_at b1 b2 r s t /\ fits sametrafo initpar sym s t).
  { intros Hab. exists (Sym NA p NA R), s, t. split; [exact Is|]. split; [split; assumption|]. split; [|intros X; destruct X; reflexivity].
    intros Q EQ. destruct (SelZ _ _ Hab Q EQ) as [E|E]; [left; exact E|right; split; [exact NP|exact E]]. }
  assert (Rr : r = n2 * (r / n2) + r mod n2) by (apply Nat.div_mod; exact N2).
  destruct (@kron_entry K lhs rhs n2 c1 c2 r) as [(e1 & e2 & I1 & I2 & E1 & E2)|Z1].
  - split.
    + exists lhs, rhs. split; [exact I|]. exists c1, c2, e1, e2. fold n2. rewrite E1, E2. auto 10.
    + apply Fit. left. rewrite <- L2 in S1, S2. fold n2 in S1, S2. rewrite <- E1 in S1. rewrite <- E2 in S2. split; [apply (D1 _ B1 e1 s I1 S1)|apply (D2 _ B2 e2 t I2 S2)].
  - destruct (@mirror2_parts b1 b2 C1 C2 r Hr') as (Bm & Dm & Mm). rewrite <- L2 in Dm, Mm. fold n2 in Dm, Mm.
    destruct (@kron_entry K lhs rhs n2 c1 c2 (mirror2 b1 b2 r)) as [(e1 & e2 & I1 & I2 & E1 & E2)|Z2].
    + rewrite Dm in E1. rewrite Mm in E2. rewrite <- L2 in S1, S2. fold n2 in S1, S2.
      destruct (P1 _ B1) as (k1 & Bk1 & Ek1 & Pk1). destruct (P2 _ B2) as (k2 & Bk2 & Ek2 & Pk2). destruct (Pk1 _ I1) as (f1 & J1 & G1). destruct (Pk2 _ I2) as (f2 & J2 & G2).
      destruct (mirror_spec _ C1 S1) as (s' & Es & Os). destruct (mirror_spec _ C2 S2) as (t' & Et & Ot). apply opposite_iff in Os, Ot.
      rewrite E1, (@mirror_invol _ _ _ C1 S1) in G1. rewrite E2, (@mirror_invol _ _ _ C2 S2) in G2. split.
      * exists lhs, rhs. split; [exact I|]. exists k1, k2, f1, f2. fold n2. rewrite G1, G2, Ek1, Ek2. auto 10.
      * apply Fit. right. rewrite <- E1 in Es. rewrite <- E2 in Et. pose proof (D1 _ B1 e1 s' I1 Es). pose proof (D2 _ B2 e2 t' I2 Et). destruct Os as (_ & _ & _ & Os), Ot as (_ & _ & _ & Ot). lia.
    + exfalso. apply Nz. rewrite Z1. rewrite sc_zK, reflected_eq, Z2. apply zero_sum.
Qed.

(** Without the partners (a magnetic field): a pair state of the block EVEN is missing on the list. *)
Definition zeeman : hmat R2 := HMat 2 [[(0, s1)]; [(1, s1)]] [q2 0; q2 5].
Definition below3 (x : R2) : bool := Qle_bool (this (fst x)) 3.
Theorem C77_covers_magnetic_refuted :
  let names := pairnames SS SS in let sym := Sym NA EVEN NA (Some 1%Z) in
  necessary below3 true 1 [sym] names [(zeeman, zeeman)] = Ok [true; false; false; false] /\
  exists M, combine half_sqrt below3 zeeman zeeman names sym = Ok M /\ dim M = 1 /\ bvec M 0 3 <> Matrix.s0.
Proof.
  cbv zeta. split; [vm_compute; reflexivity|].
  assert (V : map (map raw) (vectors (combine half_sqrt below3 zeeman zeeman (pairnames SS SS) (Sym NA EVEN NA (Some 1%Z)))) = map (map raw) [[ch; c0; c0; ch]]) by (vm_compute; reflexivity).
  destruct (combine half_sqrt below3 zeeman zeeman (pairnames SS SS) (Sym NA EVEN NA (Some 1%Z))) as [M| |]; try discriminate V. exists M. split; [reflexivity|].
  cbn [vectors] in V. apply list_eq2 in V. destruct (dim M) as [|[|d]]; try discriminate V. split; [reflexivity|]. cbn [seq map] in V. injection V as V.
  destruct (coords M) as [|[|[|[|[|c]]]]]; try discriminate V. cbn [seq map] in V. intros Z. assert (X : bvec M 0 3 = ch) by congruence. rewrite Z in X. discriminate X.
Qed.

(** The steps are distributed over threads which write to the same std::vector<bool> (#pragma omp parallel for).  Whatever the order of
    the loads and stores of the threads, no state is marked that no thread wants to mark; with one step all states are marked.
    Missing: several steps, see the next theorem. *)
Theorem C77_threads_partial : forall W ws s m' ts', W <> 0 -> schedule W cleared (start_threads ws) s = (m', ts') ->
  (forall r, bit W m' r = true -> exists w, In w ws /\ In r w) /\
  (forall w, ws = [w] -> finished ts' = true -> forall r, bit W m' r = true <-> In r w).
Proof.
  intros W ws s m' ts' HW S. split.
  - intros r H. exact (@never_extra W ws s m' ts' r HW S H).
  - intros w -> F r. cbn [start_threads map] in S. rewrite (@one_thread W s w None cleared m' ts' HW ltac:(intros v x l X; discriminate X) S F r).
    split; [intros [X|X]; [discriminate X|exact X]|auto].
Qed.
(** Two steps, words of 64 bits: both threads load the word, both store it.  Step 1 needs pair state 0, which is not on the list although
    the pair basis of step 1 consists of this state. *)
Definition step1 : hmat R2 := HMat 2 [[(0, s1)]; [(1, s1)]] [q2 0; q2 5].
Definition step2 : hmat R2 := HMat 2 [[(0, s1)]; [(1, s1)]] [q2 5; q2 0].
Theorem C77_threads_refuted : exists w1 w2 s m' ts',
  cutoff_writes below3 step1 step1 = Ok w1 /\ cutoff_writes below3 step2 step2 = Ok w2 /\
  schedule 64 cleared (start_threads [w1; w2]) s = (m', ts') /\ finished ts' = true /\
  bit 64 m' 0 = false /\ bit 64 m' 3 = true /\
  all_steps below3 [(step1, step1); (step2, step2)] (repeat false 4) = Ok [true; false; false; true] /\
  vectors (combine half_sqrt below3 step1 step1 (pairnames SS SS) (Sym NA NA NA None)) = [[c1; c0; c0; c0]].
Proof.
  exists [0], [3], [0; 1; 0; 1]. eexists. eexists. split; [vm_compute; reflexivity|]. split; [vm_compute; reflexivity|]. split; [reflexivity|].
  split; [reflexivity|]. split; [reflexivity|]. split; [reflexivity|]. split; [vm_compute; reflexivity|]. same.
Qed.

(** The blocks: with equal atoms and sametrafo, inversion and permutation symmetry (no reflection, no total m), every block that is left
    out contains no amplitude of the initial pair state.  [i], [k]: the states of the atoms. *)
Section Blocks.
Variable K : StarRing.
Add Ring KRingB : (s_ring K).
Lemma odd_zero : forall (rt x : K), sadd (smul rt rt) (smul rt rt) = s1 -> x = sopp x -> x = s0.
Proof.
  intros rt x RT E. transitivity (smul (sadd (smul rt rt) (smul rt rt)) x); [rewrite RT; ring|].
  transitivity (sadd (smul (smul rt rt) x) (smul (smul rt rt) x)); [ring|]. rewrite E at 2. ring.
Qed.
Lemma opp_opp : forall x y : K, sopp x = sopp y -> x = y. Proof. intros x y E. transitivity (sopp (sopp x)); [ring|]. rewrite E. ring. Qed.
End Blocks.

Theorem C77_blocks_partial : forall (K : StarRing) (rt : K) keep (h : hmat K) b start q i k s t invs pers,
  sadd (smul rt rt) (smul rt rt) = s1 -> sconj rt = rt -> over h b -> half b -> small b b ->
  (forall c, c < dim h -> definite h b (fun s => sg (l_ s)) c (q c)) ->
  nth_error (names1 b) i = Some s -> nth_error (names1 b) k = Some t -> (oeqb s t = true -> i = k) ->
  let n := coords h in
  forall pi pp, In pi invs -> In pp pers ->
  In (Sym pi NA pp None) (symmetries true (Two 0 s t) invs pers [NA] [None]) \/
  exists M, combine rt keep h h (names2 (build2 start b b)) (Sym pi NA pp None) = Ok M /\ forall c, c < dim M -> bvec M c (n * i + k) = s0.
Proof.
  intros K rt keep h b start q i k s t invs pers RT RC O H SM DQ Ei Ek Eik n pi pp Ii Ip.
  assert (Li : i < n) by (unfold n; destruct O as [-> _]; apply nth_error_Some; congruence). assert (Lk : k < n) by (unfold n; destruct O as [-> _]; apply nth_error_Some; congruence).
  assert (Br : n * i + k < n * n) by nia. destruct (sum_pos i Lk) as [D1 D2].
  assert (Ln : length (names1 b) = n) by (unfold n; destruct O as [-> _]; reflexivity).
  assert (Pi : parity b i = sg (l_ s)) by (unfold parity; rewrite Ei; reflexivity). assert (Pk : parity b k = sg (l_ t)) by (unfold parity; rewrite Ek; reflexivity).
  destruct (peqb pi EVEN && oeqb s t) eqn:S1; [|destruct (peqb pp EVEN && oeqb s t) eqn:S2; [|destruct (used pi && used pp && negb (pnum pi * pnum pp =? sg (l_ s + l_ t))%Z) eqn:S3]].
  4:{ left. unfold symmetries. cbn [fst_ snd_]. apply in_flat_map. exists pi. split; [exact Ii|]. rewrite andb_true_r, S1. apply in_flat_map. exists pp. split; [exact Ip|].
      rewrite andb_true_r, S2. unfold initparity. cbn [fst_ snd_]. rewrite andb_true_r, S3. cbn. auto. }
  all: right.
  - apply andb_true_iff in S1. destruct S1 as [Sp So]. assert (pi = EVEN) by (destruct pi; try discriminate Sp; reflexivity). subst pi. pose proof (Eik So) as <-.
    assert (G : forall M : hmat K, (forall c r, c < dim M -> r < n * n -> inverted b (bvec M c) r = sc (value EVEN) (bvec M c r)) -> forall c, c < dim M -> bvec M c (n * i + i) = s0).
    { intros M F c Hc. specialize (F c (n * i + i) Hc Br). unfold inverted in F. rewrite Ln, D1, D2 in F. unfold swapc in F. rewrite D1, D2 in F.
      replace (parity b i * parity b i)%Z with 1%Z in F by (rewrite Pi; destruct (sg_pm (l_ s)) as [->| ->]; reflexivity). apply (@odd_zero K rt); [exact RT|exact F]. }
    destruct pp.
    + destruct (@C76_inversion_partial K rt keep h b start EVEN q) as (M & E & _ & _ & _ & _ & F & _); auto; [discriminate|]. exists M. split; [exact E|]. apply G. exact F.
    + destruct (@C76_inversion_permutation_partial K rt keep h b start EVEN EVEN q) as (M & E & _ & _ & _ & _ & F & _); auto; [discriminate|discriminate|]. exists M. split; [exact E|]. apply G. intros c r Hc Hr. apply (F c r Hc Hr).
    + destruct (@C76_inversion_permutation_partial K rt keep h b start EVEN ODD q) as (M & E & _ & _ & _ & _ & F & _); auto; [discriminate|discriminate|]. exists M. split; [exact E|]. apply G. intros c r Hc Hr. apply (F c r Hc Hr).
  - apply andb_true_iff in S2. destruct S2 as [Sp So]. assert (pp = EVEN) by (destruct pp; try discriminate Sp; reflexivity). subst pp. pose proof (Eik So) as <-.
    assert (G : forall M : hmat K, (forall c r, c < dim M -> r < n * n -> exchange n (bvec M c) r = sc (value EVEN) (bvec M c r)) -> forall c, c < dim M -> bvec M c (n * i + i) = s0).
    { intros M F c Hc. specialize (F c (n * i + i) Hc Br). unfold exchange, swapc in F. rewrite D1, D2 in F. apply (@odd_zero K rt); [exact RT|exact F]. }
    destruct pi.
    + destruct (@C76_permutation K rt keep h b start EVEN) as (M & E & _ & _ & _ & _ & F & _); auto; [discriminate|]. exists M. split; [exact E|]. apply G. exact F.
    + destruct (@C76_inversion_permutation_partial K rt keep h b start EVEN EVEN q) as (M & E & _ & _ & _ & _ & F & _); auto; [discriminate|discriminate|]. exists M. split; [exact E|]. apply G. intros c r Hc Hr. apply (F c r Hc Hr).
    + destruct (@C76_inversion_permutation_partial K rt keep h b start ODD EVEN q) as (M & E & _ & _ & _ & _ & F & _); auto; [discriminate|discriminate|]. exists M. split; [exact E|]. apply G. intros c r Hc Hr. apply (F c r Hc Hr).
  - rewrite !andb_true_iff in S3. destruct S3 as [[U1 U2] Ne]. apply negb_true_iff, Z.eqb_neq in Ne.
    destruct (@C76_inversion_permutation_partial K rt keep h b start pi pp q) as (M & E & _ & _ & _ & _ & F & _); auto; [destruct pi; discriminate|destruct pp; discriminate|].
    exists M. split; [exact E|]. intros c Hc. destruct (F c _ Hc Br) as [F1 F2]. unfold inverted in F1. rewrite Ln, D1, D2, Pi, Pk, <- sg_add in F1. unfold exchange in F2. fold n in F2. rewrite F2 in F1.
    apply (@odd_zero K rt); [exact RT|]. clear - F1 Ne U1 U2. destruct (sg_pm (l_ s + l_ t)) as [E|E]; rewrite E in *; destruct pi, pp; try discriminate; cbn in Ne, F1; try (exfalso; apply Ne; reflexivity);
      first [exact F1|symmetry; exact F1|apply opp_opp; exact F1|apply opp_opp; symmetry; exact F1].
Qed.

(** The list of the blocks, exactly. *)
Theorem C77_symmetries : forall conserveM sametrafo zerotheta initial names invs pers refs sym, (0 <= jj (fst_ initial) + jj (snd_ initial))%Z ->
  In sym (symmetries sametrafo initial invs pers refs (rotations conserveM sametrafo zerotheta initial names)) <->
  block_wanted conserveM sametrafo zerotheta initial names invs pers refs sym.
Proof.
  intros conserveM sametrafo zerotheta initial names invs pers refs [i r p m] J0. unfold symmetries, block_wanted. cbn [inv per ref rot].
  assert (RO : forall m0, In m0 (rotations conserveM sametrafo zerotheta initial names) <-> if conserveM then exists M, momentum_wanted sametrafo zerotheta initial names M /\ m0 = Some M else m0 = None).
  { intros m0. unfold rotations, momentum_wanted. destruct conserveM; [|cbn; split; [intros [<-|[]]; reflexivity|intros ->; auto]]. destruct sametrafo; cbn [negb].
    - destruct zerotheta; cbn [negb].
      + cbn. split; [intros [<-|[]]; eauto|intros (M & -> & ->); auto].
      + rewrite in_map_iff. set (J := Z.quot _ 2). assert (0 <= J)%Z by (unfold J; apply Z.quot_pos; lia). clearbody J. split.
        * intros (k & <- & I). apply in_seq in I. exists (Z.of_nat k - J)%Z. split; [lia|reflexivity].
        * intros (M & B & ->). exists (Z.to_nat (M + J)). split; [f_equal; lia|apply in_seq; lia].
    - rewrite in_map_iff. split; [intros (t & <- & I); eauto|intros (M & (t & I & ->) & ->); eauto]. }
  assert (S : forall a b : one, oeqb a b = true <-> quad a = quad b) by (intros; apply BasisnamesProofs.oeqb_iff).
  assert (PK : (used i && used p && sametrafo && negb (pnum i * pnum p =? initparity initial)%Z) = false <-> (sametrafo = true -> i <> NA -> p <> NA -> (i = p <-> Z.even (l_ (fst_ initial) + l_ (snd_ initial)) = true))).
  { unfold initparity, sg. destruct sametrafo; [|rewrite andb_false_r; cbn; split; [discriminate|reflexivity]]. destruct i, p, (Z.even (l_ (fst_ initial) + l_ (snd_ initial))); cbn; split; intros H; try reflexivity; try discriminate; intros; try congruence; try (split; congruence); try (exfalso; congruence); destruct (H eq_refl ltac:(discriminate) ltac:(discriminate)); try (exfalso; intuition congruence). }
  split.
  - intros I. apply in_flat_map in I. destruct I as (i0 & Ii & I). destruct (peqb i0 EVEN && oeqb (fst_ initial) (snd_ initial) && sametrafo) eqn:E1; [destruct I|].
    apply in_flat_map in I. destruct I as (p0 & Ip & I). destruct (peqb p0 EVEN && oeqb (fst_ initial) (snd_ initial) && sametrafo) eqn:E2; [destruct I|].
    destruct (used i0 && used p0 && sametrafo && negb (pnum i0 * pnum p0 =? initparity initial)%Z) eqn:E3; [destruct I|].
    apply in_flat_map in I. destruct I as (r0 & Ir & I). apply in_map_iff in I. destruct I as (m0 & E & Im). injection E as -> -> -> <-. apply RO in Im.
    split; [exact Ii|]. split; [exact Ip|]. split; [exact Ir|]. split; [|split; [apply PK; exact E3|]].
    + intros -> Q. apply S in Q. rewrite Q in E1, E2. split; intros ->; discriminate.
    + destruct conserveM; [|subst m0; destruct (used r); reflexivity]. destruct Im as (M & W & ->). exists M. split; [exact W|]. destruct r; reflexivity.
  - intros (Ii & Ip & Ir & SS & PP & RR). apply in_flat_map. exists i. split; [exact Ii|].
    assert (X : forall q, (sametrafo = true -> quad (fst_ initial) = quad (snd_ initial) -> q <> EVEN) -> peqb q EVEN && oeqb (fst_ initial) (snd_ initial) && sametrafo = false).
    { intros q Q. destruct q; cbn; try reflexivity. destruct (oeqb (fst_ initial) (snd_ initial)) eqn:E; [|reflexivity]. destruct sametrafo; [|reflexivity]. exfalso. apply Q; [reflexivity|apply S; exact E|reflexivity]. }
    rewrite X by (intros A B; apply (SS A B)). apply in_flat_map. exists p. split; [exact Ip|]. rewrite X by (intros A B; apply (SS A B)). rewrite (proj2 PK PP).
    apply in_flat_map. exists r. split; [exact Ir|]. apply in_map_iff. destruct conserveM.
    + destruct RR as (M & W & ->). exists (Some M). split; [destruct r; reflexivity|]. apply RO. eauto.
    + exists None. split; [subst m; destruct (used r); reflexivity|]. apply RO. reflexivity.
Qed.
(** If the atoms are not to be found in the initial state, no pair state is left out because of the symmetries (total magnetic quantum
    numbers are integers). *)
Theorem C77_all_states : forall conserveM zerotheta initial names invs pers refs t, (0 <= jj (fst_ initial) + jj (snd_ initial))%Z ->
  invs <> [] -> pers <> [] -> refs <> [] -> In t names -> Z.even (mm (fst_ t) + mm (snd_ t)) = true ->
  exists sym, In sym (symmetries false initial invs pers refs (rotations conserveM false zerotheta initial names)) /\
    accepted false (initparity initial) sym t = true.
Proof.
  intros conserveM zerotheta initial names invs pers refs t J0 Ni Np Nr It Ev. destruct invs as [|i invs]; [congruence|]. destruct pers as [|p pers]; [congruence|]. destruct refs as [|r refs]; [congruence|].
  set (M := Z.quot (mm (fst_ t) + mm (snd_ t)) 2). exists (Sym i r p (if conserveM then Some (match r with NA => M | _ => Z.abs M end) else None)). split.
  - apply C77_symmetries; [exact J0|]. unfold block_wanted. cbn [inv per ref rot]. split; [left; reflexivity|]. split; [left; reflexivity|]. split; [left; reflexivity|]. split; [discriminate|]. split; [discriminate|].
    destruct conserveM; [|reflexivity]. exists M. split; [|destruct r; reflexivity]. exists t. auto.
  - apply accepted_fits. split; [|discriminate]. cbn [rot ref]. intros R E. destruct conserveM; [|discriminate E]. injection E as <-. assert (Q : (mm (fst_ t) + mm (snd_ t) = 2 * M)%Z).
    { unfold M. apply Z.even_spec in Ev. destruct Ev as (k & ->). rewrite Z.mul_comm, Z.quot_mul by lia. lia. }
    clearbody M. destruct r; [left; lia|..]; (destruct (Z.abs_spec M) as [[_ ->]|[_ ->]]; [left; lia|right; split; [discriminate|lia]]).
Qed.
Example C77_blocks_nonvacuous : block_wanted true true false (Two 0 (One 0 60 0 1 1) (One 0 60 0 1 1)) [] [EVEN; ODD] [NA] [ODD] (Sym ODD ODD NA (Some 1%Z)) /\
  ~ block_wanted true true false (Two 0 (One 0 60 0 1 1) (One 0 60 0 1 1)) [] [EVEN; ODD] [NA] [ODD] (Sym EVEN ODD NA (Some 1%Z)).
Proof.
  split.
  - unfold block_wanted. cbn. split; [auto|]. split; [auto|]. split; [auto|]. split; [split; discriminate|]. split; [congruence|]. exists (-1)%Z. split; [lia|reflexivity].
  - intros (_ & _ & _ & H & _). destruct (H eq_refl eq_refl) as (X & _). apply X. reflexivity.
Qed.

(** The hypotheses are met: S and P states, two equal steps. *)
Example C77_nonvacuous : exists m M, necessary any true 1 [Sym NA NA ODD (Some 1%Z)] (pairnames SP SP) [(plain, plain); (mixed, mixed)] = Ok m /\
  m = [true; true; true; true] /\ run mixed mixed SP SP (Sym NA NA ODD (Some 1%Z)) = Ok M /\ forall k r, k < dim M -> bvec M k r <> Matrix.s0 -> nth r m false = true.
Proof.
  assert (B : (match run mixed mixed SP SP (Sym NA NA ODD (Some 1%Z)) with Ok _ => true | _ => false end) = true) by (vm_compute; reflexivity).
  destruct (run mixed mixed SP SP (Sym NA NA ODD (Some 1%Z))) as [M| |] eqn:E; [|discriminate B..].
  exists [true; true; true; true], M. split; [vm_compute; reflexivity|]. split; [reflexivity|]. split; [reflexivity|].
  apply (@C77_covers R2 half_sqrt any true 1%Z [Sym NA NA ODD (Some 1%Z)] SP SP (Sp, Sp) [(plain, plain); (mixed, mixed)] mixed mixed (Sym NA NA ODD (Some 1%Z))).
  - reflexivity.
  - destruct plain_over as (O & _). intros lhs rhs [X|[X|[]]]; injection X as <- <-; [split; exact O|].
    assert (Om : over mixed SP).
    { split; [reflexivity|]. split; [reflexivity|]. intros c [<-|[<-|[]]]; (split; [discriminate|]); intros e I; cbn in I; destruct I as [<-|[<-|[]]]; cbn; lia. }
    split; exact Om.
  - right; left; reflexivity.
  - left; reflexivity.
  - reflexivity.
  - intros _. split; reflexivity.
  - intros X; destruct X; reflexivity.
  - vm_compute. reflexivity.
  - exact E.
Qed.
Print Assumptions C77_exact. Print Assumptions C77_covers. Print Assumptions C77_covers_reflection_partial. Print Assumptions C77_covers_magnetic_refuted.
Print Assumptions C77_threads_partial. Print Assumptions C77_threads_refuted. Print Assumptions C77_blocks_partial.
Print Assumptions C77_symmetries. Print Assumptions C77_all_states.
