(** C107: eigenvalues and eigenvectors stored by the command line program. *)
From Coq Require Import ZArith Bool Arith Lia Reals Lra List Setoid Sorted.
Import ListNotations.
From Verif Require Import Base Matrix FieldModel BoundsSpec BoundsModel BoundsProofs DiagModel.
Set Implicit Arguments.
Local Open Scope R_scope.

(** *** Specification: everything but [dist2] and [inner] is in BoundsSpec.v *)
(** The squared distance of the columns [j] of [A] and [B]. *)
Definition dist2 (A B : mat CR) (j : nat) : R :=
  total (nr A) (fun i => square_of (fst (at_ A i j) - fst (at_ B i j), snd (at_ A i j) - snd (at_ B i j))).
(** The inner product of the columns [j] and [k] of [A]. *)
Definition inner (A : mat CR) (j k : nat) : CR :=
  (total (nr A) (fun i => fst (at_ A i j) * fst (at_ A i k) + snd (at_ A i j) * snd (at_ A i k)),
   total (nr A) (fun i => fst (at_ A i j) * snd (at_ A i k) - snd (at_ A i j) * fst (at_ A i k))).
(** [E] holds (at least) the lower triangle of [H]. *)
Definition lower_triangle (E H : mat CR) : Prop :=
  nr E = nr H /\ nc E = nc H /\ forall i j, (i < nr H)%nat -> (j <= i)%nat -> at_ E i j = at_ H i j.
(** What Eigen documents of the solver, for the matrix [H]: a complete orthonormal set of eigenvectors, in increasing order of the eigenvalues. *)
Definition eigen_contract (solver : mat CR -> list R * mat CR) (H : mat CR) : Prop :=
  forall A n, meq A H -> nr H = n -> let (es, U) := solver A in
  length es = n /\ Sorted Rle es /\ eigenpairs H U es /\ meq (mmul U (madj U)) (mid n).

(** *** Proofs *)
Lemma cut_pos : 0 < cut. Proof. unfold cut. lra. Qed.
Lemma pruned_at : forall A i j, at_ (pruned A) i j = at_ A i j \/ (at_ (pruned A) i j = (0, 0) /\ square_of (at_ A i j) <= cut * cut).
Proof.
  intros A i j. cbn. destruct (Rle_dec _ _) as [L|L]; [right|left; reflexivity]. split; [reflexivity|]. unfold square_of.
  set (q := fst (at_ A i j) * fst (at_ A i j) + snd (at_ A i j) * snd (at_ A i j)) in *.
  assert (Q : 0 <= q) by (unfold q; nra). rewrite <- (sqrt_sqrt q Q). assert (S := sqrt_pos q). assert (C := cut_pos). apply Rmult_le_compat; lra.
Qed.
Lemma pruned_dist : forall A j, dist2 (pruned A) A j <= INR (nr A) * (cut * cut).
Proof.
  intros A j. unfold dist2. change (nr (pruned A)) with (nr A).
  replace (INR (nr A) * (cut * cut)) with (total (nr A) (fun _ => 0 + cut * cut)) by (rewrite (total_plus (nr A) (fun _ => 0)); replace (total (nr A) (fun _ => 0)) with 0; [ring|induction (nr A) as [|n IH]; cbn; lra]).
  apply total_le. intros i _. assert (C := cut_pos). destruct (pruned_at A i j) as [->|[-> P]].
  - unfold square_of; cbn. nra.
  - unfold square_of in *; cbn in *. lra.
Qed.

(** An isometry keeps distances. *)
Definition diff (A B : mat CR) : mat CR := madd A (mscale (ofR (-1)) B).
Lemma dist_norm : forall A B j, nr B = nr A -> dist2 A B j = norm2 (diff A B) j.
Proof. intros A B j E. unfold dist2, norm2. cbn [diff madd mscale nr]. rewrite E, Nat.min_id. apply total_ext. intros i _. unfold square_of. cbn. ring. Qed.
Lemma norm2_meq : forall A B j, meq A B -> (j < nc A)%nat -> norm2 A j = norm2 B j.
Proof. intros A B j (E1 & E2 & E) J. unfold norm2. rewrite <- E1. apply total_ext. intros i I. rewrite E; auto. Qed.
Lemma iso_norm : forall B D j, isometry B -> nr D = nc B -> (j < nc D)%nat -> norm2 (mmul B D) j = norm2 D j.
Proof.
  intros B D j I E J. unfold isometry in I. assert (M : meq (mmul (madj (mmul B D)) (mmul B D)) (mmul (madj D) D)).
  { rewrite madj_mul, mmul_assoc, <- (mmul_assoc (madj B)), I, mmul_id_l by exact E. reflexivity. }
  rewrite !norm2_bsum. destruct M as (_ & _ & M). specialize (M j j J J). cbn [mmul madj nr nc at_] in M. rewrite !Nat.min_id in M.
  change (nr (mmul B D)) with (nr B). apply (f_equal fst) in M. exact M.
Qed.
Lemma iso_dist : forall B P U j, isometry B -> nr P = nc B -> nr U = nc B -> nc P = nc U -> (j < nc U)%nat -> dist2 (mmul B P) (mmul B U) j = dist2 P U j.
Proof.
  intros B P U j I E1 E2 E3 J. rewrite !dist_norm by (cbn; congruence). rewrite <- (@iso_norm B (diff P U)) by (cbn; congruence || lia).
  apply norm2_meq; [|cbn; congruence || lia]. unfold diff. rewrite mmul_add_r by (cbn; congruence). rewrite mmul_scale_r. reflexivity.
Qed.
Lemma dist2_triangle : forall A B C j, nr B = nr A -> dist2 A C j <= 2 * dist2 A B j + 2 * dist2 B C j.
Proof.
  intros A B C j E. unfold dist2. rewrite E. generalize (nr A) as n. clear E. induction n as [|n IH]; cbn [total]; [lra|].
  set (x := at_ A n j) in *. set (y := at_ B n j) in *. set (z := at_ C n j) in *.
  assert (T : forall a b, (a + b) * (a + b) <= 2 * (a * a) + 2 * (b * b)) by (clear; intros a b; assert (Q := Rle_0_sqr (a - b)); unfold Rsqr in Q; lra).
  assert (X : square_of (fst x - fst z, snd x - snd z) <= 2 * square_of (fst x - fst y, snd x - snd y) + 2 * square_of (fst y - fst z, snd y - snd z)).
  { unfold square_of; cbn [fst snd]. assert (T1 := T (fst x - fst y) (fst y - fst z)). assert (T2 := T (snd x - snd y) (snd y - snd z)).
    replace (fst x - fst y + (fst y - fst z)) with (fst x - fst z) in T1 by ring. replace (snd x - snd y + (snd y - snd z)) with (snd x - snd z) in T2 by ring. lra. }
  lra.
Qed.

Lemma dist2_self : forall A j, dist2 A A j = 0.
Proof. intros A j. unfold dist2. generalize (nr A). induction n as [|k IH]; cbn [total]; [reflexivity|]. rewrite IH. unfold square_of; cbn. ring. Qed.

(** Vectors near to orthonormal ones are nearly orthonormal. *)
Lemma cs : forall n (f g : nat -> R) F G, 0 <= F -> 0 <= G -> total n (fun i => f i * f i) <= F -> total n (fun i => g i * g i) <= G -> Rabs (total n (fun i => f i * g i)) <= sqrt F * sqrt G.
Proof.
  intros n f g F G F0 G0 Hf Hg.
  assert (K : forall s t, 0 < s -> 0 < t -> F <= s * s -> G <= t * t -> Rabs (total n (fun i => f i * g i)) <= s * t).
  { intros s t S T FS GT.
    assert (X : forall m, 2 * (s * t) * Rabs (total m (fun i => f i * g i)) <= t * t * total m (fun i => f i * f i) + s * s * total m (fun i => g i * g i)).
    { induction m as [|m IH]; cbn [total]; [rewrite Rabs_R0; lra|]. assert (TR := Rabs_triang (total m (fun i => f i * g i)) (f m * g m)).
      assert (Y : 2 * (s * t) * Rabs (f m * g m) <= t * t * (f m * f m) + s * s * (g m * g m)).
      { rewrite Rabs_mult. assert (A1 : f m * f m = Rabs (f m) * Rabs (f m)) by (rewrite <- Rabs_mult; symmetry; apply Rabs_pos_eq, Rle_0_sqr).
        assert (A2 : g m * g m = Rabs (g m) * Rabs (g m)) by (rewrite <- Rabs_mult; symmetry; apply Rabs_pos_eq, Rle_0_sqr). rewrite A1, A2.
        assert (Q : 0 <= (t * Rabs (f m) - s * Rabs (g m)) * (t * Rabs (f m) - s * Rabs (g m))) by apply Rle_0_sqr. lra. }
      assert (ST : 0 < s * t) by nra. assert (Z := Rmult_le_compat_l (2 * (s * t)) _ _ ltac:(lra) TR). lra. }
    specialize (X n). assert (ST : 0 < s * t) by nra.
    assert (Y1 : t * t * total n (fun i => f i * f i) <= t * t * (s * s)) by (apply Rmult_le_compat_l; [nra|lra]).
    assert (Y2 : s * s * total n (fun i => g i * g i) <= s * s * (t * t)) by (apply Rmult_le_compat_l; [nra|lra]).
    apply (Rmult_le_reg_l (2 * (s * t))); lra. }
  apply le_epsilon. intros e E.
  assert (SF := sqrt_pos F). assert (SG := sqrt_pos G). assert (DF := sqrt_sqrt F F0). assert (DG := sqrt_sqrt G G0).
  set (w := Rmin 1 (e / (sqrt F + sqrt G + 1))).
  assert (W0 : 0 < w) by (unfold w; apply Rmin_glb_lt; [lra|apply Rdiv_lt_0_compat; lra]).
  assert (W1 : w <= 1) by (unfold w; apply Rmin_l).
  assert (W2 : w * (sqrt F + sqrt G + 1) <= e).
  { assert (W3 : w <= e / (sqrt F + sqrt G + 1)) by (unfold w; apply Rmin_r). apply (Rmult_le_compat_r (sqrt F + sqrt G + 1)) in W3; [|lra].
    unfold Rdiv in W3. rewrite Rmult_assoc, Rinv_l in W3 by lra. lra. }
  assert (K1 := K (sqrt F + w) (sqrt G + w) ltac:(lra) ltac:(lra)). eapply Rle_trans; [apply K1|].
  - assert (0 <= sqrt F * w) by nra. nra.
  - assert (0 <= sqrt G * w) by nra. nra.
  - assert (w * w <= w * 1) by (apply Rmult_le_compat_l; lra). lra.
Qed.
Lemma total_add : forall n f g, total n (fun i => f i + g i) = total n f + total n g.
Proof. induction n as [|n IH]; intros; cbn; [lra|]. rewrite IH. lra. Qed.
(** the same for complex columns: a sum over real and imaginary parts *)
Lemma cs2 : forall n (a b c d : nat -> R) F G, 0 <= F -> 0 <= G -> total n (fun i => a i * a i + b i * b i) <= F -> total n (fun i => c i * c i + d i * d i) <= G ->
  Rabs (total n (fun i => a i * c i + b i * d i)) <= sqrt F * sqrt G.
Proof.
  intros n a b c d F G F0 G0 Hf Hg.
  assert (D : forall (x y : nat -> R) m, total m (fun i => x i + y i) = total (2 * m) (fun k => if Nat.even k then x (k / 2)%nat else y (k / 2)%nat)).
  { intros x y. induction m as [|m IH]; [reflexivity|]. replace (2 * S m)%nat with (S (S (2 * m))) by lia. cbn [total]. rewrite IH.
    replace (Nat.even (2 * m)) with true by (symmetry; apply Nat.even_spec; exists m; reflexivity).
    replace (Nat.even (S (2 * m))) with false by (symmetry; rewrite Nat.even_succ, <- Nat.negb_even; replace (Nat.even (2 * m)) with true by (symmetry; apply Nat.even_spec; exists m; reflexivity); reflexivity).
    replace (2 * m / 2)%nat with m by (apply (Nat.div_unique _ _ m 0%nat); lia).
    replace (S (2 * m) / 2)%nat with m by (apply (Nat.div_unique _ _ m 1%nat); lia). lra. }
  set (f := fun k => if Nat.even k then a (k / 2)%nat else b (k / 2)%nat). set (g := fun k => if Nat.even k then c (k / 2)%nat else d (k / 2)%nat).
  rewrite D in *. rewrite (@total_ext (2 * n) _ (fun k => f k * g k)) by (intros k _; unfold f, g; destruct (Nat.even k); reflexivity).
  apply cs; auto.
  - rewrite (@total_ext (2 * n) _ (fun k => if Nat.even k then a (k / 2)%nat * a (k / 2)%nat else b (k / 2)%nat * b (k / 2)%nat)); [exact Hf|].
    intros k _. unfold f. destruct (Nat.even k); reflexivity.
  - rewrite (@total_ext (2 * n) _ (fun k => if Nat.even k then c (k / 2)%nat * c (k / 2)%nat else d (k / 2)%nat * d (k / 2)%nat)); [exact Hg|].
    intros k _. unfold g. destruct (Nat.even k); reflexivity.
Qed.

Lemma near_inner : forall (A X : mat CR) j k D, nr A = nr X -> 0 <= D -> norm2 X j = 1 -> norm2 X k = 1 -> dist2 A X j <= D -> dist2 A X k <= D ->
  Rabs (fst (inner A j k) - fst (inner X j k)) <= 2 * sqrt D + D /\ Rabs (snd (inner A j k) - snd (inner X j k)) <= 2 * sqrt D + D.
Proof.
  intros A X j k D N D0 Nj Nk Dj Dk. unfold inner, dist2, norm2, square_of in *. cbn [fst snd] in *. rewrite N in *. set (n := nr X) in *.
  assert (S1 : sqrt 1 = 1) by apply sqrt_1. assert (SD := sqrt_sqrt D D0).
  set (p := fun i => fst (at_ X i j)) in *. set (q := fun i => snd (at_ X i j)) in *. set (r := fun i => fst (at_ X i k)) in *. set (t := fun i => snd (at_ X i k)) in *.
  set (p' := fun i => fst (at_ A i j) - fst (at_ X i j)) in *. set (q' := fun i => snd (at_ A i j) - snd (at_ X i j)) in *.
  set (r' := fun i => fst (at_ A i k) - fst (at_ X i k)) in *. set (t' := fun i => snd (at_ A i k) - snd (at_ X i k)) in *.
  assert (Op : forall f g m, total m (fun i => - f i * - f i + g i * g i) = total m (fun i : nat => g i * g i + f i * f i)) by (intros; apply total_ext; intros; ring).
  assert (Op2 : forall f g m, total m (fun i => f i * f i + - g i * - g i) = total m (fun i : nat => f i * f i + g i * g i)) by (intros; apply total_ext; intros; ring).
  assert (Sw : forall f g m, total m (fun i => f i * f i + g i * g i) = total m (fun i : nat => g i * g i + f i * f i)) by (intros; apply total_ext; intros; ring).
  assert (L1 : 0 <= 1) by lra. assert (Ej : total n (fun i => p i * p i + q i * q i) <= 1) by (right; exact Nj). assert (Ek : total n (fun i => r i * r i + t i * t i) <= 1) by (right; exact Nk).
  assert (Fj : total n (fun i => p' i * p' i + q' i * q' i) <= D) by exact Dj. assert (Fk : total n (fun i => r' i * r' i + t' i * t' i) <= D) by exact Dk.
  assert (Ek' : total n (fun i => t i * t i + - r i * - r i) <= 1) by (rewrite Op2, Sw; exact Ek).
  assert (Fk' : total n (fun i => t' i * t' i + - r' i * - r' i) <= D) by (rewrite Op2, Sw; exact Fk).
  assert (T3 : forall a b c, Rabs (a + b + c) <= Rabs a + Rabs b + Rabs c) by (intros a b c; eapply Rle_trans; [apply Rabs_triang|]; assert (Z := Rabs_triang a b); lra).
  split.
  - assert (E : total n (fun i => fst (at_ A i j) * fst (at_ A i k) + snd (at_ A i j) * snd (at_ A i k)) - total n (fun i => p i * r i + q i * t i) =
      total n (fun i => p i * r' i + q i * t' i) + total n (fun i => p' i * r i + q' i * t i) + total n (fun i => p' i * r' i + q' i * t' i)).
    { rewrite <- !total_add. apply Rplus_eq_reg_r with (total n (fun i => p i * r i + q i * t i)).
      unfold Rminus. rewrite Rplus_assoc, Rplus_opp_l, Rplus_0_r, <- total_add. apply total_ext. intros i _. unfold p, q, r, t, p', q', r', t'. ring. }
    eapply Rle_trans; [right; apply (f_equal Rabs); exact E|]. eapply Rle_trans; [apply T3|].
    assert (A1 := @cs2 n p q r' t' 1 D L1 D0 Ej Fk). assert (A2 := @cs2 n p' q' r t D 1 D0 L1 Fj Ek). assert (A3 := @cs2 n p' q' r' t' D D D0 D0 Fj Fk). rewrite S1 in *. lra.
  - assert (E : total n (fun i => fst (at_ A i j) * snd (at_ A i k) - snd (at_ A i j) * fst (at_ A i k)) - total n (fun i => p i * t i - q i * r i) =
      total n (fun i => p i * t' i + q i * - r' i) + total n (fun i => p' i * t i + q' i * - r i) + total n (fun i => p' i * t' i + q' i * - r' i)).
    { rewrite <- !total_add. apply Rplus_eq_reg_r with (total n (fun i => p i * t i - q i * r i)).
      unfold Rminus at 1. rewrite Rplus_assoc, Rplus_opp_l, Rplus_0_r, <- total_add. apply total_ext. intros i _. unfold p, q, r, t, p', q', r', t'. ring. }
    eapply Rle_trans; [right; apply (f_equal Rabs); exact E|]. eapply Rle_trans; [apply T3|].
    assert (A1 := @cs2 n p q t' (fun i => - r' i) 1 D L1 D0 Ej Fk'). assert (A2 := @cs2 n p' q' t (fun i => - r i) D 1 D0 L1 Fj Ek').
    assert (A3 := @cs2 n p' q' t' (fun i => - r' i) D D D0 D0 Fj Fk'). rewrite S1 in *. lra.
Qed.
Lemma inner_bsum : forall A j k, inner A j k = bsum (K:=CR) (nr A) (fun i => smul (sconj (at_ A i j)) (at_ A i k)).
Proof.
  intros A j k. unfold inner. induction (nr A) as [|n IH]; [reflexivity|]. cbn [total bsum]. rewrite <- IH. apply injective_projections; cbn; ring.
Qed.
Lemma inner_iso : forall X j k, isometry X -> (j < nc X)%nat -> (k < nc X)%nat -> inner X j k = if Nat.eqb j k then (1, 0) else (0, 0).
Proof.
  intros X j k (_ & _ & I) J K. rewrite inner_bsum. specialize (I j k J K). cbn [mmul madj at_ nr nc] in I. rewrite Nat.min_id in I.
  rewrite I. cbn. unfold delta. destruct (Nat.eqb j k); reflexivity.
Qed.
Lemma lower_view : forall E H, lower_triangle E H -> nr H = nc H -> hermitian H -> meq (lowerView E) H.
Proof.
  intros E H (E1 & E2 & L) Sq (_ & _ & He). split; [exact E1|]. split; [exact E2|]. cbn [lowerView nr nc at_]. rewrite E1, E2. intros i j I J.
  destruct (Nat.leb_spec j i) as [P|P]; [apply L; auto|]. rewrite L by lia. specialize (He i j). cbn [madj nr nc at_] in He. apply He; lia.
Qed.

(** C107: for the Hamiltonian [H] of which the lower triangle has been assembled, in an orthonormal basis, the program stores all eigenvalues, in
    increasing order, and basis vectors whose distance to exact orthonormal eigenvectors spanning the same space is at most
    sqrt(2 (N + n)) / 20000 (N states, n basis vectors); they are orthonormal up to the corresponding deviation. *)
Theorem C107_eigen : forall solver (m : hmat) (H : mat CR), eigen_contract solver H -> isometry (basis m) ->
  nr H = nc (basis m) -> nc H = nc (basis m) -> hermitian H -> lower_triangle (entries m) H ->
  let B := basis m in let N := nr B in let n := nc B in let whole := mmul (mmul B H) (madj B) in
  let r := diagonalize solver m in let eps2 := 2 * (INR N + INR n) * (1 / 20000 * (1 / 20000)) in
  exists es X, length es = n /\ Sorted Rle es /\ meq (entries r) (diagm es) /\ nr (basis r) = N /\ nc (basis r) = n /\
    nr X = N /\ nc X = n /\ isometry X /\ meq (mmul X (madj X)) (mmul B (madj B)) /\ meq (mmul whole X) (mmul X (diagm es)) /\
    (forall j, (j < n)%nat -> dist2 (basis r) X j <= eps2) /\
    forall j k, (j < n)%nat -> (k < n)%nat ->
      Rabs (fst (inner (basis r) j k) - (if Nat.eqb j k then 1 else 0)) <= 2 * sqrt eps2 + eps2 /\
      Rabs (snd (inner (basis r) j k)) <= 2 * sqrt eps2 + eps2.
Proof.
  intros solver m H EC IB RH CH He LT B N n whole r eps2. change (isometry B) in IB. change (nr H = n) in RH. change (nc H = n) in CH.
  assert (LV := lower_view LT ltac:(congruence) He).
  assert (E0 : 0 <= eps2) by (unfold eps2; assert (P1 := pos_INR N); assert (P2 := pos_INR n); lra).
  assert (FIN : forall es X, length es = n -> Sorted Rle es -> meq (entries r) (diagm es) -> nr (basis r) = N -> nc (basis r) = n -> nr X = N -> nc X = n -> isometry X ->
    meq (mmul X (madj X)) (mmul B (madj B)) -> meq (mmul whole X) (mmul X (diagm es)) -> (forall j, (j < n)%nat -> dist2 (basis r) X j <= eps2) ->
    exists es X, length es = n /\ Sorted Rle es /\ meq (entries r) (diagm es) /\ nr (basis r) = N /\ nc (basis r) = n /\
    nr X = N /\ nc X = n /\ isometry X /\ meq (mmul X (madj X)) (mmul B (madj B)) /\ meq (mmul whole X) (mmul X (diagm es)) /\
    (forall j, (j < n)%nat -> dist2 (basis r) X j <= eps2) /\
    forall j k, (j < n)%nat -> (k < n)%nat ->
      Rabs (fst (inner (basis r) j k) - (if Nat.eqb j k then 1 else 0)) <= 2 * sqrt eps2 + eps2 /\
      Rabs (snd (inner (basis r) j k)) <= 2 * sqrt eps2 + eps2).
  { intros es X A1 A2 A3 A4 A5 A6 A7 A8 A9 A10 A11. exists es, X. do 11 (split; [assumption|]). intros j k J K.
    assert (NJ : norm2 X j = 1) by (apply norm2_iso; [exact A8|rewrite A7; exact J]). assert (NK : norm2 X k = 1) by (apply norm2_iso; [exact A8|rewrite A7; exact K]).
    assert (NI := @near_inner (basis r) X j k eps2 ltac:(congruence) E0 NJ NK (A11 j J) (A11 k K)).
    rewrite (@inner_iso X j k A8) in NI by lia. destruct (Nat.eqb j k); cbn [fst snd] in NI; destruct NI as [N1 N2]; split; try exact N1; rewrite Rminus_0_r in N2; exact N2. }
  unfold r, diagonalize in *. fold B in FIN |- *. fold n in FIN |- *. destruct (Nat.ltb_spec 1 n) as [L|L].
  - specialize (EC (lowerView (entries m)) n). destruct (solver (lowerView (entries m))) as [es U]. cbn [entries basis] in *.
    destruct EC as (EL & ES & (U1 & U2 & U3 & U4) & U5).
    { exact LV. } { exact RH. }
    assert (U1' : nr U = n) by (rewrite U1; exact RH).
    assert (EP : eigenpairs H U es) by (split; [exact U1|split; [exact U2|split; [exact U3|exact U4]]]).
    destruct (window_pairs IB RH CH EP) as [W1 W2].
    apply (FIN es (mmul B U)); auto; try (cbn; congruence).
    + change (diagonal_of es) with (diagm es). reflexivity.
    + rewrite madj_mul, mmul_assoc, <- (mmul_assoc U), U5. rewrite mmul_id_l by reflexivity. reflexivity.
    + intros j J. eapply Rle_trans; [apply (@dist2_triangle _ (mmul B (pruned U))); reflexivity|].
      rewrite (@iso_dist B (pruned U) U) by (cbn; congruence || lia || auto). assert (P1 := pruned_dist (mmul B (pruned U)) j). assert (P2 := pruned_dist U j).
      change (nr (mmul B (pruned U))) with N in P1. rewrite U1' in P2. unfold cut in *. unfold eps2. lra.
  - apply (FIN (map (fun i => fst (at_ H i i)) (seq 0 n)) B); auto.
    + rewrite map_length, seq_length. reflexivity.
    + destruct n as [|[|]]; [constructor|repeat constructor|lia].
    + destruct LT as (L1 & L2 & L3). split; [cbn [diagm nr nc]; rewrite map_length, seq_length, L1; exact RH|]. split; [cbn [diagm nr nc]; rewrite map_length, seq_length, L2; exact CH|].
      intros i j I J. rewrite L1, RH in I. rewrite L2, CH in J. assert (i = 0%nat /\ j = 0%nat) as [-> ->] by lia. rewrite L3 by (rewrite ?RH; lia).
      assert (n1 : n = 1%nat) by lia. rewrite n1. cbn [seq map diagm at_ Nat.eqb nth length]. destruct He as (_ & _ & He). specialize (He 0%nat 0%nat). cbn [madj nr nc at_] in He. specialize (He ltac:(rewrite CH; lia) ltac:(rewrite RH; lia)).
      apply (f_equal snd) in He. cbn in He. apply injective_projections; cbn; [reflexivity|lra].
    + reflexivity.
    + destruct He as (_ & _ & He). unfold whole. unfold isometry in IB. rewrite !mmul_assoc, IB. rewrite mmul_id_r by exact CH.
      split; [reflexivity|]. split; [cbn; rewrite map_length, seq_length; exact CH|]. cbn [mmul nr nc at_ diagm]. rewrite map_length, seq_length, CH, RH, Nat.min_id.
      intros i j I J. apply bsum_ext. intros k K. assert (j = 0%nat /\ k = 0%nat) as [-> ->] by lia. assert (n1 : n = 1%nat) by lia. rewrite n1.
      cbn [seq map Nat.eqb nth]. f_equal. specialize (He 0%nat 0%nat). cbn [madj nr nc at_] in He. specialize (He ltac:(rewrite CH; lia) ltac:(rewrite RH; lia)).
      apply (f_equal snd) in He. cbn in He. apply injective_projections; cbn; [reflexivity|lra].
    + intros j J. change (dist2 B B j <= eps2). rewrite dist2_self. exact E0.
Qed.

(** *** A concrete case: two states, H = ((7, -24), (-24, -7)), of which only the lower triangle is assembled *)
Definition creal (x : R) : CR := (x, 0).
Definition clist (n m : nat) (l : list (list R)) : mat CR := Mat n m (fun i j => creal (nth j (nth i l []) 0)).
Definition Hd : mat CR := clist 2 2 [[7; -24]; [-24; -7]].
Definition Ud : mat CR := clist 2 2 [[3/5; 4/5]; [4/5; -3/5]].
Ltac entries := split; [reflexivity|]; split; [reflexivity|]; intros i j Hi Hj; cbn in Hi, Hj;
  repeat (destruct i as [|i]; [|try lia]); repeat (destruct j as [|j]; [|try lia]); try lia;
  apply injective_projections; cbn; try lra; try field.
Definition md : hmat := HMat (clist 2 2 [[7; 0]; [-24; -7]]) (mid 2).
Definition solver_d (_ : mat CR) : list R * mat CR := ([-25; 25], Ud).
Example C107_nonvacuous : eigen_contract solver_d Hd /\ isometry (basis md) /\ hermitian Hd /\ lower_triangle (DiagModel.entries md) Hd /\
  nr Hd = nc (basis md) /\ nc Hd = nc (basis md) /\ fst (at_ (DiagModel.entries (diagonalize solver_d md)) 1 1) = 25.
Proof.
  split.
  { intros A n E <-. cbn [solver_d]. split; [reflexivity|]. split; [repeat constructor; lra|]. split; [split; [reflexivity|split; [reflexivity|split; entries]]|entries]. }
  split; [entries|]. split; [entries|]. split; [|split; [reflexivity|split; reflexivity]].
  split; [reflexivity|]. split; [reflexivity|]. intros i j I J. cbn in I. destruct i as [|[|]]; [| |lia]; destruct j as [|[|]]; try lia; reflexivity.
Qed.

(** The deviation is real: for eigenvectors at an angle of about 2e-5 to the basis the stored vectors have lost the admixture completely and are
    shorter than 1. *)
Definition cs_ : R := (1 - 1/100000 * (1/100000)) / (1 + 1/100000 * (1/100000)).
Definition sn_ : R := 2 * (1/100000) / (1 + 1/100000 * (1/100000)).
Definition Us : mat CR := clist 2 2 [[cs_; - sn_]; [sn_; cs_]].
Definition Hs : mat CR := clist 2 2 [[sn_ * sn_; - (cs_ * sn_)]; [- (cs_ * sn_); cs_ * cs_]].
Lemma abs_c : forall x, sqrt (x * x + 0 * 0) = Rabs x.
Proof. intro. replace (x * x + 0 * 0) with (Rsqr x) by (unfold Rsqr; ring). apply sqrt_Rsqr_abs. Qed.
Lemma pruned_real : forall A i j x, at_ A i j = creal x -> at_ (pruned A) i j = if Rle_dec (Rabs x) cut then (0, 0) else creal x.
Proof. intros A i j x E. cbn. rewrite E. cbn. rewrite abs_c. reflexivity. Qed.
Example C107_lost_example : eigen_contract (fun _ => ([0; 1], Us)) Hs /\ hermitian Hs /\ isometry (mid (K:=CR) 2) /\
  let r := basis (diagonalize (fun _ => ([0; 1], Us)) (HMat Hs (mid 2))) in at_ r 1 0 = (0, 0) /\ at_ r 0 1 = (0, 0) /\ norm2 r 0 < 1.
Proof.
  assert (Cs : cs_ * cs_ + sn_ * sn_ = 1) by (unfold cs_, sn_; field). assert (S0 : 0 < sn_) by (unfold sn_; lra). assert (S1 : sn_ < cut) by (unfold sn_, cut; lra).
  assert (C1 : cut < cs_) by (unfold cs_, cut; lra). assert (CP := cut_pos).
  split.
  { intros A n E <-. split; [reflexivity|]. split; [repeat constructor; lra|]. split; [split; [reflexivity|split; [reflexivity|split]]|];
    (split; [reflexivity|]; split; [reflexivity|]; intros i j Hi Hj; cbn in Hi, Hj; destruct i as [|[|]]; try lia; destruct j as [|[|]]; try lia;
     apply injective_projections; cbn; try lra; generalize dependent cs_; generalize dependent sn_; intros s _ _ c Cs _; clear - Cs;
     assert (F1 : c * (c * c + s * s) = c) by (rewrite Cs; ring); assert (F2 : s * (c * c + s * s) = s) by (rewrite Cs; ring); lra). }
  split; [entries|]. split; [entries|]. intros r.
  assert (P00 : at_ (pruned Us) 0 0 = creal cs_) by (rewrite (@pruned_real Us 0 0 cs_ eq_refl); rewrite Rabs_pos_eq by lra; destruct (Rle_dec cs_ cut); [lra|reflexivity]).
  assert (P11 : at_ (pruned Us) 1 1 = creal cs_) by (rewrite (@pruned_real Us 1 1 cs_ eq_refl); rewrite Rabs_pos_eq by lra; destruct (Rle_dec cs_ cut); [lra|reflexivity]).
  assert (P10 : at_ (pruned Us) 1 0 = (0, 0)) by (rewrite (@pruned_real Us 1 0 sn_ eq_refl); rewrite Rabs_pos_eq by lra; destruct (Rle_dec sn_ cut); [reflexivity|lra]).
  assert (P01 : at_ (pruned Us) 0 1 = (0, 0)) by (rewrite (@pruned_real Us 0 1 (- sn_) eq_refl); rewrite Rabs_Ropp, Rabs_pos_eq by lra; destruct (Rle_dec sn_ cut); [reflexivity|lra]).
  assert (M : meq (mmul (mid 2) (pruned Us)) (pruned Us)) by (apply mmul_id_l; reflexivity). destruct M as (_ & _ & M).
  assert (R : forall i j x, (i < 2)%nat -> (j < 2)%nat -> at_ (pruned Us) i j = creal x -> at_ r i j = if Rle_dec (Rabs x) cut then (0, 0) else creal x).
  { intros i j x I J E. change r with (pruned (mmul (mid 2) (pruned Us))). apply pruned_real. rewrite M; auto. }
  assert (Z : forall y : CR, (if Rle_dec (Rabs 0) cut then (0, 0) else y) = (0, 0)) by (intro; rewrite Rabs_R0; destruct (Rle_dec 0 cut); [reflexivity|lra]).
  assert (R10 : at_ r 1 0 = (0, 0)) by (rewrite (@R 1%nat 0%nat 0) by (lia || exact P10); apply Z).
  assert (R01 : at_ r 0 1 = (0, 0)) by (rewrite (@R 0%nat 1%nat 0) by (lia || exact P01); apply Z).
  assert (R00 : at_ r 0 0 = creal cs_) by (rewrite (@R 0%nat 0%nat cs_) by (lia || exact P00); rewrite Rabs_pos_eq by lra; destruct (Rle_dec cs_ cut); [lra|reflexivity]).
  split; [exact R10|]. split; [exact R01|]. unfold norm2. change (nr r) with 2%nat. cbn [total]. rewrite R00, R10. unfold square_of. cbn. 
  assert (0 < sn_ * sn_) by (apply Rmult_lt_0_compat; exact S0). lra.
Qed.
Print Assumptions C107_eigen.
