(** C76: the pair basis of the command line program (Hamiltonianmatrix.cpp combine).

    [combine rt keep lhs rhs names sym]: rt is 1/sqrt(2), keep is the energy cutoff.  [names2 (build2 start b1 b2)] is the pair
    basis built from the one-atom bases b1 and b2. *)
From Coq Require Import ZArith Lia Bool List Permutation.
Import ListNotations.
From Verif Require Import Base Matrix BasisnamesModel CombineModel CombineSpec OverlapProofs BasisProofs PropNames CombineProofs CombineProofs2 CombineProofs3 CombineProofs4 CombineProofs5.
Set Implicit Arguments.
Local Open Scope star_scope.

(** No symmetry: the basis vectors are the products of the one-atom basis vectors, in lexicographic order, those outside of the
    energy cutoff are left out; the energies are the sums; an orthonormal basis results from orthonormal bases. *)
Theorem C76_product : forall (K : StarRing) (rt : K) keep (lhs rhs : hmat K) b1 b2 start,
  over lhs b1 -> over rhs b2 -> half b1 -> half b2 -> small b1 b2 ->
  let ps := pairs_with (dim lhs) (dim rhs) (fun c1 c2 => keep (energy lhs c1 + energy rhs c2)) in
  exists M, combine rt keep lhs rhs (names2 (build2 start b1 b2)) (Sym NA NA NA None) = Ok M /\
  coords M = (coords lhs * coords rhs)%nat /\ dim M = length ps /\ length (ediag M) = length ps /\
  (forall k c1 c2, nth_error ps k = Some (c1, c2) -> energy M k = energy lhs c1 + energy rhs c2 /\
    forall r, bvec M k r = kron (coords rhs) (bvec lhs c1) (bvec rhs c2) r) /\
  (orthonormal lhs -> orthonormal rhs -> orthonormal M).
Proof.
  intros K rt keep lhs rhs b1 b2 start O1 O2 H1 H2 S ps.
  destruct (@combine_noref K rt keep lhs rhs b1 b2 start (Sym NA NA NA None) (fun _ => 0%Z) (fun _ => 0%Z) (fun _ => 0%Z) (fun _ => 0%Z)) as (M & E & C & D & L & F); auto; try discriminate.
  { intros X; destruct X; reflexivity. } { intros X; destruct X; reflexivity. }
  assert (P : pairs_with (dim lhs) (dim rhs) (fun c1 c2 => negb (skipped (Sym NA NA NA None) c1 c2) && keep (energy lhs c1 + energy rhs c2) &&
     sel_pair (Sym NA NA NA None) (fun _ => 0%Z) (fun _ => 0%Z) (fun _ => 0%Z) (fun _ => 0%Z) c1 c2) = ps).
  { unfold ps, pairs_with. apply filter_ext. intros [c1 c2]. cbn. rewrite andb_true_r. reflexivity. }
  rewrite P in *. exists M. do 4 (split; [assumption|]).
  assert (F' : forall k c1 c2, nth_error ps k = Some (c1, c2) -> energy M k = energy lhs c1 + energy rhs c2 /\ forall r, bvec M k r = kron (coords rhs) (bvec lhs c1) (bvec rhs c2) r).
  { intros k c1 c2 Hk. destruct (F _ _ _ Hk) as [F1 F2]. split; auto. }
  split; [exact F'|]. intros Q1 Q2. apply (@orth_prod K lhs rhs M ps); auto; [apply nodup_pairs|..].
  - intros c1 c2 H. apply in_pairs_with in H. tauto.
  - intros k c1 c2 Hk. apply (F' _ _ _ Hk).
Qed.

(** Total magnetic quantum number R: if every one-atom basis vector has a definite magnetic quantum number, exactly the products
    with total magnetic quantum number R remain.  (Quantum numbers are doubled: mm is 2m.) *)
Theorem C76_rotation_partial : forall (K : StarRing) (rt : K) keep (lhs rhs : hmat K) b1 b2 start R m1 m2,
  over lhs b1 -> over rhs b2 -> half b1 -> half b2 -> small b1 b2 ->
  (forall k, k < dim lhs -> definite lhs b1 mm k (m1 k))%nat -> (forall k, k < dim rhs -> definite rhs b2 mm k (m2 k))%nat ->
  let ps := pairs_with (dim lhs) (dim rhs) (fun c1 c2 => keep (energy lhs c1 + energy rhs c2) && (m1 c1 + m2 c2 =? 2 * R)%Z) in
  exists M, combine rt keep lhs rhs (names2 (build2 start b1 b2)) (Sym NA NA NA (Some R)) = Ok M /\
  coords M = (coords lhs * coords rhs)%nat /\ dim M = length ps /\ length (ediag M) = length ps /\
  (forall k c1 c2, nth_error ps k = Some (c1, c2) -> energy M k = energy lhs c1 + energy rhs c2 /\
    forall r, bvec M k r = kron (coords rhs) (bvec lhs c1) (bvec rhs c2) r) /\
  (orthonormal lhs -> orthonormal rhs -> orthonormal M).
Proof.
  intros K rt keep lhs rhs b1 b2 start R m1 m2 O1 O2 H1 H2 S D1 D2 ps.
  destruct (@combine_noref K rt keep lhs rhs b1 b2 start (Sym NA NA NA (Some R)) m1 m2 (fun _ => 0%Z) (fun _ => 0%Z)) as (M & E & C & D & L & F); auto; try discriminate.
  assert (P : pairs_with (dim lhs) (dim rhs) (fun c1 c2 => negb (skipped (Sym NA NA NA (Some R)) c1 c2) && keep (energy lhs c1 + energy rhs c2) &&
     sel_pair (Sym NA NA NA (Some R)) m1 m2 (fun _ => 0%Z) (fun _ => 0%Z) c1 c2) = ps).
  { unfold ps, pairs_with. apply filter_ext. intros [c1 c2]. unfold sel_pair, sel_ok. cbn [skipped inv per ref rot used orb negb andb fst snd]. rewrite andb_true_r, Z.eqb_sym. reflexivity. }
  rewrite P in *. exists M. do 4 (split; [assumption|]).
  assert (F' : forall k c1 c2, nth_error ps k = Some (c1, c2) -> energy M k = energy lhs c1 + energy rhs c2 /\ forall r, bvec M k r = kron (coords rhs) (bvec lhs c1) (bvec rhs c2) r).
  { intros k c1 c2 Hk. destruct (F _ _ _ Hk) as [F1 F2]. split; auto. }
  split; [exact F'|]. intros Q1 Q2. apply (@orth_prod K lhs rhs M ps); auto; [apply nodup_pairs|..].
  - intros c1 c2 H. apply in_pairs_with in H. tauto.
  - intros k c1 c2 Hk. apply (F' _ _ _ Hk).
Qed.

(** which pairs of basis vectors of two equal atoms the two sectors of a symmetry contain, and the eigenvalue *)
Definition ordered (p : par) (c1 c2 : nat) : bool := match p with EVEN => Nat.ltb c2 c1 | _ => Nat.leb c2 c1 end.
Definition value (p : par) : Z := match p with EVEN => (-1)%Z | _ => 1%Z end.

Section Same.
Variable K : StarRing.
Add Ring KRing : (s_ring K).
Lemma kron_swap : forall n (u v : nat -> K) r, (r < n * n)%nat -> kron n u v (swapc n r) = kron n v u r.
Proof. intros n u v r H. unfold kron. destruct (swapc_parts _ H) as [-> ->]. ring. Qed.
Lemma wsym_exchange : forall rt n (V : nat -> nat -> K) s c1 c2 r, (r < n * n)%nat -> (c1 = c2 -> s = 1%Z) ->
  exchange n (@wsym K rt n V s c1 c2) r = sc s (@wsym K rt n V s c1 c2 r).
Proof.
  intros rt n V s c1 c2 r H E. unfold exchange, wsym. destruct (Nat.eqb_spec c1 c2) as [->|N].
  - rewrite E by reflexivity. rewrite kron_swap by auto. reflexivity.
  - rewrite !kron_swap by auto. rewrite sc_zK. transitivity (rt * (kron n (V c2) (V c1) r + zK K s * kron n (V c1) (V c2) r)); [reflexivity|].
    replace (zK K s * (rt * (kron n (V c1) (V c2) r + zK K s * kron n (V c2) (V c1) r)))
      with (rt * (zK K s * zK K s * kron n (V c2) (V c1) r + zK K s * kron n (V c1) (V c2) r)) by ring.
    rewrite zK_sq. ring.
Qed.
Lemma smul_comm : forall x y : K, x * y = y * x. Proof. intros. ring. Qed.
End Same.

(** Permutation symmetry of two atoms in the same states: the basis vectors are (u v - v u)/sqrt(2) (EVEN) and
    (u v + v u)/sqrt(2), u u (ODD); they are orthonormal eigenvectors of the exchange of the atoms. *)
Theorem C76_permutation : forall (K : StarRing) (rt : K) keep (h : hmat K) b start p,
  rt * rt + rt * rt = 1 -> sconj rt = rt -> p <> NA -> over h b -> half b -> small b b ->
  let n := coords h in
  let ps := pairs_with (dim h) (dim h) (fun c1 c2 => ordered p c1 c2 && keep (energy h c1 + energy h c2)) in
  exists M, combine rt keep h h (names2 (build2 start b b)) (Sym NA NA p None) = Ok M /\
  coords M = (n * n)%nat /\ dim M = length ps /\ length (ediag M) = length ps /\
  (forall k c1 c2, nth_error ps k = Some (c1, c2) -> energy M k = energy h c1 + energy h c2 /\
    forall r, bvec M k r = if Nat.eqb c1 c2 then kron n (bvec h c1) (bvec h c2) r
                           else rt * (kron n (bvec h c1) (bvec h c2) r + sc (value p) (kron n (bvec h c2) (bvec h c1) r))) /\
  (forall k r, (k < dim M)%nat -> (r < n * n)%nat -> exchange n (bvec M k) r = sc (value p) (bvec M k r)) /\
  (orthonormal h -> orthonormal M).
Proof.
  intros K rt keep h b start p RT RC NP O H S n ps.
  destruct (@combine_noref K rt keep h h b b start (Sym NA NA p None) (fun _ => 0%Z) (fun _ => 0%Z) (fun _ => 0%Z) (fun _ => 0%Z)) as (M & E & C & D & L & F); auto; try discriminate.
  { intros X; destruct X; reflexivity. } { intros X; destruct X; reflexivity. }
  assert (P : pairs_with (dim h) (dim h) (fun c1 c2 => negb (skipped (Sym NA NA p None) c1 c2) && keep (energy h c1 + energy h c2) &&
     sel_pair (Sym NA NA p None) (fun _ => 0%Z) (fun _ => 0%Z) (fun _ => 0%Z) (fun _ => 0%Z) c1 c2) = ps).
  { unfold ps, pairs_with. apply filter_ext. intros [c1 c2]. unfold sel_pair, sel_ok, skipped, ordered. cbn [inv per ref rot used orb negb andb fst snd]. rewrite andb_true_r.
    f_equal. destruct p; [contradiction|symmetry; apply Nat.ltb_antisym|symmetry; apply Nat.leb_antisym]. }
  rewrite P in *. exists M. do 4 (split; [assumption|]).
  assert (F' : forall k c1 c2, nth_error ps k = Some (c1, c2) -> forall r, bvec M k r = @wsym K rt n (bvec h) (value p) c1 c2 r).
  { intros k c1 c2 Hk r. destruct (F _ _ _ Hk) as [_ F2]. rewrite F2. unfold sympair, wsym. cbn [inv per].
    assert (U : used p = true) by (destruct p; [contradiction|reflexivity|reflexivity]). rewrite U. cbn [used orb andb]. destruct (Nat.eqb c1 c2); cbn [negb]; [reflexivity|].
    rewrite <- sc_zK. unfold kron at 3. unfold sel_sign. cbn [inv used persign]. fold n. f_equal. f_equal. unfold persign, value. cbn [per].
    rewrite (@smul_comm K (bvec h c1 (r mod n)%nat)). reflexivity. }
  assert (I : forall c1 c2, In (c1, c2) ps -> (c2 <= c1 < dim h)%nat /\ (c1 = c2 -> value p = 1%Z)).
  { intros c1 c2 Hi. apply in_pairs_with in Hi. destruct Hi as [B Hi]. apply andb_true_iff in Hi. destruct Hi as [Hi _]. unfold ordered, value in *.
    destruct p; [contradiction|apply Nat.ltb_lt in Hi|apply Nat.leb_le in Hi]; split; lia. }
  split; [|split].
  - intros k c1 c2 Hk. split; [apply (F _ _ _ Hk)|]. intros r. rewrite (F' _ _ _ Hk). unfold wsym. destruct (Nat.eqb c1 c2); [reflexivity|]. rewrite sc_zK. reflexivity.
  - intros k r Hk Hr. rewrite D in Hk. destruct (nth_error ps k) as [[c1 c2]|] eqn:N; [|apply nth_error_None in N; lia].
    unfold exchange at 1. rewrite !(F' _ _ _ N). apply (@wsym_exchange K rt n (bvec h) (value p)); auto. apply I. eapply nth_error_In; eauto.
  - intros OH. apply (@orth_sym K rt RT RC h M (fun _ _ => value p) ps); auto; [apply nodup_pairs|]. intros c1 c2 Hi. apply I; auto.
Qed.

Section Inv.
Variable K : StarRing.
Add Ring KRing2 : (s_ring K).
Notation zK := (zK K).
Lemma zK_mul : forall x y, (x = 1 \/ x = -1)%Z -> (y = 1 \/ y = -1)%Z -> zK (x * y) = zK x * zK y.
Proof. intros x y [->| ->] [->| ->]; unfold CombineProofs3.zK; cbn; ring. Qed.
Lemma parity_pm : forall b i, (parity b i = 1 \/ parity b i = -1)%Z.
Proof. intros. unfold parity. destruct (nth_error _ _); auto. apply sg_cases. Qed.
Lemma definite_pm : forall (h : hmat K) b k q, over h b -> (k < dim h)%nat -> definite h b (fun s => sg (l_ s)) k q -> (q = 1 \/ q = -1)%Z.
Proof.
  intros h b k q (C & _ & V) Hk D. destruct (V (nth k (bcols h) [])) as [N R]; [apply nth_In; auto|]. unfold definite in D.
  destruct (nth k (bcols h) []) as [|e c]; [contradiction|]. specialize (R e (or_introl eq_refl)). rewrite C in R.
  destruct (nth_error (names1 b) (fst e)) as [s|] eqn:E; [|apply nth_error_None in E; lia]. rewrite <- (D e s); [apply sg_cases|left; reflexivity|auto].
Qed.
Lemma parity_coef : forall (h : hmat K) b k q i, definite h b (fun s => sg (l_ s)) k q -> (i < length (names1 b))%nat -> zK (parity b i) * bvec h k i = zK q * bvec h k i.
Proof.
  intros h b k q i D Hi. unfold bvec. destruct (existsb (fun e => Nat.eqb (fst e) i) (nth k (bcols h) [])) eqn:X.
  - apply existsb_exists in X. destruct X as (e & I & E). apply Nat.eqb_eq in E. destruct (nth_error (names1 b) i) as [s|] eqn:N; [|apply nth_error_None in N; lia].
    unfold parity. rewrite N. rewrite (D e s I) by congruence. reflexivity.
  - rewrite coef_out; [ring|]. intros e I E. assert (true = false); [|discriminate]. rewrite <- X. symmetry. apply existsb_exists. exists e. split; auto. apply Nat.eqb_eq; auto.
Qed.

Lemma wsym_inverted : forall rt (h : hmat K) b q v c1 c2 r, (r < coords h * coords h)%nat -> over h b -> (c1 < dim h)%nat -> (c2 < dim h)%nat ->
  (forall k, k < dim h -> definite h b (fun s => sg (l_ s)) k (q k))%nat -> (v = 1 \/ v = -1)%Z -> (c1 = c2 -> v = 1%Z) ->
  inverted b (wsym K rt (coords h) (bvec h) (v * (q c1 * q c2)) c1 c2) r = sc v (wsym K rt (coords h) (bvec h) (v * (q c1 * q c2)) c1 c2 r).
Proof.
  intros rt h b q v c1 c2 r Hr O H1 H2 D V E. pose proof O as (C & _ & _). set (n := coords h) in *. unfold inverted. rewrite <- C. fold n.
  assert (N0 : n <> 0%nat) by lia.
  assert (Bd : (r / n < n)%nat) by (apply Nat.div_lt_upper_bound; auto). assert (Bm : (r mod n < n)%nat) by (apply Nat.mod_upper_bound; auto).
  assert (Q1 := definite_pm O H1 (D _ H1)). assert (Q2 := definite_pm O H2 (D _ H2)).
  assert (PK : forall a c, (a < dim h)%nat -> (c < dim h)%nat -> zK (parity b (r / n) * parity b (r mod n)) * kron n (bvec h a) (bvec h c) r = zK (q a * q c) * kron n (bvec h a) (bvec h c) r).
  { intros a c Ha Hc. assert (Qa := definite_pm O Ha (D _ Ha)). assert (Qc := definite_pm O Hc (D _ Hc)). rewrite !zK_mul by (auto using parity_pm). unfold kron.
    transitivity ((zK (parity b (r / n)) * bvec h a (r / n)%nat) * (zK (parity b (r mod n)) * bvec h c (r mod n)%nat)); [ring|].
    rewrite (@parity_coef h b a (q a)), (@parity_coef h b c (q c)) by (auto; rewrite <- C; auto). ring. }
  rewrite !sc_zK. unfold wsym. destruct (Nat.eqb_spec c1 c2) as [<-|Nc].
  - rewrite kron_swap, PK by auto. rewrite E by reflexivity. f_equal. rewrite zK_mul, zK_sq by auto. unfold CombineProofs3.zK. reflexivity.
  - rewrite !kron_swap by auto. set (P := zK (parity b (r / n) * parity b (r mod n))) in *.
    transitivity (rt * (P * kron n (bvec h c2) (bvec h c1) r + zK (v * (q c1 * q c2)) * (P * kron n (bvec h c1) (bvec h c2) r))); [ring|].
    unfold P. rewrite !PK by auto. assert (Q12 : (q c1 * q c2 = 1 \/ q c1 * q c2 = -1)%Z) by (destruct Q1 as [->| ->], Q2 as [->| ->]; auto).
    rewrite (Z.mul_comm (q c2)). rewrite (zK_mul V Q12). set (z := zK (q c1 * q c2)). assert (Z2 : z * z = 1) by apply zK_sq. assert (V2 : zK v * zK v = 1) by apply zK_sq.
    transitivity (rt * (z * kron n (bvec h c2) (bvec h c1) r + zK v * (z * z) * kron n (bvec h c1) (bvec h c2) r)); [ring|]. rewrite Z2.
    transitivity (rt * (zK v * kron n (bvec h c1) (bvec h c2) r + zK v * zK v * z * kron n (bvec h c2) (bvec h c1) r)); [rewrite V2; ring|ring].
Qed.

Lemma value_pm : forall p, (value p = 1 \/ value p = -1)%Z. Proof. intros []; cbn; auto. Qed.
Lemma ordered_value : forall p c1 c2, ordered p c1 c2 = true -> (c2 <= c1)%nat /\ (c1 = c2 -> value p = 1%Z).
Proof. intros [] c1 c2 H; cbn in *; [apply Nat.leb_le in H|apply Nat.ltb_lt in H|apply Nat.leb_le in H]; split; lia. Qed.
Lemma ordered_skipped : forall p c1 c2, p <> NA ->
  match p with EVEN => Nat.leb c1 c2 | ODD => Nat.ltb c1 c2 | NA => false end = negb (ordered p c1 c2).
Proof. intros [] c1 c2 N; cbn; [contradiction|apply Nat.leb_antisym|apply Nat.ltb_antisym]. Qed.
End Inv.

(** Inversion symmetry of two atoms in the same states, if every one-atom basis vector has a definite parity q (no electric
    field): the basis vectors are orthonormal eigenvectors of the inversion.  The eigenvalue of EVEN (gerade) is -1, of ODD +1. *)
Theorem C76_inversion_partial : forall (K : StarRing) (rt : K) keep (h : hmat K) b start p q,
  rt * rt + rt * rt = 1 -> sconj rt = rt -> p <> NA -> over h b -> half b -> small b b ->
  (forall k, k < dim h -> definite h b (fun s => sg (l_ s)) k (q k))%nat ->
  let n := coords h in
  let ps := pairs_with (dim h) (dim h) (fun c1 c2 => ordered p c1 c2 && keep (energy h c1 + energy h c2)) in
  exists M, combine rt keep h h (names2 (build2 start b b)) (Sym p NA NA None) = Ok M /\
  coords M = (n * n)%nat /\ dim M = length ps /\ length (ediag M) = length ps /\
  (forall k c1 c2, nth_error ps k = Some (c1, c2) -> energy M k = energy h c1 + energy h c2 /\
    forall r, bvec M k r = if Nat.eqb c1 c2 then kron n (bvec h c1) (bvec h c2) r
                           else rt * (kron n (bvec h c1) (bvec h c2) r + sc (value p * (q c1 * q c2)) (kron n (bvec h c2) (bvec h c1) r))) /\
  (forall k r, (k < dim M)%nat -> (r < n * n)%nat -> inverted b (bvec M k) r = sc (value p) (bvec M k r)) /\
  (orthonormal h -> orthonormal M).
Proof.
  intros K rt keep h b start p q RT RC NP O H S DQ n ps.
  destruct (@combine_noref K rt keep h h b b start (Sym p NA NA None) (fun _ => 0%Z) (fun _ => 0%Z) q q) as (M & E & C & D & L & F); auto; try discriminate.
  { intros X; destruct X; reflexivity. } { intros X; destruct X; reflexivity. }
  assert (U : used p = true) by (destruct p; [contradiction|reflexivity|reflexivity]).
  assert (P : pairs_with (dim h) (dim h) (fun c1 c2 => negb (skipped (Sym p NA NA None) c1 c2) && keep (energy h c1 + energy h c2) &&
     sel_pair (Sym p NA NA None) (fun _ => 0%Z) (fun _ => 0%Z) q q c1 c2) = ps).
  { unfold ps, pairs_with. apply filter_ext. intros [c1 c2]. unfold sel_pair, sel_ok, skipped. cbn [inv per ref rot used orb negb andb fst snd].
    rewrite (ordered_skipped c1 c2 NP). rewrite orb_false_r, negb_involutive, andb_false_r. cbn [andb negb]. rewrite andb_true_r. reflexivity. }
  rewrite P in *. exists M. do 4 (split; [assumption|]).
  assert (F' : forall k c1 c2, nth_error ps k = Some (c1, c2) -> forall r, bvec M k r = @wsym K rt n (bvec h) (value p * (q c1 * q c2)) c1 c2 r).
  { intros k c1 c2 Hk r. destruct (F _ _ _ Hk) as [_ F2]. rewrite F2. unfold sympair, wsym. cbn [inv per].
    rewrite U. cbn [used orb andb]. destruct (Nat.eqb c1 c2); cbn [negb]; [reflexivity|].
    rewrite <- sc_zK. unfold kron at 3. unfold sel_sign. cbn [inv]. rewrite U. fold n. f_equal. f_equal.
    rewrite (@smul_comm K (bvec h c1 (r mod n)%nat)). f_equal. unfold invsign, value. cbn [inv]. destruct p; [contradiction| |]; lia. }
  assert (I : forall c1 c2, In (c1, c2) ps -> (c2 <= c1 < dim h)%nat /\ (c1 = c2 -> value p = 1%Z)).
  { intros c1 c2 Hi. apply in_pairs_with in Hi. destruct Hi as [B Hi]. apply andb_true_iff in Hi. destruct Hi as [Hi _]. apply ordered_value in Hi. tauto. }
  split; [|split].
  - intros k c1 c2 Hk. split; [apply (F _ _ _ Hk)|]. intros r. rewrite (F' _ _ _ Hk). unfold wsym. destruct (Nat.eqb c1 c2); [reflexivity|]. rewrite sc_zK. reflexivity.
  - intros k r Hk Hr. rewrite D in Hk. destruct (nth_error ps k) as [[c1 c2]|] eqn:N; [|apply nth_error_None in N; lia].
    destruct (I c1 c2) as [B V1]; [eapply nth_error_In; eauto|].
    unfold inverted at 1. rewrite !(F' _ _ _ N). apply (@wsym_inverted K rt h b q (value p) c1 c2 r); auto; try lia. apply value_pm.
  - intros OH. apply (@orth_sym K rt RT RC h M (fun c1 c2 => value p * (q c1 * q c2))%Z ps); auto; [apply nodup_pairs|]. intros c1 c2 Hi. apply I; auto.
Qed.

(** Inversion and permutation symmetry together: each block contains the symmetrised products with the matching parity. *)
Theorem C76_inversion_permutation_partial : forall (K : StarRing) (rt : K) keep (h : hmat K) b start p p' q,
  rt * rt + rt * rt = 1 -> sconj rt = rt -> p <> NA -> p' <> NA -> over h b -> half b -> small b b ->
  (forall k, k < dim h -> definite h b (fun s => sg (l_ s)) k (q k))%nat ->
  let n := coords h in
  let ps := pairs_with (dim h) (dim h) (fun c1 c2 => ordered p c1 c2 && ordered p' c1 c2 && keep (energy h c1 + energy h c2) &&
      (Nat.eqb c1 c2 || (value p * (q c1 * q c2) =? value p')%Z)) in
  exists M, combine rt keep h h (names2 (build2 start b b)) (Sym p NA p' None) = Ok M /\
  coords M = (n * n)%nat /\ dim M = length ps /\ length (ediag M) = length ps /\
  (forall k c1 c2, nth_error ps k = Some (c1, c2) -> energy M k = energy h c1 + energy h c2 /\
    forall r, bvec M k r = if Nat.eqb c1 c2 then kron n (bvec h c1) (bvec h c2) r
                           else rt * (kron n (bvec h c1) (bvec h c2) r + sc (value p') (kron n (bvec h c2) (bvec h c1) r))) /\
  (forall k r, (k < dim M)%nat -> (r < n * n)%nat ->
    inverted b (bvec M k) r = sc (value p) (bvec M k r) /\ exchange n (bvec M k) r = sc (value p') (bvec M k r)) /\
  (orthonormal h -> orthonormal M).
Proof.
  intros K rt keep h b start p p' q RT RC NP NP' O H S DQ n ps.
  destruct (@combine_noref K rt keep h h b b start (Sym p NA p' None) (fun _ => 0%Z) (fun _ => 0%Z) q q) as (M & E & C & D & L & F); auto; try discriminate.
  { intros X; destruct X; reflexivity. } { intros X; destruct X; reflexivity. }
  assert (U : used p = true) by (destruct p; [contradiction|reflexivity|reflexivity]).
  assert (U' : used p' = true) by (destruct p'; [contradiction|reflexivity|reflexivity]).
  assert (IV : forall x, invsign (Sym p NA p' None) x = (value p * x)%Z) by (intros x; unfold invsign, value; cbn [inv]; destruct p; [contradiction| |]; lia).
  assert (PV : persign (Sym p NA p' None) = value p') by reflexivity.
  assert (P : pairs_with (dim h) (dim h) (fun c1 c2 => negb (skipped (Sym p NA p' None) c1 c2) && keep (energy h c1 + energy h c2) &&
     sel_pair (Sym p NA p' None) (fun _ => 0%Z) (fun _ => 0%Z) q q c1 c2) = ps).
  { unfold ps, pairs_with. apply filter_ext. intros [c1 c2]. unfold sel_pair, sel_ok, skipped. rewrite IV, PV. cbn [inv per ref rot fst snd].
    rewrite (ordered_skipped c1 c2 NP), (ordered_skipped c1 c2 NP'), U, U'. rewrite negb_orb, !negb_involutive. cbn [andb]. rewrite negb_andb, !negb_involutive. reflexivity. }
  rewrite P in *. exists M. do 4 (split; [assumption|]).
  assert (I : forall c1 c2, In (c1, c2) ps -> (c2 <= c1 < dim h)%nat /\ (c1 = c2 -> value p = 1%Z) /\ (c1 = c2 -> value p' = 1%Z) /\ (c1 <> c2 -> (value p * (q c1 * q c2))%Z = value p')).
  { intros c1 c2 Hi. apply in_pairs_with in Hi. destruct Hi as [B Hi]. apply andb_true_iff in Hi. destruct Hi as [Hi S1]. apply andb_true_iff in Hi. destruct Hi as [Hi _].
    apply andb_true_iff in Hi. destruct Hi as [Hi Hi']. apply ordered_value in Hi. apply ordered_value in Hi'. repeat split; try tauto; try lia. intros N.
    apply orb_true_iff in S1. destruct S1 as [S1|S1]; [apply Nat.eqb_eq in S1; contradiction|apply Z.eqb_eq; auto]. }
  assert (F' : forall k c1 c2, nth_error ps k = Some (c1, c2) -> forall r, bvec M k r = @wsym K rt n (bvec h) (value p') c1 c2 r).
  { intros k c1 c2 Hk r. destruct (F _ _ _ Hk) as [_ F2]. rewrite F2. unfold sympair, wsym. cbn [inv per].
    rewrite U, U'. cbn [used orb andb]. destruct (Nat.eqb_spec c1 c2); cbn [negb]; [reflexivity|].
    rewrite <- sc_zK. unfold kron at 3. unfold sel_sign. rewrite IV. cbn [inv]. rewrite U. fold n. f_equal. f_equal.
    rewrite (@smul_comm K (bvec h c1 (r mod n)%nat)). f_equal. apply I; auto. eapply nth_error_In; eauto. }
  assert (WI : forall c1 c2, In (c1, c2) ps -> forall r, @wsym K rt n (bvec h) (value p') c1 c2 r = @wsym K rt n (bvec h) (value p * (q c1 * q c2)) c1 c2 r).
  { intros c1 c2 Hi r. unfold wsym. destruct (Nat.eqb_spec c1 c2); [reflexivity|]. destruct (I _ _ Hi) as (_ & _ & _ & I4). rewrite I4 by auto. reflexivity. }
  split; [|split].
  - intros k c1 c2 Hk. split; [apply (F _ _ _ Hk)|]. intros r. rewrite (F' _ _ _ Hk). unfold wsym. destruct (Nat.eqb c1 c2); [reflexivity|]. rewrite sc_zK. reflexivity.
  - intros k r Hk Hr. rewrite D in Hk. destruct (nth_error ps k) as [[c1 c2]|] eqn:N; [|apply nth_error_None in N; lia].
    assert (Hi := nth_error_In _ _ N). destruct (I c1 c2 Hi) as (B & V1 & V2 & V3). split.
    + unfold inverted at 1. rewrite !(F' _ _ _ N), !(WI _ _ Hi). apply (@wsym_inverted K rt h b q (value p) c1 c2 r); auto; try lia. apply value_pm.
    + unfold exchange. rewrite !(F' _ _ _ N). apply (@wsym_exchange K rt n (bvec h) (value p')); auto.
  - intros OH. apply (@orth_sym K rt RT RC h M (fun _ _ => value p') ps); auto; [apply nodup_pairs|]. intros c1 c2 Hi. apply I; auto.
Qed.

Section Complete.
Variable K : StarRing.
Add Ring KRing3 : (s_ring K).
Notation zK := (zK K).
Variable rt : K.
Hypothesis RT : rt * rt + rt * rt = 1.

Lemma count_swap : forall n (f : nat -> nat -> bool), (forall a b, f a b = f b a) ->
  (length (pairs_with n n (fun a b => ordered ODD a b && f a b)) + length (pairs_with n n (fun a b => ordered EVEN a b && f a b)) =
   length (pairs_with n n f))%nat.
Proof.
  intros n f Sy.
  set (up := pairs_with n n (fun a b => Nat.ltb a b && f a b)).
  assert (L1 : length (pairs_with n n (fun a b => ordered EVEN a b && f a b)) = length up).
  { rewrite <- (map_length (fun c => (snd c, fst c)) up). apply Nat.le_antisymm; apply NoDup_incl_length.
    - apply nodup_pairs.
    - intros [a b] I. apply in_pairs_with in I. destruct I as [B I]. apply in_map_iff. exists (b, a). split; auto. apply in_pairs_with. rewrite (Sy b a). split; [tauto|exact I].
    - apply FinFun.Injective_map_NoDup; [|apply nodup_pairs]. intros [a b] [a' b'] X. cbn in X. injection X as -> ->. reflexivity.
    - intros [a b] I. apply in_map_iff in I. destruct I as ([c d] & X & I). cbn in X. injection X as -> ->. apply in_pairs_with in I. apply in_pairs_with. rewrite (Sy a b). split; [tauto|apply I]. }
  rewrite L1. unfold up, pairs_with, ordered. induction (list_prod (seq 0 n) (seq 0 n)) as [|[a b] l IH]; [reflexivity|]. cbn [filter fst snd].
  destruct (f a b); rewrite ?andb_true_r, ?andb_false_r; [|exact IH]. destruct (Nat.leb_spec b a), (Nat.ltb_spec a b); cbn [length]; lia.
Qed.

(** both sectors together contain all products *)
Lemma complete_sym : forall keep (h Mo Me : hmat K) (s : nat -> nat -> Z),
  (forall a b, s a b = 1 \/ s a b = -1)%Z -> 
  let n := coords h in
  let po := pairs_with (dim h) (dim h) (fun c1 c2 => ordered ODD c1 c2 && keep (energy h c1 + energy h c2)) in
  let pe := pairs_with (dim h) (dim h) (fun c1 c2 => ordered EVEN c1 c2 && keep (energy h c1 + energy h c2)) in
  dim Mo = length po -> dim Me = length pe ->
  (forall k c1 c2, nth_error po k = Some (c1, c2) -> energy Mo k = energy h c1 + energy h c2 /\
     forall r, bvec Mo k r = if Nat.eqb c1 c2 then kron n (bvec h c1) (bvec h c2) r else rt * (kron n (bvec h c1) (bvec h c2) r + sc (s c1 c2) (kron n (bvec h c2) (bvec h c1) r))) ->
  (forall k c1 c2, nth_error pe k = Some (c1, c2) -> energy Me k = energy h c1 + energy h c2 /\
     forall r, bvec Me k r = if Nat.eqb c1 c2 then kron n (bvec h c1) (bvec h c2) r else rt * (kron n (bvec h c1) (bvec h c2) r + sc (- s c1 c2) (kron n (bvec h c2) (bvec h c1) r))) ->
  (dim Mo + dim Me)%nat = length (pairs_with (dim h) (dim h) (fun c1 c2 => keep (energy h c1 + energy h c2))) /\
  forall c1 c2, (c1 < dim h)%nat -> (c2 < dim h)%nat -> keep (energy h c1 + energy h c2) = true ->
    exists k, (k < dim Mo)%nat /\ energy Mo k = energy h c1 + energy h c2 /\
      ((c1 = c2 /\ forall r, kron n (bvec h c1) (bvec h c2) r = bvec Mo k r) \/
       exists k' t u, (k' < dim Me)%nat /\ energy Me k' = energy h c1 + energy h c2 /\ (t = 1 \/ t = -1)%Z /\ (u = 1 \/ u = -1)%Z /\
         forall r, kron n (bvec h c1) (bvec h c2) r = rt * (sc t (bvec Mo k r) + sc u (bvec Me k' r))).
Proof.
  intros keep h Mo Me s S n po pe Do De Fo Fe. split.
  { rewrite Do, De. apply (@count_swap (dim h) (fun a b => keep (energy h a + energy h b))). intros a b. f_equal. ring. }
  assert (FIND : forall p c1 c2, (c1 < dim h)%nat -> (c2 < dim h)%nat -> keep (energy h c1 + energy h c2) = true -> ordered p c1 c2 = true ->
    let q := pairs_with (dim h) (dim h) (fun c1 c2 => ordered p c1 c2 && keep (energy h c1 + energy h c2)) in exists k, nth_error q k = Some (c1, c2) /\ (k < length q)%nat).
  { intros p c1 c2 H1 H2 Kp Or q. destruct (In_nth_error q (c1, c2)) as [k Hk]; [apply in_pairs_with; rewrite Or, Kp; auto|]. exists k. split; auto. apply nth_error_Some. congruence. }
  assert (ZO : forall z, (z = 1 \/ z = -1)%Z -> zK (- z) = - zK z) by (intros z [->| ->]; unfold CombineProofs3.zK; cbn; ring).
  intros c1 c2 H1 H2 Kp. destruct (Nat.lt_trichotomy c1 c2) as [Lt|[->|Gt]].
  - assert (Kp' : keep (energy h c2 + energy h c1) = true) by (rewrite <- Kp; f_equal; ring).
    destruct (FIND ODD c2 c1 H2 H1 Kp') as (k & N & B); [apply Nat.leb_le; lia|]. destruct (FIND EVEN c2 c1 H2 H1 Kp') as (k' & N' & B'); [apply Nat.ltb_lt; lia|].
    fold po in N, B. fold pe in N', B'. rewrite <- Do in B. rewrite <- De in B'.
    destruct (Fo _ _ _ N) as [E1 V1]. destruct (Fe _ _ _ N') as [E2 V2]. exists k. split; [exact B|]. split; [rewrite E1; ring|]. right.
    exists k', (s c2 c1), (- s c2 c1)%Z. split; [exact B'|]. split; [rewrite E2; ring|]. split; [apply S|]. split; [destruct (S c2 c1) as [->| ->]; auto|].
    intros r. rewrite V1, V2. destruct (Nat.eqb_spec c2 c1); [lia|]. rewrite !sc_zK, ZO by auto. pose proof (@zK_sq K (s c2 c1)) as Z2. set (z := zK (s c2 c1)) in *.
    set (a := kron n (bvec h c1) (bvec h c2) r). set (d := kron n (bvec h c2) (bvec h c1) r).
    transitivity ((rt * rt + rt * rt) * (z * z) * a); [rewrite RT, Z2; ring|ring].
  - destruct (FIND ODD c2 c2 H1 H2 Kp) as (k & N & B); [apply Nat.leb_le; lia|]. fold po in N, B. rewrite <- Do in B. destruct (Fo _ _ _ N) as [E1 V1].
    exists k. split; [exact B|]. split; [exact E1|]. left. split; [reflexivity|]. intros r. rewrite V1, Nat.eqb_refl. reflexivity.
  - destruct (FIND ODD c1 c2 H1 H2 Kp) as (k & N & B); [apply Nat.leb_le; lia|]. destruct (FIND EVEN c1 c2 H1 H2 Kp) as (k' & N' & B'); [apply Nat.ltb_lt; lia|].
    fold po in N, B. fold pe in N', B'. rewrite <- Do in B. rewrite <- De in B'.
    destruct (Fo _ _ _ N) as [E1 V1]. destruct (Fe _ _ _ N') as [E2 V2]. exists k. split; [exact B|]. split; [exact E1|]. right.
    exists k', 1%Z, 1%Z. split; [exact B'|]. split; [exact E2|]. split; [auto|]. split; [auto|].
    intros r. rewrite V1, V2. destruct (Nat.eqb_spec c1 c2); [lia|]. rewrite !sc_zK, ZO by auto. unfold CombineProofs3.zK at 1 3. cbn [Z.eqb Pos.eqb].
    transitivity ((rt * rt + rt * rt) * kron n (bvec h c1) (bvec h c2) r); [rewrite RT; ring|ring].
Qed.
End Complete.

(** Nothing is lost: the two sectors together have as many basis vectors as there are products within the energy cutoff, and
    every such product is a combination of one basis vector of each sector with the same energy. *)
Theorem C76_permutation_complete : forall (K : StarRing) (rt : K) keep (h : hmat K) b start,
  rt * rt + rt * rt = 1 -> sconj rt = rt -> over h b -> half b -> small b b ->
  let n := coords h in
  exists Mo Me, combine rt keep h h (names2 (build2 start b b)) (Sym NA NA ODD None) = Ok Mo /\
  combine rt keep h h (names2 (build2 start b b)) (Sym NA NA EVEN None) = Ok Me /\
  (dim Mo + dim Me)%nat = length (pairs_with (dim h) (dim h) (fun c1 c2 => keep (energy h c1 + energy h c2))) /\
  forall c1 c2, (c1 < dim h)%nat -> (c2 < dim h)%nat -> keep (energy h c1 + energy h c2) = true ->
    exists k, (k < dim Mo)%nat /\ energy Mo k = energy h c1 + energy h c2 /\
      ((c1 = c2 /\ forall r, kron n (bvec h c1) (bvec h c2) r = bvec Mo k r) \/
       exists k' t u, (k' < dim Me)%nat /\ energy Me k' = energy h c1 + energy h c2 /\ (t = 1 \/ t = -1)%Z /\ (u = 1 \/ u = -1)%Z /\
         forall r, kron n (bvec h c1) (bvec h c2) r = rt * (sc t (bvec Mo k r) + sc u (bvec Me k' r))).
Proof.
  intros K rt keep h b start RT RC O H S n.
  destruct (@C76_permutation K rt keep h b start ODD) as (Mo & E1 & _ & D1 & _ & F1 & _); auto; [discriminate|].
  destruct (@C76_permutation K rt keep h b start EVEN) as (Me & E2 & _ & D2 & _ & F2 & _); auto; [discriminate|].
  exists Mo, Me. split; [exact E1|]. split; [exact E2|].
  apply (@complete_sym K rt RT keep h Mo Me (fun _ _ => 1%Z)); auto.
Qed.

Theorem C76_inversion_complete_partial : forall (K : StarRing) (rt : K) keep (h : hmat K) b start q,
  rt * rt + rt * rt = 1 -> sconj rt = rt -> over h b -> half b -> small b b ->
  (forall k, k < dim h -> definite h b (fun s => sg (l_ s)) k (q k))%nat ->
  let n := coords h in
  exists Mo Me, combine rt keep h h (names2 (build2 start b b)) (Sym ODD NA NA None) = Ok Mo /\
  combine rt keep h h (names2 (build2 start b b)) (Sym EVEN NA NA None) = Ok Me /\
  (dim Mo + dim Me)%nat = length (pairs_with (dim h) (dim h) (fun c1 c2 => keep (energy h c1 + energy h c2))) /\
  forall c1 c2, (c1 < dim h)%nat -> (c2 < dim h)%nat -> keep (energy h c1 + energy h c2) = true ->
    exists k, (k < dim Mo)%nat /\ energy Mo k = energy h c1 + energy h c2 /\
      ((c1 = c2 /\ forall r, kron n (bvec h c1) (bvec h c2) r = bvec Mo k r) \/
       exists k' t u, (k' < dim Me)%nat /\ energy Me k' = energy h c1 + energy h c2 /\ (t = 1 \/ t = -1)%Z /\ (u = 1 \/ u = -1)%Z /\
         forall r, kron n (bvec h c1) (bvec h c2) r = rt * (sc t (bvec Mo k r) + sc u (bvec Me k' r))).
Proof.
  intros K rt keep h b start q RT RC O H S DQ n.
  set (q' := fun k => if (q k =? 1)%Z then 1%Z else (-1)%Z).
  assert (DQ' : forall k, (k < dim h)%nat -> definite h b (fun s => sg (l_ s)) k (q' k)).
  { intros k Hk. unfold q'. destruct (definite_pm O Hk (DQ k Hk)) as [Q|Q]; rewrite <- Q; cbn; rewrite Q; cbn; rewrite <- ?Q; auto. }
  destruct (@C76_inversion_partial K rt keep h b start ODD q') as (Mo & E1 & _ & D1 & _ & F1 & _); auto; [discriminate|].
  destruct (@C76_inversion_partial K rt keep h b start EVEN q') as (Me & E2 & _ & D2 & _ & F2 & _); auto; [discriminate|].
  exists Mo, Me. split; [exact E1|]. split; [exact E2|].
  apply (@complete_sym K rt RT keep h Mo Me (fun a c => q' a * q' c)%Z); auto.
  - intros a c. unfold q'. destruct (q a =? 1)%Z, (q c =? 1)%Z; auto.
  - intros k c1 c2 Hk. destruct (F1 _ _ _ Hk) as [A B]. split; auto. intros r. rewrite B. unfold value. rewrite Z.mul_1_l. reflexivity.
Qed.

Section Reflection.
Variable K : StarRing.
Add Ring KRing4 : (s_ring K).
Notation zK := (zK K).
Variables (b1 b2 : names_one).
Hypothesis C1 : closed b1.
Hypothesis C2 : closed b2.
Hypothesis H1 : half b1.
Hypothesis H2 : half b2.
Let n1 := length (names1 b1).
Let n2 := length (names1 b2).

Lemma lsum_permut : forall A (f : A -> K) l l', Permutation l l' -> lsum f l = lsum f l'.
Proof. intros A f l l' P. induction P; cbn [lsum fold_right]; unfold lsum in *; try congruence; ring. Qed.
Lemma bsum_invol : forall N pi (f : nat -> K), (forall r, r < N -> pi r < N)%nat -> (forall r, r < N -> pi (pi r) = r)%nat -> bsum N (fun r => f (pi r)) = bsum N f.
Proof.
  intros N pi f B I. rewrite !bsum_lsum. rewrite <- (lsum_map pi f). apply lsum_permut. apply NoDup_Permutation.
  - apply NoDup_map_inv with (f := pi). rewrite map_map. rewrite (map_ext_in _ (fun r => r)); [rewrite map_id; apply seq_NoDup|]. intros r Hr. apply in_seq in Hr. apply I. lia.
  - apply seq_NoDup.
  - intros x. rewrite in_map_iff, in_seq. split.
    + intros (y & <- & Hy). apply in_seq in Hy. split; [lia|]. apply B. lia.
    + intros Hx. exists (pi x). split; [apply I; lia|]. apply in_seq. split; [lia|]. apply B. lia.
Qed.
Lemma reflected_eq : forall (w : nat -> K) r, reflected b1 b2 w r = zK (refl_sign b1 b2 (r / n2) (r mod n2)) * w (mirror2 b1 b2 r).
Proof. intros. unfold reflected. rewrite sc_zK. reflexivity. Qed.
Lemma sign_mirror2 : forall r, (r < n1 * n2)%nat -> refl_sign b1 b2 (mirror2 b1 b2 r / n2) (mirror2 b1 b2 r mod n2) = refl_sign b1 b2 (r / n2) (r mod n2).
Proof.
  intros r Hr. destruct (@mirror2_parts b1 b2 C1 C2 r Hr) as (_ & D & M). fold n2 in D, M. rewrite D, M. assert (n2 <> 0%nat) by (clear - Hr; lia). apply refl_sign_mirror; auto.
  - apply Nat.div_lt_upper_bound; auto. fold n1. lia.
  - apply Nat.mod_upper_bound; auto.
Qed.
Lemma reflected_twice : small b1 b2 -> forall (w : nat -> K) r, (r < n1 * n2)%nat -> reflected b1 b2 (reflected b1 b2 w) r = w r.
Proof.
  intros SM w r Hr. rewrite !reflected_eq. rewrite sign_mirror2 by auto. rewrite (mirror2_invol (One 0 0 0 0 0, One 0 0 0 0 0) C1 C2 SM Hr).
  transitivity (zK (refl_sign b1 b2 (r / n2) (r mod n2)) * zK (refl_sign b1 b2 (r / n2) (r mod n2)) * w r); [ring|]. rewrite zK_sq. ring.
Qed.
Lemma inner_reflected : small b1 b2 -> forall u v : nat -> K, inner (n1 * n2) (reflected b1 b2 u) (reflected b1 b2 v) = inner (n1 * n2) u v.
Proof.
  intros SM u v. unfold inner. rewrite <- (@bsum_invol (n1 * n2) (mirror2 b1 b2) (fun r => sconj (u r) * v r)).
  - apply bsum_ext. intros r Hr. rewrite !reflected_eq. rewrite s_conj_mul, zK_conj.
    transitivity (zK (refl_sign b1 b2 (r / n2) (r mod n2)) * zK (refl_sign b1 b2 (r / n2) (r mod n2)) * (sconj (u (mirror2 b1 b2 r)) * v (mirror2 b1 b2 r))); [ring|]. rewrite zK_sq. ring.
  - intros r Hr. apply mirror2_parts; auto.
  - intros r Hr. apply (mirror2_invol (One 0 0 0 0 0, One 0 0 0 0 0) C1 C2 SM Hr).
Qed.
(** a basis vector with definite m is zero at coordinates with another m *)
Lemma definite_zero : forall (h : hmat K) b k x i s, definite h b mm k x -> nth_error (names1 b) i = Some s -> mm s <> x -> bvec h k i = 0.
Proof. intros h b k x i s D N X. apply coef_out. intros e I E. apply X. apply (D e); auto. congruence. Qed.

Lemma cross_zero : forall (lhs rhs : hmat K) c1 c2 d1 d2 x y, definite lhs b1 mm c1 x -> definite lhs b1 mm d1 y -> (0 <= x)%Z -> (0 <= y)%Z ->
  forall r, (r < n1 * n2)%nat -> kron n2 (bvec lhs c1) (bvec rhs c2) r = 0 \/ reflected b1 b2 (kron n2 (bvec lhs d1) (bvec rhs d2)) r = 0.
Proof.
  intros lhs rhs c1 c2 d1 d2 x y D1 D2 Px Py r Hr. assert (n2 <> 0%nat) by (clear - Hr; lia).
  assert (B : (r / n2 < n1)%nat) by (apply Nat.div_lt_upper_bound; auto; lia).
  destruct (nth_error (names1 b1) (r / n2)) as [s|] eqn:E; [|apply nth_error_None in E; unfold n1 in B; lia].
  destruct (H1 s) as [_ Od]; [eapply nth_error_In; eauto|]. assert (mm s <> 0)%Z by (intros Z0; rewrite Z0 in Od; discriminate).
  destruct (Z.lt_ge_cases (mm s) 0) as [Ng|Po].
  - left. unfold kron. rewrite (definite_zero _ D1 E) by lia. ring.
  - right. rewrite reflected_eq. unfold kron. destruct (@mirror2_parts b1 b2 C1 C2 r Hr) as (_ & D & _). fold n2 in D. rewrite D.
    destruct (mirror_spec _ C1 E) as (t & Et & O). apply opposite_iff in O. rewrite (definite_zero _ D2 Et) by lia. ring.
Qed.
Lemma combine_eigen : forall rt z g x y a d : K, z * z = 1 -> g * x = d -> g * y = a ->
  g * (rt * (x + z * y)) = z * (rt * (a + z * d)).
Proof. intros rt z g x y a d Z <- <-. transitivity (rt * ((z * z) * (g * x) + z * (g * y))); [rewrite Z; ring|ring]. Qed.
Lemma zero_prod : forall x : K, sconj x * 0 = 0 /\ sconj 0 * x = 0. Proof. intros. rewrite sconj_0. split; ring. Qed.
Lemma combine_norm : forall rt z d : K, rt * rt + rt * rt = 1 -> z * z = 1 -> rt * (rt * (d + z * 0 + (z * 0 + z * (z * d)))) = d.
Proof. intros rt z d RT Z. transitivity (rt * rt * d + (z * z) * (rt * rt) * d); [ring|]. rewrite Z. transitivity ((rt * rt + rt * rt) * d); [ring|]. rewrite RT. ring. Qed.
End Reflection.

(** Reflection symmetry (with or without a total magnetic quantum number R), if the states of both atoms are closed under m -> -m
    and every one-atom basis vector has a definite m (no field in x, y): the basis vectors are (u v + s R(u v))/sqrt(2) where u has
    m > 0; s = 1 for EVEN, -1 for ODD; they are orthonormal eigenvectors of the reflection.  Missing: combinations with the other
    symmetries. *)
Theorem C76_reflection_partial : forall (K : StarRing) (rt : K) keep (lhs rhs : hmat K) b1 b2 start p R m1 m2,
  rt * rt + rt * rt = 1 -> sconj rt = rt ->
  p <> NA -> over lhs b1 -> over rhs b2 -> half b1 -> half b2 -> small b1 b2 -> closed b1 -> closed b2 ->
  (forall k, k < dim lhs -> definite lhs b1 mm k (m1 k))%nat -> (forall k, k < dim rhs -> definite rhs b2 mm k (m2 k))%nat ->
  let s := match p with EVEN => 1%Z | _ => (-1)%Z end in
  let n2 := coords rhs in
  let ps := pairs_with (dim lhs) (dim rhs) (fun c1 c2 => keep (energy lhs c1 + energy rhs c2) && (0 <=? m1 c1)%Z &&
     match R with Some R => (m1 c1 + m2 c2 =? 2 * R)%Z || (m1 c1 + m2 c2 =? - 2 * R)%Z | None => true end) in
  exists M, combine rt keep lhs rhs (names2 (build2 start b1 b2)) (Sym NA p NA R) = Ok M /\ coords M = (coords lhs * coords rhs)%nat /\
  dim M = length ps /\ length (ediag M) = length ps /\
  (forall k c1 c2, nth_error ps k = Some (c1, c2) -> energy M k = energy lhs c1 + energy rhs c2 /\
    forall r, (r < coords lhs * coords rhs)%nat -> bvec M k r = rt * (kron n2 (bvec lhs c1) (bvec rhs c2) r +
                 sc s (reflected b1 b2 (kron n2 (bvec lhs c1) (bvec rhs c2)) r))) /\
  (forall k r, (k < dim M)%nat -> (r < coords M)%nat -> reflected b1 b2 (bvec M k) r = sc s (bvec M k r)) /\
  (orthonormal lhs -> orthonormal rhs -> orthonormal M).
Proof.
  intros K rt keep lhs rhs b1 b2 start p R m1 m2 RT RC NP O1 O2 H1 H2 SM CL1 CL2 DM1 DM2 s n2 ps.
  destruct (@combine_ref K rt keep lhs rhs b1 b2 start p R m1 m2) as (M & E & C & D & L & F); auto.
  assert (P : pairs_with (dim lhs) (dim rhs) (fun c1 c2 => keep (energy lhs c1 + energy rhs c2) && rsel R (m1 c1) (m2 c2)) = ps).
  { unfold ps, pairs_with. apply filter_ext. intros [c1 c2]. cbn [fst snd]. unfold rsel, rot_ok. rewrite <- andb_assoc. f_equal. rewrite andb_comm. f_equal.
    destruct R as [R|]; [|reflexivity]. rewrite (Z.eqb_sym (2 * R)). f_equal.
    destruct (Z.eqb_spec (2 * R) (- (m1 c1 + m2 c2))), (Z.eqb_spec (m1 c1 + m2 c2) (- 2 * R)); lia. }
  rewrite P in *. exists M. do 4 (split; [assumption|]).
  pose proof O1 as (L1 & _ & _). pose proof O2 as (L2 & _ & _). change (rvalue p) with s in F. fold n2 in F.
  assert (I : forall k c1 c2, nth_error ps k = Some (c1, c2) -> (c1 < dim lhs)%nat /\ (c2 < dim rhs)%nat /\ (0 <= m1 c1)%Z).
  { intros k c1 c2 Hk. apply nth_error_In, in_pairs_with in Hk. destruct Hk as [[B1 B2] Hk]. rewrite !andb_true_iff in Hk. split; [auto|]. split; [auto|]. apply Z.leb_le. tauto. }
  split; [|split].
  - intros k c1 c2 Hk. destruct (F _ _ _ Hk) as [F1 F2]. split; auto. intros r Hr. rewrite F2 by auto. rewrite sc_zK. reflexivity.
  - intros k r Hk Hr. rewrite D in Hk. destruct (nth_error ps k) as [[c1 c2]|] eqn:N; [|apply nth_error_None in N; lia]. destruct (F _ _ _ N) as [_ F2]. rewrite C in Hr.
    rewrite reflected_eq, sc_zK. rewrite (F2 r) by auto.
    destruct (@mirror2_parts b1 b2 CL1 CL2 r) as (Bm & _ & _); [rewrite <- L1, <- L2; exact Hr|]. rewrite F2 by (unfold n2; rewrite L1, L2; exact Bm).
    set (w := kron n2 (bvec lhs c1) (bvec rhs c2)).
    assert (A : zK K (refl_sign b1 b2 (r / length (names1 b2)) (r mod length (names1 b2))) * w (mirror2 b1 b2 r) = reflected b1 b2 w r) by (rewrite reflected_eq; reflexivity).
    assert (B : zK K (refl_sign b1 b2 (r / length (names1 b2)) (r mod length (names1 b2))) * reflected b1 b2 w (mirror2 b1 b2 r) = w r).
    { rewrite <- reflected_eq. apply reflected_twice; auto. rewrite <- L1, <- L2. exact Hr. }
    apply (@combine_eigen K); auto. apply zK_sq.
  - intros Q1 Q2 a b Ha Hb. rewrite D in Ha, Hb. destruct (nth_error ps a) as [[c1 c2]|] eqn:Na; [|apply nth_error_None in Na; lia]. destruct (nth_error ps b) as [[d1 d2]|] eqn:Nb; [|apply nth_error_None in Nb; lia].
    destruct (F _ _ _ Na) as [_ Fa]. destruct (F _ _ _ Nb) as [_ Fb]. destruct (I _ _ _ Na) as (Ba1 & Ba2 & Pa). destruct (I _ _ _ Nb) as (Bb1 & Bb2 & Pb). rewrite C.
    set (u := kron n2 (bvec lhs c1) (bvec rhs c2)) in *. set (v := kron n2 (bvec lhs d1) (bvec rhs d2)) in *.
    rewrite (@inner_ext K (coords lhs * coords rhs) _ (fun r => rt * (u r + zK K s * reflected b1 b2 u r)) _ (fun r => rt * (v r + zK K s * reflected b1 b2 v r))) by auto.
    rewrite inner_scale_l, inner_scale_r, !inner_add_l, !inner_add_r, !inner_scale_l, !inner_scale_r, RC, zK_conj.
    assert (X : inner (coords lhs * coords rhs) u (reflected b1 b2 v) = 0).
    { apply bsum_zero. intros r Hr. rewrite L1, L2 in Hr. destruct (@cross_zero K b1 b2 CL1 CL2 H1 lhs rhs c1 c2 d1 d2 _ _ (DM1 _ Ba1) (DM1 _ Bb1) Pa Pb r Hr) as [Z|Z];
      rewrite <- L2 in Z; fold n2 in Z; [fold u in Z|fold v in Z]; rewrite Z; apply (@zero_prod K). }
    assert (X' : inner (coords lhs * coords rhs) (reflected b1 b2 u) v = 0).
    { apply bsum_zero. intros r Hr. rewrite L1, L2 in Hr. destruct (@cross_zero K b1 b2 CL1 CL2 H1 lhs rhs d1 d2 c1 c2 _ _ (DM1 _ Bb1) (DM1 _ Ba1) Pb Pa r Hr) as [Z|Z];
      rewrite <- L2 in Z; fold n2 in Z; [fold v in Z|fold u in Z]; rewrite Z; apply (@zero_prod K). }
    assert (Y : inner (coords lhs * coords rhs) (reflected b1 b2 u) (reflected b1 b2 v) = inner (coords lhs * coords rhs) u v).
    { rewrite L1, L2. apply inner_reflected; auto. }
    rewrite X, X', Y. unfold u, v, n2. rewrite inner_kron, Q1, Q2 by auto.
    rewrite (@delta_pair K c1 c2 d1 d2 a b); [|eapply nodup_nth; [apply nodup_pairs|exact Na|exact Nb]].
    apply (@combine_norm K rt); auto. apply zK_sq.
Qed.
