(** Properties C42 - C44: effective interaction coefficients.  Vocabulary: PerturbSpec.v; the
    geometry [initializeAngleTerms angle] is what the constructor with that angle sets up (and the
    default constructor with angle 0). *)
From Verif Require Import Base StateModel StateProofs FieldModel TwoSpec MEModel Racah MESpec MEProofs MEReal PerturbModel PerturbSpec PerturbProofs PerturbAngle PerturbProofs2 PerturbProofs3 PerturbProofs4 PerturbProofs5.
From Coq Require Import ZArith QArith Reals Lra Lia Bool String List.
Local Open Scope list_scope.
Local Open Scope Z_scope.
Set Implicit Arguments.
Notation physical := MESpec.physical.
Notation quad := PerturbProofs2.quad.

(** *** C42.  For singlets and doublets, a whole number deltaN = D, and n - D >= l for both atoms:
    getC6(state, D) is the second-order sum over exactly the intermediate pair states, each once,
    whatever the energies and dipole matrix elements are.  Missing: higher spins, fractional
    deltaN, deltaN reaching below the lowest bound state (all false, see below); an intermediate
    state exactly degenerate with the given one, where the code divides by zero. *)
Theorem C42_sum_partial : forall hs hi hf kC energy dipole E d angle st D,
  pairstate hs hi hf st -> data_for energy dipole E d st ->
  s2 (fst1 st) <= 1 -> s2 (snd1 st) <= 1 ->
  l (fst1 st) <= n (fst1 st) - D -> l (snd1 st) <= n (snd1 st) - D ->
  exists vs, NoDup vs /\ (forall v, In v vs <-> intermediate hs hi hf st D v) /\
    ((forall v, In v vs -> E2 E st <> E2 E v) ->
     getC6 hs hi hf energy dipole kC (initializeAngleTerms angle) st (inject_Z D)
       = Ok (second_order E d kC angle st vs)).
Proof.
  intros hs hi hf kC energy dipole E d angle st D PS A S0 S1 D0 D1.
  destruct (@list_exists hs hi hf st D PS S0 S1 D0 D1) as (L & N & HL). exists L. split; auto. split; auto. intros _.
  destruct PS as (B & R0 & R1). apply getC6_sum; auto. apply data_answers; auto.
Qed.
Print Assumptions C42_sum_partial.

(** Example states (the hash of a state plays no role here). *)
Definition h0 (_ : string) : N := 0%N.
Definition hz (_ : Z) : N := 0%N.
Definition mk1 (sp : string) (n0 l0 j0 m0 : Z) : state1 :=
  match mkOne h0 hz hz sp n0 l0 j0 m0 with Ok a => a | _ => St1 sp sp 0 0 0 0 0 0%N end.
Definition mk2 (sp : string) (n0 l0 j0 m0 n1 l1 j1 m1 : Z) : state2 := mkTwo_pair (mk1 sp n0 l0 j0 m0) (mk1 sp n1 l1 j1 m1).
Lemma mk1_built : forall sp n0 l0 j0 m0 x, n0 <> 0 -> analyzeSpecies sp = Ok x -> built1 h0 hz hz (mk1 sp n0 l0 j0 m0).
Proof.
  intros sp n0 l0 j0 m0 x H S. left. exists sp, n0, l0, j0, m0.
  destruct (@mkOne_ok h0 hz hz sp n0 l0 j0 m0 x H S) as [a A]. unfold mk1. rewrite A. reflexivity.
Qed.
Ltac built_ := apply b2_pair; (eapply mk1_built; [discriminate|reflexivity]).
Ltac ryd_ := unfold rydberg, MESpec.physical; cbn; repeat split; lia.
Ltac pst_ := split; [built_|split; ryd_].

(** Strontium triplets: from (60 3P1, 60 3S1) the pair (60 3D2, 60 3P1) is an intermediate state
    with a non-zero interaction, but nothing about the state 60 3D2 m=1 enters the result. *)
Definition srA := mk2 "Sr3" 60 1 2 0 60 0 2 2.
Definition srV := mk2 "Sr3" 60 2 4 2 60 1 2 0.
Theorem C42_triplet_refuted : forall kC,
  pairstate h0 hz hz srA /\ intermediate h0 hz hz srA 0 srV /\
  (forall d, kC <> 0%R -> d (fst1 srV) (fst1 srA) <> 0%R -> d (snd1 srV) (snd1 srA) <> 0%R -> Vdd d kC 0 srV srA <> 0%R) /\
  forall energy energy' dipole dipole' angle,
    (forall u, quad u <> quad (fst1 srV) -> energy u = energy' u /\ forall w, dipole u w = dipole' u w) ->
    getC6 h0 hz hz energy dipole kC (initializeAngleTerms angle) srA (inject_Z 0) =
    getC6 h0 hz hz energy' dipole' kC (initializeAngleTerms angle) srA (inject_Z 0).
Proof.
  intros kC. split; [pst_|].
  split; [split; [built_|]; unfold rydberg, MESpec.physical, e1_coupled; cbn; repeat split; lia|].
  split.
  - intros d K H0 H1. rewrite (@Vdd_value hz hz kC d 0 srV srA 1 (-1)) by reflexivity.
    change ((Z.abs 1 <=? 1) && (Z.abs (-1) <=? 1)) with true. cbv iota.
    assert (T1 : T 0 1 (-1) = (-1)%R) by (unfold T; cbn [Z.eqb Z.add Pos.eqb Z.pos_sub]; rewrite sin_0; unfold Rdiv; ring).
    rewrite T1. repeat apply Rmult_integral_contrapositive_currified; auto. lra.
  - intros energy energy' dipole dipole' angle H. apply getC6_ignores with (x := fst1 srV); auto; try (vm_compute; discriminate).
    + intros n0 l0 j0 (_ & Hl & Hj) X. injection X as _ -> ->. vm_compute in Hj. destruct Hj as [Hj|[]]. discriminate.
    + intros n0 l0 j0 (_ & Hl & Hj) X. injection X as _ X2 _. apply in_l_set in Hl. cbn in Hl. lia.
Qed.
Print Assumptions C42_triplet_refuted.

(** deltaN = 1/2: a state with n smaller by one is asked for (here the dipole call fails for it). *)
Theorem C42_fractional_refuted : forall kC energy, (forall a, energy a = Ok 0%R) ->
  getC6 h0 hz hz energy (fun a _ => if n a =? 59 then Throw else Ok 1%R) kC (initializeAngleTerms 0)
    (mk2 "Rb" 60 0 1 1 60 0 1 1) (1 # 2) = Throw.
Proof.
  intros kC energy H. unfold initializeAngleTerms. destruct (Req_EM_T 0 0); [|congruence].
  set (st := mk2 "Rb" 60 0 1 1 60 0 1 1). set (g := {| array_q := _ |}).
  set (f := contribution h0 hz hz energy (fun a _ => if n a =? 59 then Throw else Ok 1%R) kC g st).
  change (sum_res f 0%R (visits g (fst1 st) (snd1 st) (1 # 2)) = Throw).
  assert (X : f (hd (0, 0, 0, 0, (0, 0, 0, 0), (0, 0)) (visits g (fst1 st) (snd1 st) (1 # 2))) = Throw).
  { assert (X0 : hd (0, 0, 0, 0, (0, 0, 0, 0), (0, 0)) (visits g (fst1 st) (snd1 st) (1 # 2)) = (59, 1, 1, 1, (59, 1, 1, 1), (0, 0))) by (vm_compute; reflexivity).
    rewrite X0. unfold f, contribution, energy2.
    destruct (mk h0 hz hz st (59, 1, 1, 1) (59, 1, 1, 1)) as [v| |] eqn:M; vm_compute in M; try discriminate. injection M as <-.
    cbn [bind]. rewrite !H. reflexivity. }
  destruct (visits g (fst1 st) (snd1 st) (1 # 2)) as [|x xs] eqn:V; [vm_compute in V; discriminate|].
  cbn [hd] in X. cbn [sum_res]. rewrite X. reflexivity.
Qed.
Print Assumptions C42_fractional_refuted.

(** deltaN = n for a state with l > 0: n = 0 is tried and the call throws, whatever the data. *)
Theorem C42_below_ground_refuted : forall kC energy dipole,
  pairstate h0 hz hz (mk2 "Rb" 5 1 1 1 5 1 1 1) /\
  getC6 h0 hz hz energy dipole kC (initializeAngleTerms 0) (mk2 "Rb" 5 1 1 1 5 1 1 1) (inject_Z 5) = Throw.
Proof.
  intros kC energy dipole. split; [pst_|]. unfold initializeAngleTerms. destruct (Req_EM_T 0 0); [|congruence]. reflexivity.
Qed.
Print Assumptions C42_below_ground_refuted.

(** With n - deltaN < l, states with n <= l are asked for: here 5 G -> 3 F. *)
Theorem C42_unbound_refuted : forall kC dipole,
  pairstate h0 hz hz (mk2 "Rb" 5 4 7 1 5 4 7 1) /\
  getC6 h0 hz hz (fun a => if n a <=? l a then Throw else Ok 0%R) dipole kC (initializeAngleTerms 0) (mk2 "Rb" 5 4 7 1 5 4 7 1) (inject_Z 2) = Throw.
Proof.
  intros kC dipole. split; [pst_|]. unfold initializeAngleTerms. destruct (Req_EM_T 0 0); [|congruence]. reflexivity.
Qed.
Print Assumptions C42_unbound_refuted.

Example C42_nonvacuous :
  pairstate h0 hz hz (mk2 "Rb" 60 0 1 1 61 1 3 (-1)) /\
  data_for (fun a => Ok (IZR (n a))) (fun a b => Ok (IZR (l a - l b))) (fun a => IZR (n a)) (fun a b => IZR (l a - l b)) (mk2 "Rb" 60 0 1 1 61 1 3 (-1)) /\
  intermediate h0 hz hz (mk2 "Rb" 60 0 1 1 61 1 3 (-1)) 3 (mk2 "Rb" 58 1 3 3 64 2 3 (-3)).
Proof.
  split; [pst_|]. split; [intros a b _ _ _ _; auto|].
  split; [built_|]; unfold rydberg, MESpec.physical, e1_coupled; cbn; repeat split; lia.
Qed.

(** *** C43.  For singlets and doublets and states of equal l, the matrix element between row and
    column is the second-order sum over exactly the pair states outside the model space coupled to
    both.  Missing: different l (false, see below), higher spins, as for C42. *)
Theorem C43_equal_l_partial : forall hs hi hf kC energy dipole E d angle states row col D,
  pairstate hs hi hf row -> pairstate hs hi hf col -> same_species row col -> Forall (built2 hs hi hf) states ->
  data_for energy dipole E d col ->
  s2 (fst1 col) <= 1 -> s2 (snd1 col) <= 1 -> l (fst1 row) = l (fst1 col) -> l (snd1 row) = l (snd1 col) ->
  l (fst1 col) <= Z.min (n (fst1 row)) (n (fst1 col)) - D -> l (snd1 col) <= Z.min (n (snd1 row)) (n (snd1 col)) - D ->
  exists vs, NoDup vs /\ (forall v, In v vs <-> intermediate2 hs hi hf states row col D v) /\
    ((forall v, In v vs -> E2 E row <> E2 E v /\ E2 E col <> E2 E v) ->
     getC6_element hs hi hf energy dipole kC (initializeAngleTerms angle) states (inject_Z D) row col
       = Ok (second_order2 E d kC angle row col vs)).
Proof.
  intros hs hi hf kC energy dipole E d angle states row col D PR PC SS BS A S0 S1 L0 L1 D0 D1.
  destruct (@list_exists2 hs hi hf row col D states PR PC SS S0 S1 L0 L1 D0 D1) as (L & N & HL). exists L. split; auto. split; auto. intros _.
  apply getC6_element_sum; auto. apply data_answers2; auto.
Qed.
Print Assumptions C43_equal_l_partial.

(** Whenever l differs in one of the atoms, the element is zero ... *)
Theorem C43_different_l_refuted : forall hs hi hf kC energy dipole angle states row col D,
  pairstate hs hi hf row -> pairstate hs hi hf col -> same_species row col ->
  s2 (fst1 col) <= 1 -> s2 (snd1 col) <= 1 -> l (fst1 row) <> l (fst1 col) \/ l (snd1 row) <> l (snd1 col) ->
  getC6_element hs hi hf energy dipole kC (initializeAngleTerms angle) states (inject_Z D) row col = Ok 0%R.
Proof. intros. apply element_zero; auto. Qed.
Print Assumptions C43_different_l_refuted.

(** ... although there are intermediate states: (60 S, 60 S) and (60 D3/2, 60 S) via (60 P1/2, 60 P1/2). *)
Definition rbR := mk2 "Rb" 60 0 1 1 60 0 1 1.
Definition rbC := mk2 "Rb" 60 2 3 1 60 0 1 1.
Definition rbV := mk2 "Rb" 60 1 1 1 60 1 1 1.
Theorem C43_different_l_coupled_refuted : forall kC,
  pairstate h0 hz hz rbR /\ pairstate h0 hz hz rbC /\ intermediate2 h0 hz hz [rbR; rbC] rbR rbC 0 rbV /\
  (forall d, kC <> 0%R -> (forall a b, e1_coupled a b -> d a b <> 0%R) ->
     Vdd d kC 0 rbR rbV <> 0%R /\ Vdd d kC 0 rbV rbC <> 0%R) /\
  forall energy dipole, getC6_element h0 hz hz energy dipole kC (initializeAngleTerms 0) [rbR; rbC] (inject_Z 0) rbR rbC = Ok 0%R.
Proof.
  intros kC. split; [pst_|]. split; [pst_|]. split.
  { split; [built_|]. unfold rydberg, MESpec.physical, e1_coupled, PerturbSpec.between. cbn. repeat split; try lia. intros [X|[X|[]]]; discriminate. }
  split.
  - intros d K H.
    assert (T1 : T 0 0 0 = (-2)%R) by (unfold T; cbn [Z.eqb]; rewrite cos_0; ring).
    assert (X : forall a b, e1_coupled a b -> d a b <> 0%R) by auto.
    split; rewrite (@Vdd_value hz hz kC d 0 _ _ 0 0) by reflexivity; change ((Z.abs 0 <=? 1) && (Z.abs 0 <=? 1)) with true; cbv iota; rewrite T1;
      repeat apply Rmult_integral_contrapositive_currified; auto; try lra; apply X; unfold e1_coupled; cbn; repeat split; lia.
  - intros. apply element_zero; try pst_; try (split; reflexivity); try (cbn; lia).
Qed.
Print Assumptions C43_different_l_coupled_refuted.

Example C43_nonvacuous :
  pairstate h0 hz hz rbR /\ pairstate h0 hz hz (mk2 "Rb" 59 0 1 1 61 0 1 1) /\ same_species rbR (mk2 "Rb" 59 0 1 1 61 0 1 1) /\
  intermediate2 h0 hz hz [rbR; mk2 "Rb" 59 0 1 1 61 0 1 1] rbR (mk2 "Rb" 59 0 1 1 61 0 1 1) 2 (mk2 "Rb" 57 1 3 3 63 1 1 (-1)).
Proof.
  split; [pst_|]. split; [pst_|]. split; [split; reflexivity|].
  split; [built_|]. unfold rydberg, MESpec.physical, e1_coupled, PerturbSpec.between. cbn. repeat split; try lia. intros [X|[X|[]]]; discriminate.
Qed.

(** *** C44.  Both matrices are square, symmetric, and their upper triangle holds the elements. *)
Theorem C44_matrices_symmetric : forall hs hi hf kC energy dipole g states deltaN M,
  getC6_matrix hs hi hf energy dipole kC g states deltaN = Ok M \/ getC3_matrix dipole kC g states = Ok M ->
  length M = length states /\ (forall r, In r M -> length r = length states) /\
  forall i j, entry M i j = entry M j i.
Proof. intros hs hi hf kC energy dipole g states deltaN M [H|H]; apply matrix_inv in H; tauto. Qed.
Print Assumptions C44_matrices_symmetric.

(** The angle terms: whatever is read from the table has been set, and it is the coefficient of the
    dipole-dipole interaction along (sin angle, 0, cos angle); transitions not in the table do not
    contribute. *)
Theorem C44_angle_terms : forall kC angle d0 d1 q0 q1, Z.abs q0 <= 1 -> Z.abs q1 <= 1 ->
  let V := dipole_dipole kC (sin angle) 0 (cos angle) (fun i => rmul d0 (cart i q0)) (fun i => rmul d1 (cart i q1)) in
  (In (q0, q1) (array_q (initializeAngleTerms angle)) ->
     exists t, array_angle_term (initializeAngleTerms angle) q0 q1 = Ok t /\ V = (kC * t * d0 * d1, 0)%R) /\
  (~ In (q0, q1) (array_q (initializeAngleTerms angle)) -> V = (0, 0)%R).
Proof.
  intros kC angle d0 d1 q0 q1 H0 H1 V. pose proof (dd_T kC angle d0 d1 q0 q1 H0 H1) as X. unfold dd in X. fold V in X. split; intros H.
  - exists (T angle q0 q1). split; [apply (geo_in angle q0 q1 H)|exact X].
  - rewrite X, (geo_out angle q0 q1) by auto. f_equal. ring.
Qed.
Print Assumptions C44_angle_terms.

(** Exchanging the atoms or reversing the transition. *)
Theorem C44_angle_symmetry : forall angle q0 q1 t, In (q0, q1) (array_q (initializeAngleTerms angle)) ->
  array_angle_term (initializeAngleTerms angle) q0 q1 = Ok t ->
  array_angle_term (initializeAngleTerms angle) q1 q0 = Ok t /\
  array_angle_term (initializeAngleTerms angle) (- q0) (- q1) = Ok ((if Z.even (q0 + q1) then 1 else -1) * t)%R.
Proof.
  intros angle q0 q1 t H Ht. destruct (geo_in angle q0 q1 H) as (Q0 & Q1 & E). rewrite E in Ht. injection Ht as <-.
  assert (S : In (q1, q0) (array_q (initializeAngleTerms angle)) /\ In (- q0, - q1) (array_q (initializeAngleTerms angle))).
  { destruct (geo_size angle) as [[_ K]|[_ K]].
    - apply K in H; auto. split; apply K; lia.
    - split; apply K; lia. }
  destruct S as [S1 S2]. split.
  - rewrite (proj2 (proj2 (geo_in angle q1 q0 S1))). f_equal. apply T_swap; auto.
  - rewrite (proj2 (proj2 (geo_in angle (- q0) (- q1) S2))). f_equal. apply T_opp; auto.
Qed.
Print Assumptions C44_angle_symmetry.

(** Every element of the C3 matrix, in both triangles and on the diagonal, is the dipole-dipole
    matrix element at unit distance between the two pair states. *)
Theorem C44_C3_value : forall hs hi hf kC energy dipole E d angle states,
  (forall a, In a states -> pairstate hs hi hf a /\ data_for energy dipole E d a) ->
  (forall a b, In a states -> In b states -> same_species a b) -> hermitian_dipole d ->
  exists M, getC3_matrix dipole kC (initializeAngleTerms angle) states = Ok M /\
    forall i j a b, nth_error states i = Some a -> nth_error states j = Some b ->
      entry M i j = Vdd d kC angle a b.
Proof.
  intros hs hi hf kC energy dipole E d angle states HP HS HD.
  destruct (@matrix_ok states (fun i j row col => if Nat.ltb i j then getC3_element dipole kC (initializeAngleTerms angle) row col else Ok 0%R)
    (fun i j a b => if Nat.ltb i j then Vdd d kC angle a b else 0%R)) as [M HM].
  { intros i j a b Ha Hb. apply nth_error_In in Ha. apply nth_error_In in Hb. destruct (Nat.ltb i j); auto.
    destruct (HP a Ha) as [PA _]. destruct (HP b Hb) as [PB DB]. apply (@getC3_element_value hs hi hf energy dipole kC E d); auto. }
  exists M. split; [exact HM|].
  destruct (matrix_inv _ _ HM) as (_ & _ & Sy & El).
  assert (K : forall i j a b, (i <= j)%nat -> nth_error states i = Some a -> nth_error states j = Some b -> entry M i j = Vdd d kC angle a b).
  { intros i j a b Hij Ha Hb. pose proof (El i j a b Hij Ha Hb) as X.
    assert (Ia := nth_error_In _ _ Ha). assert (Ib := nth_error_In _ _ Hb). destruct (HP a Ia) as [PA _]. destruct (HP b Ib) as [PB DB].
    destruct (Nat.ltb_spec i j).
    - rewrite (@getC3_element_value hs hi hf energy dipole kC E d angle a b DB PA PB (HS a b Ia Ib)) in X. congruence.
    - replace j with i in * by lia. assert (a = b) by congruence. subst b. rewrite (Vdd_diag kC HD angle PA). congruence. }
  intros i j a b Ha Hb. destruct (Nat.le_ge_cases i j); [apply K; auto|].
  rewrite Sy, (K j i b a) by auto. assert (Ia := nth_error_In _ _ Ha). assert (Ib := nth_error_In _ _ Hb).
  apply (@Vdd_sym hs hi hf); auto; apply HP; auto.
Qed.
Print Assumptions C44_C3_value.

(** The C6 matrix of one state is the C6 coefficient of that state (spins up to 1/2). *)
Theorem C44_C6_single : forall hs hi hf kC energy dipole E d angle st D,
  pairstate hs hi hf st -> data_for energy dipole E d st -> hermitian_dipole d ->
  s2 (fst1 st) <= 1 -> s2 (snd1 st) <= 1 -> l (fst1 st) <= n (fst1 st) - D -> l (snd1 st) <= n (snd1 st) - D ->
  (forall v, intermediate hs hi hf st D v -> E2 E st <> E2 E v) ->
  exists c, getC6 hs hi hf energy dipole kC (initializeAngleTerms angle) st (inject_Z D) = Ok c /\
    getC6_matrix hs hi hf energy dipole kC (initializeAngleTerms angle) [st] (inject_Z D) = Ok [[c]].
Proof.
  intros hs hi hf kC energy dipole E d angle st D PS A HD S0 S1 D0 D1 HE.
  destruct (@list_exists hs hi hf st D PS S0 S1 D0 D1) as (L & N & HL). exists (second_order E d kC angle st L). split.
  { destruct PS as (B & R0 & R1). apply getC6_sum; auto. apply data_answers; auto. }
  assert (HL' : forall v, In v L <-> intermediate2 hs hi hf [st] st st D v).
  { intros v. rewrite HL. unfold intermediate, intermediate2, PerturbSpec.between. rewrite !Z.min_id, !Z.max_id. split.
    - intros (B & R0 & R1 & C0 & C1 & N0 & N1). repeat (split; auto); try lia. intros [->|[]]. destruct C0 as (_ & C0 & _). lia.
    - intros (B & R0 & R1 & C0 & C1 & _ & _ & N0 & N1 & _). repeat (split; auto); lia. }
  unfold getC6_matrix, matrix. cbn [length seq combine mapM fst snd Nat.leb bind].
  rewrite (@getC6_element_sum hs hi hf energy dipole kC E d st st D [st] PS PS) with (L := L); auto.
  - cbn. rewrite (@second_order_diag hs hi hf kC E d HD angle st L PS); auto.
    + intros v Hv. apply HL' in Hv. apply inter_pstate in Hv. auto.
    + intros v Hv. apply HE, HL. auto.
  - split; auto.
  - rewrite Z.min_id; auto.
  - rewrite Z.min_id; auto.
  - constructor; [apply PS|constructor].
  - apply data_answers2; auto. split; auto.
Qed.
Print Assumptions C44_C6_single.

(** Giving the states in another order does not change the element of a pair of states. *)
Theorem C44_C6_order : forall hs hi hf kC energy dipole E d angle states row col D,
  pairstate hs hi hf row -> pairstate hs hi hf col -> same_species row col -> Forall (built2 hs hi hf) states ->
  data_for energy dipole E d col -> hermitian_dipole d -> s2 (fst1 col) <= 1 -> s2 (snd1 col) <= 1 ->
  l (fst1 col) <= Z.min (n (fst1 row)) (n (fst1 col)) - D -> l (snd1 col) <= Z.min (n (snd1 row)) (n (snd1 col)) - D ->
  (forall v, intermediate2 hs hi hf states row col D v -> E2 E row <> E2 E v /\ E2 E col <> E2 E v) ->
  getC6_element hs hi hf energy dipole kC (initializeAngleTerms angle) states (inject_Z D) row col =
  getC6_element hs hi hf energy dipole kC (initializeAngleTerms angle) states (inject_Z D) col row.
Proof.
  intros hs hi hf kC energy dipole E d angle states row col D PR PC SS BS A HD S0 S1 D0 D1 _.
  destruct (spins PR PC SS) as [SP0 SP1]. assert (SS' : same_species col row) by (destruct SS; split; auto).
  assert (A' : data_for energy dipole E d row).
  { intros a b Ra Rb Eab Hs. apply A; auto. destruct SS as [X Y]. rewrite X, Y in Hs. auto. }
  destruct (Z.eq_dec (l (fst1 row)) (l (fst1 col))) as [L0|L0]; [destruct (Z.eq_dec (l (snd1 row)) (l (snd1 col))) as [L1|L1]|].
  - destruct (@list_exists2 hs hi hf row col D states PR PC SS S0 S1 L0 L1 D0 D1) as (L & N & HL).
    assert (HL' : forall v, In v L <-> intermediate2 hs hi hf states col row D v).
    { intros v. rewrite HL. unfold intermediate2, PerturbSpec.between. rewrite (Z.min_comm (n (fst1 col))), (Z.max_comm (n (fst1 col))), (Z.min_comm (n (snd1 col))), (Z.max_comm (n (snd1 col))). tauto. }
    rewrite (@getC6_element_sum hs hi hf energy dipole kC E d row col D states PR PC) with (L := L); auto; [|apply data_answers2; auto].
    rewrite (@getC6_element_sum hs hi hf energy dipole kC E d col row D states PC PR) with (L := L); auto; try congruence; try (apply data_answers2; auto; fail).
    + f_equal. apply (@second_order2_sym hs hi hf); auto. intros v Hv. apply HL in Hv. apply inter_pstate in Hv. auto.
    + rewrite L0, Z.min_comm. auto.
    + rewrite L1, Z.min_comm. auto.
  - rewrite !element_zero; auto; try (rewrite SP0; auto); try (rewrite SP1; auto).
  - rewrite !element_zero; auto; try (rewrite SP0; auto); try (rewrite SP1; auto).
Qed.
Print Assumptions C44_C6_order.

(** The matrix elements returned by getElectricDipole satisfy the hypothesis [hermitian_dipole]. *)
Theorem C44_dipoles_hermitian : forall radial e_charge dn mth d,
  (forall a b, rydberg a -> rydberg b -> same_atom a b -> multipole radial e_charge dn mth a b 1 1 = Ok (d a b)) ->
  hermitian_dipole d.
Proof.
  intros radial e_charge dn mth d H a b Ra Rb S. pose proof (H a b Ra Rb S) as X.
  assert (S' : same_atom b a) by (destruct S; split; auto). pose proof (H b a Rb Ra S') as Y.
  destruct Ra as [Pa La], Rb as [Pb Lb]. split.
  - pose proof (multipole_adjoint radial e_charge dn mth _ _ Pb Pa S' Y) as Z.
    rewrite X in Z. injection Z as ->. f_equal. unfold phase, rsgn. f_equal.
    assert (K : exists q, m2 b - m2 a = q * 2) by (apply m_even; [split; auto|split; auto|apply S']). destruct K as [q K].
    rewrite K. replace (m2 a - m2 b) with (- q * 2) by lia. rewrite !Z.div_mul by lia. rewrite Z.even_opp. reflexivity.
  - intros L. apply (@multipole_forbidden radial e_charge dn mth a b 1 1 (d a b)); auto.
    unfold selMultipole, guard2, validL_mult. destruct Pa as (-> & _). destruct Pb as (-> & _). rewrite L, Z.sub_diag. reflexivity.
Qed.
Print Assumptions C44_dipoles_hermitian.

Example C44_nonvacuous : forall a, In a [rbR; rbV] -> pairstate h0 hz hz a /\
  data_for (fun _ => Ok 0%R) (fun a b => Ok (if l a =? l b then 0 else phase ((m2 a - m2 b) * (m2 b)))%R) (fun _ => 0%R)
    (fun a b => if l a =? l b then 0 else phase ((m2 a - m2 b) * (m2 b)))%R a.
Proof. intros a [<-|[<-|[]]]; (split; [pst_|intros u v _ _ _ _; auto]). Qed.
