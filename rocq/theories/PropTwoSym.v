(** C98, C99: the matrix of the interaction of two atoms is Hermitian; which symmetries it has.

    [pair_entry kC tol isreal g el1 el2 r c] is what SystemTwo::initializeInteraction and addInteraction put at the
    row of the pair state [r] and the column of the pair state [c] in the canonical basis, for the geometry [g]
    (TwoMatModel, TwoModel: distance vector, order of the multipole expansion, Green tensor, surface);
    [kC] is the Coulomb constant, [tol] the tolerance (1e-16), [isreal] whether the program was
    built with real scalars.  [el1], [el2] are the matrix elements of the atoms; [calculated]: the values MatrixElementCache
    calculates, the radial integrals being arbitrary.  Vocabulary: TwoSymSpec, PairSpec. *)
From Coq Require Import ZArith Lia Bool Reals Lra String List Permutation.
Import ListNotations.
From Verif Require Import Base StateModel StateProofs Matrix OverlapProofs SystemModel LookupProofs PairModel RangeModel BasisProofs PairSpec PairProofs MEModel Racah MESpec MEProofs MEReal FieldModel GreenModel TwoModel TwoSpec TwoProofs TwoMatModel TwoSymSpec TwoSymProofs TwoSymProofs2 TwoSymProofs3 TwoMatProofs TwoSecProofs TwoSymDemo TwoSymDemo2.
From Verif Require PropPair SymmetryProofs2.
Set Implicit Arguments.
Local Open Scope R_scope.

Section P.
Variable radial1 radial2 : string -> Z -> string -> Z -> Z -> Z -> Z -> Z -> Z -> Z -> res R.
Variables (e1 e2 : R) (dn1 dn2 : string) (mth1 mth2 : Z).
Variables ss1 ss2 : list state1.
Variables el1 el2 : state1 -> state1 -> nat -> R.
Hypothesis A1 : atom_states ss1.
Hypothesis A2 : atom_states ss2.
Hypothesis C1 : calculated radial1 e1 dn1 mth1 ss1 el1.
Hypothesis C2 : calculated radial2 e2 dn2 mth2 ss2 el2.
Variables kC tol : R.
Variable isreal : bool.
Variable g : geo.

(** ** C98 *)
(** Exchanging row and column conjugates the entry (and throws if and only if the entry throws), for all pairs of states, geometries,
    orders, with and without a surface. *)
Theorem C98_hermitian : forall r c, pair_of ss1 ss2 r -> pair_of ss1 ss2 c ->
  pair_entry kC tol isreal g el1 el2 c r = match pair_entry kC tol isreal g el1 el2 r c with Ok v => Ok (fst v, - snd v) | Throw => Throw | UB => UB end.
Proof. intros r c Pr Pc. exact (@pair_T radial1 radial2 e1 e2 dn1 dn2 mth1 mth2 ss1 ss2 el1 el2 A1 A2 C1 C2 kC tol isreal g r c Pr Pc). Qed.

(** The matrix that is built from the entries with column <= row is Hermitian, and all its entries, those above the diagonal too, are
    those of the interaction; if it is not built, some entry cannot be calculated. *)
Theorem C98_matrix : forall tbl, map fst tbl = seq 0 (List.length tbl) -> (forall x, In x (map snd tbl) -> pair_of ss1 ss2 x) ->
  match pair_matrix kC tol isreal g el1 el2 tbl with
  | Ok V => nr V = List.length tbl /\ nc V = List.length tbl /\ hermitian V /\
            (forall i j x y, nth_error (map snd tbl) i = Some x -> nth_error (map snd tbl) j = Some y -> pair_entry kC tol isreal g el1 el2 x y = Ok (at_ V i j))
  | Throw => exists x y, In x (map snd tbl) /\ In y (map snd tbl) /\ (forall v, pair_entry kC tol isreal g el1 el2 x y <> Ok v)
  | UB => False
  end.
Proof.
  intros tbl M PT. assert (H := @matrix_spec kC tol isreal g el1 el2 (pair_of ss1 ss2) (@pair_T radial1 radial2 e1 e2 dn1 dn2 mth1 mth2 ss1 ss2 el1 el2 A1 A2 C1 C2 kC tol isreal g) tbl M PT).
  destruct (pair_matrix kC tol isreal g el1 el2 tbl) as [V| |]; [|exact H|exact H]. destruct H as (N1 & N2 & E). split; [exact N1|]. split; [exact N2|]. split; [|exact E].
  unfold hermitian. split; [cbn; congruence|]. split; [cbn; congruence|]. intros i j Hi Hj. cbn [madj at_ nr nc] in *. rewrite ?N1, ?N2 in *.
  destruct (nth_error (map snd tbl) i) as [x|] eqn:Ex; [|apply nth_error_None in Ex; rewrite map_length in Ex; lia]. destruct (nth_error (map snd tbl) j) as [y|] eqn:Ey; [|apply nth_error_None in Ey; rewrite map_length in Ey; lia].
  assert (Q := E i j x y Ex Ey). assert (Q' := E j i y x Ey Ex). rewrite (@C98_hermitian x y) in Q' by (apply PT; eapply nth_error_In; eassumption). rewrite Q in Q'. injection Q' as Q'. rewrite <- Q'. apply injective_projections; cbn; ring.
Qed.
(** For states that are not artificial the entries above the diagonal, too, are what the interaction of C30, C60 and C65 says for the
    matrix elements of the two states. *)
Theorem C98_entry_exact : forall tbl V i j x y, pair_matrix kC tol isreal g el1 el2 tbl = Ok V ->
  map fst tbl = seq 0 (List.length tbl) -> (forall x, In x (map snd tbl) -> pair_of ss1 ss2 x) ->
  nth_error (map snd tbl) i = Some x -> nth_error (map snd tbl) j = Some y ->
  artificial2 x = false -> artificial2 y = false ->
  interaction_entry kC tol isreal g (pair_data el1 el2 x y) = Ok (at_ V i j).
Proof.
  intros tbl V i j x y E M PT Hx Hy Nx Ny. assert (H := C98_matrix _ M PT). rewrite E in H. destruct H as (_ & _ & _ & H). rewrite <- (H i j x y Hx Hy). unfold pair_entry. rewrite Nx, Ny. reflexivity.
Qed.

(** ** C99 *)
(** Reflection of both atoms at the xz plane, the interatomic axis lying in this plane *)
Theorem C99_reflection : forall r c r' c', 0 <= tol -> gvy g = Some 0 -> pair_of ss1 ss2 r -> pair_of ss1 ss2 c -> pair_of ss1 ss2 r' -> pair_of ss1 ss2 c' ->
  mirror2 r r' -> mirror2 c c' ->
  pair_entry kC tol isreal g el1 el2 r' c' = rmap (times (reflection_sign2 r * reflection_sign2 c)) (pair_entry kC tol isreal g el1 el2 r c).
Proof. intros r c r' c' T Y. exact (fun Pr Pc Pr' Pc' => @pair_R radial1 radial2 e1 e2 dn1 dn2 mth1 mth2 ss1 ss2 el1 el2 A1 A2 C1 C2 kC tol isreal g r c r' c' T Y Pr Pc Pr' Pc'). Qed.
(** Rotation around the interatomic axis: the total magnetic quantum number is conserved if the axis is the z axis and there is no
    surface, or only dipole-dipole interaction. *)
Theorem C99_rotation : forall r c, 0 <= tol -> gvx g = Some 0 -> gvy g = Some 0 -> gsurf g = None \/ (gord g <= 3)%nat -> pair_of ss1 ss2 r -> pair_of ss1 ss2 c ->
  momentum2 r <> momentum2 c -> pair_entry kC tol isreal g el1 el2 r c = Ok (0, 0) \/ pair_entry kC tol isreal g el1 el2 r c = Throw.
Proof. exact (@pair_rot radial1 radial2 e1 e2 dn1 dn2 mth1 mth2 ss1 ss2 el1 el2 A1 A2 C1 C2 kC tol isreal g). Qed.
(** Vectors of different total momentum are not coupled. *)
Theorem C99_rotation_sectors : forall V tbl tbl' u w M M', 0 <= tol -> gvx g = Some 0 -> gvy g = Some 0 -> gsurf g = None \/ (gord g <= 3)%nat ->
  (forall x, In x (map snd tbl) -> pair_of ss1 ss2 x) -> (forall x, In x (map snd tbl') -> pair_of ss1 ss2 x) ->
  (forall x y, In x (map snd tbl) -> In y (map snd tbl') -> pair_entry kC tol isreal g el1 el2 x y = Ok (V x y)) ->
  (forall e, In e tbl -> u (fst e) <> @Matrix.s0 CR -> momentum2 (snd e) = M) -> (forall e, In e tbl' -> w (fst e) <> @Matrix.s0 CR -> momentum2 (snd e) = M') -> M <> M' ->
  coupling V tbl tbl' u w = @Matrix.s0 CR.
Proof.
  intros V tbl tbl' u w M M' T X Y S P P' HV HU HW N. unfold coupling. apply lsum_zero. intros e Ie. apply lsum_zero. intros e' Ie'.
  destruct (SymmetryProofs2.CR_dec (u (fst e))) as [E|E]; [rewrite E; apply injective_projections; cbn; ring|].
  destruct (SymmetryProofs2.CR_dec (w (fst e'))) as [F|F]; [rewrite F; apply injective_projections; cbn; ring|].
  assert (IX := in_map snd _ _ Ie). assert (IY := in_map snd _ _ Ie'). assert (Q := HV _ _ IX IY).
  destruct (@C99_rotation (snd e) (snd e') T X Y S (P _ IX) (P' _ IY)) as [Z|Z]; [rewrite (HU e Ie E), (HW e' Ie' F); exact N| |congruence].
  rewrite Z in Q. injection Q as Q. rewrite <- Q. apply injective_projections; cbn; ring.
Qed.
(** Vectors of different reflection character are not coupled: [iota] maps every state to its mirror image. *)
Theorem C99_reflection_sectors : forall V tbl tbl' u w (iota : state2 -> state2) (k k' : R), 0 <= tol -> gvy g = Some 0 ->
  (forall x, In x (map snd tbl) -> pair_of ss1 ss2 x) -> (forall x, In x (map snd tbl') -> pair_of ss1 ss2 x) ->
  (forall x y, In x (map snd tbl) -> In y (map snd tbl') -> pair_entry kC tol isreal g el1 el2 x y = Ok (V x y)) ->
  (forall x, In x (map snd tbl ++ map snd tbl') -> mirror2 x (iota x)) ->
  Permutation (map iota (map snd tbl)) (map snd tbl) -> Permutation (map iota (map snd tbl')) (map snd tbl') ->
  (exists U : state2 -> CR, (forall e, In e tbl -> u (fst e) = U (snd e)) /\ (forall x, In x (map snd tbl) -> U (iota x) = smul (s := CR) (cre (k * reflection_sign2 x)) (U x))) ->
  (exists W : state2 -> CR, (forall e, In e tbl' -> w (fst e) = W (snd e)) /\ (forall x, In x (map snd tbl') -> W (iota x) = smul (s := CR) (cre (k' * reflection_sign2 x)) (W x))) ->
  k * k' = -1 -> coupling V tbl tbl' u w = @Matrix.s0 CR.
Proof.
  intros V tbl tbl' u w iota k k' T Y P P' HV MI PE PE' (U & U1 & U2) (W & W1 & W2) KK. rewrite (@coupling_states V tbl tbl' u w U W U1 W1).
  assert (SQ : forall a, reflection_sign a * reflection_sign a = 1) by (intros a; apply par_sq).
  apply (@character_zero iota reflection_sign2 V) with (k := k) (k' := k'); try assumption.
  - intros x. unfold reflection_sign2. transitivity ((reflection_sign (fst1 x) * reflection_sign (fst1 x)) * (reflection_sign (snd1 x) * reflection_sign (snd1 x))); [ring|]. rewrite !SQ. ring.
  - intros x y Ix Iy. assert (Jx : In (iota x) (map snd tbl)) by (eapply Permutation_in; [exact PE|apply in_map; exact Ix]). assert (Jy : In (iota y) (map snd tbl')) by (eapply Permutation_in; [exact PE'|apply in_map; exact Iy]).
    assert (Q := HV _ _ Ix Iy). assert (Q' := HV _ _ Jx Jy). rewrite (@C99_reflection x y (iota x) (iota y) T Y) in Q'; try (apply P; assumption); try (apply P'; assumption); try (apply MI; apply in_or_app; auto).
    rewrite Q in Q'. cbn in Q'. injection Q' as Q'. rewrite <- Q'. apply injective_projections; cbn; ring.
Qed.
End P.

Section X.
Variable radial : string -> Z -> string -> Z -> Z -> Z -> Z -> Z -> Z -> Z -> res R.
Variables (e : R) (dn : string) (mth : Z).
Variable el : state1 -> state1 -> nat -> R.
Variables kC tol : R.
Variable isreal : bool.
Variable g : geo.

(** Inversion: exchange of two atoms of one kind together with their parities, without a surface, any distance vector and any order *)
Theorem C99_inversion : forall ss r c, atom_states ss -> calculated radial e dn mth ss el -> gsurf g = None -> pair_of ss ss r -> pair_of ss ss c ->
  pair_entry kC tol isreal g el el (mkTwo_pair (snd1 r) (fst1 r)) (mkTwo_pair (snd1 c) (fst1 c)) =
  rmap (times (parity2 r * parity2 c)) (pair_entry kC tol isreal g el el r c).
Proof. intros ss r c A C. exact (@pair_X radial e dn mth ss el A C kC tol isreal g r c). Qed.
(** Permutation: exchange of two atoms of one kind, only for dipole-dipole interaction *)
Theorem C99_permutation : forall ss r c, atom_states ss -> calculated radial e dn mth ss el -> gsurf g = None -> (gord g <= 3)%nat -> pair_of ss ss r -> pair_of ss ss c ->
  pair_entry kC tol isreal g el el (mkTwo_pair (snd1 r) (fst1 r)) (mkTwo_pair (snd1 c) (fst1 c)) = pair_entry kC tol isreal g el el r c.
Proof. intros ss r c A C. exact (@pair_perm radial e dn mth ss el A C kC tol isreal g r c). Qed.

(** The bases SystemTwo builds for opposite inversion symmetries are not coupled by the interaction it builds, whatever the
    restrictions, the distance vector and the order are. *)
Theorem C99_inversion_sectors : forall hs hi hf energy species1 species2 (rt thr thr' : CR) (s : @onesys CR) rq rq' p,
  PropPair.scalars_ok rt thr -> PropPair.scalars_ok rt thr' -> wf_one s -> same_kind s -> orthonormal s -> rq_add rq = [] -> rq_add rq' = [] ->
  (forall i, (i < List.length (o_cols s))%nat -> parity_of s i (p i)) ->
  atom_states (o_states s) -> calculated radial e dn mth (o_states s) el -> gsurf g = None ->
  exists tbl b h tbl' b' h',
    initBasis2 hs hi hf rt energy s s species1 species2 EVEN NA NA None [] thr rq = (tbl, Ok (b, h)) /\
    initBasis2 hs hi hf rt energy s s species1 species2 ODD NA NA None [] thr' rq' = (tbl', Ok (b', h')) /\
    forall V, (forall x y, In x (map snd tbl) -> In y (map snd tbl') -> pair_entry kC tol isreal g el el x y = Ok (V x y)) ->
    forall k k', (k < nc b)%nat -> (k' < nc b')%nat -> coupling V tbl tbl' (fun r => at_ b r k) (fun r => at_ b' r k') = @Matrix.s0 CR.
Proof.
  intros hs hi hf energy sp1 sp2 rt thr thr' s rq rq' p SO SO' W SK O RA RA' PP A C N.
  destruct (@PropPair.C40_inversion CR hs hi hf rt energy sp1 sp2 thr s rq EVEN p SO W SK O RA ltac:(discriminate) PP) as (tbl & b & h & E & X).
  destruct (@PropPair.C40_inversion CR hs hi hf rt energy sp1 sp2 thr' s rq' ODD p SO' W SK O RA' ltac:(discriminate) PP) as (tbl' & b' & h' & E' & X').
  exists tbl, b, h, tbl', b', h'. split; [exact E|]. split; [exact E'|]. intros V HV k k' L L'.
  exact (@inversion_zero radial e dn mth el kC tol isreal g rt s A C W N rq rq' thr thr' tbl tbl' b h b' h' V HV p PP X X' k k' L L').
Qed.
(** The same for opposite permutation symmetries, for dipole-dipole interaction. *)
Theorem C99_permutation_sectors : forall hs hi hf energy species1 species2 (rt thr thr' : CR) (s : @onesys CR) rq rq',
  PropPair.scalars_ok rt thr -> PropPair.scalars_ok rt thr' -> wf_one s -> same_kind s -> orthonormal s -> rq_add rq = [] -> rq_add rq' = [] ->
  atom_states (o_states s) -> calculated radial e dn mth (o_states s) el -> gsurf g = None -> (gord g <= 3)%nat ->
  exists tbl b h tbl' b' h',
    initBasis2 hs hi hf rt energy s s species1 species2 NA NA EVEN None [] thr rq = (tbl, Ok (b, h)) /\
    initBasis2 hs hi hf rt energy s s species1 species2 NA NA ODD None [] thr' rq' = (tbl', Ok (b', h')) /\
    forall V, (forall x y, In x (map snd tbl) -> In y (map snd tbl') -> pair_entry kC tol isreal g el el x y = Ok (V x y)) ->
    forall k k', (k < nc b)%nat -> (k' < nc b')%nat -> coupling V tbl tbl' (fun r => at_ b r k) (fun r => at_ b' r k') = @Matrix.s0 CR.
Proof.
  intros hs hi hf energy sp1 sp2 rt thr thr' s rq rq' SO SO' W SK O RA RA' A C N OR.
  destruct (@PropPair.C40_permutation CR hs hi hf rt energy sp1 sp2 thr s rq EVEN SO W SK O RA ltac:(discriminate)) as (tbl & b & h & E & X).
  destruct (@PropPair.C40_permutation CR hs hi hf rt energy sp1 sp2 thr' s rq' ODD SO' W SK O RA' ltac:(discriminate)) as (tbl' & b' & h' & E' & X').
  exists tbl, b, h, tbl', b', h'. split; [exact E|]. split; [exact E'|]. intros V HV k k' L L'.
  exact (@permutation_zero radial e dn mth el kC tol isreal g rt s A C W N rq rq' thr thr' tbl tbl' b h b' h' V HV OR X X' k k' L L').
Qed.
End X.

(** ** What does not hold *)
Lemma nz4 : forall a b c d, a <> 0 -> b <> 0 -> c <> 0 -> d <> 0 -> a * b * c * d <> 0.
Proof. intros. repeat apply Rmult_integral_contrapositive_currified; assumption. Qed.
(** Order 4: the exchange of the atoms alone changes the sign of the dipole-quadrupole interaction, so that the
    permutation sectors are coupled although setConservedParityUnderPermutation accepts every order: <SS|V|PD> = - <SS|V|DP> <> 0. *)
Theorem C99_permutation_refuted : forall kC tol isreal, kC <> 0 -> exists w, w <> 0 /\
  let g := gsets newGeo [SetOrder2 4; SetDistance 1] in
  pair_entry kC tol isreal g unit_el unit_el (mkTwo_pair (sS 1) (sS 1)) (mkTwo_pair (sP 1) (sD 1)) = Ok (w, 0) /\
  pair_entry kC tol isreal g unit_el unit_el (mkTwo_pair (sS 1) (sS 1)) (mkTwo_pair (sD 1) (sP 1)) = Ok (- w, 0).
Proof.
  intros kC tol isreal K. destruct (perm_value kC tol isreal) as (w & E & W). exists w. split.
  - rewrite W. apply nz4; auto using C_nz, SP0, SD0.
  - cbv zeta. split; [exact E|]. assert (IR : pair_of demo_states demo_states pairSS) by (split; cbn; tauto). assert (IC : pair_of demo_states demo_states (pairPD 1)) by (split; cbn; tauto).
    assert (Q := @C99_inversion radial1 1 EmptyString 0%Z unit_el kC tol isreal (gsets newGeo [SetOrder2 4; SetDistance 1]) demo_states pairSS (pairPD 1) demo_atoms (unit_calculated demo_atoms)).
    destruct (axis_geo 4) as (_ & _ & _ & _ & _ & S & _). specialize (Q S IR IC). unfold pairSS, pairPD in Q, E. cbn [fst1 snd1 mkTwo_pair] in Q. rewrite Q.
    unfold mkTwo_pair in E |- *. rewrite E. unfold rmap, times, parity2, par. cbn. f_equal. apply injective_projections; cbn; ring.
Qed.
(** The atoms next to each other on the x axis: states of different total momentum are coupled although
    setConservedMomentaUnderRotation is accepted (the basis does not depend on the geometry). *)
Theorem C99_offaxis_refuted : forall kC tol isreal, kC <> 0 -> 0 <= tol < 1 -> exists w, w <> 0 /\
  momentum2 (mkTwo_pair (sS 1) (sS 1)) <> momentum2 (mkTwo_pair (sP (-1)) (sP (-1))) /\
  pair_entry kC tol isreal (gsets newGeo [SetVector 1 0 0]) unit_el unit_el (mkTwo_pair (sS 1) (sS 1)) (mkTwo_pair (sP (-1)) (sP (-1))) = Ok (w, 0).
Proof.
  intros kC tol isreal K T. destruct (off_value kC isreal T) as (w & E & W). exists w. split; [|split; [discriminate|exact E]].
  rewrite W. apply nz4; auto using SP1. lra.
Qed.
(** Order 4 with a surface perpendicular to the axis: the total momentum is not conserved, since the derivatives with respect to y are
    missing in the tensor of the surface. *)
Theorem C99_surface_rotation_refuted : forall kC, kC <> 0 -> exists w, w <> 0 /\
  momentum2 (mkTwo_pair (sS 1) (sS 1)) <> momentum2 (mkTwo_pair (sP (-1)) (sD (-1))) /\
  pair_entry kC 0 false (gsets newGeo [SetOrder2 4; SetDistance 1; SetSurface (Some 1)]) unit_el unit_el (mkTwo_pair (sS 1) (sS 1)) (mkTwo_pair (sP (-1)) (sD (-1))) = Ok (w, 0).
Proof.
  intros kC K. destruct (surface_value kC) as (w & E & W). exists w. split; [|split; [discriminate|exact E]].
  rewrite W. pose proof (sqrt_lt_R0 2 ltac:(lra)). pose proof (sqrt_lt_R0 24 ltac:(lra)). pose proof (Rinv_0_lt_compat _ H). pose proof (Rinv_0_lt_compat _ H0).
  apply nz4; auto using SP1, SD1. apply Rlt_not_eq. nra.
Qed.

(** ** The hypotheses are met *)
(** Atoms on the z axis, every order: all entries are calculated, for real scalars too. *)
Lemma axis_ok : forall kC tol isreal o el1 el2 r c, exists v, pair_entry kC tol isreal (gsets newGeo [SetOrder2 o; SetDistance 1]) el1 el2 r c = Ok v.
Proof.
  intros kC tol isreal o el1 el2 r c. destruct (axis_geo o) as (D & X & Y & Z & T & S & O & F). set (g := gsets _ _) in *. clearbody g.
  unfold pair_entry. destruct (_ || _); [eexists; reflexivity|]. unfold interaction_entry. rewrite D, X, Y, Z. destruct (Reqb 1 dmax); [eexists; reflexivity|].
  unfold needs_green. rewrite X, Y, S, T, O. unfold nonzeroR. rewrite (proj2 (Reqb_true 0 0) eq_refl). cbn [negb orb andb]. eexists. reflexivity.
Qed.
(** S and P states of Rb, matrix elements with radial part 1: the matrix of |SS>, |PD>, |DP> is built; it is not diagonal. *)
Example C98_nonvacuous : forall kC tol isreal, kC <> 0 ->
  let g := gsets newGeo [SetOrder2 4; SetDistance 1] in
  let tbl := [(0%nat, pairSS); (1%nat, pairPD 1); (2%nat, mkTwo_pair (sD 1) (sP 1))] in
  atom_states demo_states /\ calculated radial1 1 EmptyString 0 demo_states unit_el /\ map fst tbl = seq 0 (List.length tbl) /\
  (forall x, In x (map snd tbl) -> pair_of demo_states demo_states x) /\
  exists V, pair_matrix kC tol isreal g unit_el unit_el tbl = Ok V /\ at_ V 0 1 <> @Matrix.s0 CR /\ at_ V 1 0 <> @Matrix.s0 CR.
Proof.
  intros kC tol isreal K g tbl. assert (PT : forall x, In x (map snd tbl) -> pair_of demo_states demo_states x) by (intros x I; cbn in I; repeat destruct I as [<-|I]; try destruct I; split; cbn; tauto).
  split; [apply demo_atoms|]. split; [apply (unit_calculated demo_atoms)|]. split; [reflexivity|]. split; [exact PT|].
  assert (H := @C98_matrix radial1 radial1 1 1 EmptyString EmptyString 0 0 demo_states demo_states unit_el unit_el demo_atoms demo_atoms (unit_calculated demo_atoms) (unit_calculated demo_atoms) kC tol isreal g tbl eq_refl PT).
  assert (HE := @C98_hermitian radial1 radial1 1 1 EmptyString EmptyString 0 0 demo_states demo_states unit_el unit_el demo_atoms demo_atoms (unit_calculated demo_atoms) (unit_calculated demo_atoms) kC tol isreal g pairSS (pairPD 1) (PT _ (or_introl eq_refl)) (PT _ (or_intror (or_introl eq_refl)))).
  destruct (pair_matrix kC tol isreal g unit_el unit_el tbl) as [V| |].
  - exists V. split; [reflexivity|]. destruct H as (_ & _ & _ & E). destruct (C99_permutation_refuted tol isreal K) as (w & W & Q & _). cbv zeta in Q. fold pairSS (pairPD 1) in Q. change (gsets newGeo [SetOrder2 4; SetDistance 1]) with g in Q.
    assert (E1 := E 0%nat 1%nat pairSS (pairPD 1) eq_refl eq_refl). assert (E2 := E 1%nat 0%nat (pairPD 1) pairSS eq_refl eq_refl). rewrite HE in E2. rewrite Q in E1, E2. injection E1 as E1. injection E2 as E2. rewrite <- E1, <- E2. split; intros Z; injection Z; intros; contradiction.
  - exfalso. destruct H as (x & y & _ & _ & N). destruct (axis_ok kC tol isreal 4 unit_el unit_el x y) as (v & V). exact (N v V).
  - destruct H.
Qed.

Definition rtC : CR := (/ sqrt 2, 0).
Definition thrC : CR := (/ 2, 0).
Definition freeC : @SystemModel.request CR state2 := SystemModel.Request (K:=CR) (State:=state2) (Ranges [] [] [] []) None None [].
Definition sysC : @onesys CR := OneSys (K:=CR) [sS 1; sP 1] [[(0%nat, (1, 0))]; [(1%nat, (1, 0))]] [(0, 0); (0, 0)].
Lemma scalarsC : PropPair.scalars_ok rtC thrC.
Proof.
  assert (Q : / sqrt 2 * / sqrt 2 = / 2) by (rewrite <- Rinv_mult, sqrt_sqrt by lra; reflexivity).
  split; [|split; [|split]].
  - apply injective_projections; cbn; ring.
  - apply injective_projections; cbn; [|ring]. rewrite Q. lra.
  - cbn. unfold cltre. cbn. destruct (Rlt_dec (/ 2) 0); [lra|reflexivity].
  - cbn. unfold cltre. cbn. destruct (Rlt_dec (/ 2) 1); [reflexivity|lra].
Qed.
Example C99_nonvacuous : wf_one sysC /\ same_kind sysC /\ orthonormal sysC /\
  (forall i, (i < List.length (o_cols sysC))%nat -> parity_of sysC i (if Nat.eqb i 0 then 1 else -1)%Z) /\ atom_states (o_states sysC) /\
  calculated radial1 1 EmptyString 0 (o_states sysC) unit_el /\ PropPair.scalars_ok rtC thrC /\
  (exists tbl b h, initBasis2 PairDemo.h0 PairDemo.h0 PairDemo.h0 rtC (fun _ => Ok (0, 0)) sysC sysC "Rb"%string "Rb"%string EVEN NA NA None [] thrC freeC = (tbl, Ok (b, h)) /\ (0 < nc b)%nat) /\
  (exists tbl b h, initBasis2 PairDemo.h0 PairDemo.h0 PairDemo.h0 rtC (fun _ => Ok (0, 0)) sysC sysC "Rb"%string "Rb"%string NA NA EVEN None [] thrC freeC = (tbl, Ok (b, h)) /\ (0 < nc b)%nat).
Proof.
  assert (W : wf_one sysC).
  { split; [|split; [reflexivity|]]; [repeat constructor|]. intros col H. cbn in H. destruct H as [<-|[<-|[]]]; (split; [cbn; repeat constructor; cbn; intuition lia|intros x He; cbn in He; repeat destruct He as [<-|He]; cbn; try lia; destruct He]). }
  assert (SK : same_kind sysC) by (intros a b Ha Hb _ _; cbn in Ha, Hb; destruct Ha as [<-|[<-|[]]]; destruct Hb as [<-|[<-|[]]]; reflexivity).
  assert (O : orthonormal sysC).
  { intros i k Hi Hk. cbn in Hi, Hk. destruct i as [|[|i]]; [| |lia]; destruct k as [|[|k]]; try lia; apply injective_projections; cbn; ring. }
  assert (PP : forall i, (i < List.length (o_cols sysC))%nat -> parity_of sysC i (if Nat.eqb i 0 then 1 else -1)%Z).
  { intros i Hi. cbn in Hi. destruct i as [|[|i]]; [| |lia]; (split; [cbn; auto|]); intros x st0 He E; cbn in He; repeat destruct He as [<-|He]; try destruct He; cbn in E; injection E as <-; split; reflexivity. }
  assert (A : atom_states (o_states sysC)).
  { split; [intros a I; apply demo_atoms; cbn in I |- *; tauto|intros a c Ia Ic; apply demo_atoms; cbn in Ia, Ic |- *; tauto]. }
  split; [exact W|]. split; [exact SK|]. split; [exact O|]. split; [exact PP|]. split; [exact A|]. split; [apply (unit_calculated A)|]. split; [exact scalarsC|].
  assert (NZ : forall sg al tbl b h, exchange_basis rtC sysC freeC thrC sg al tbl b h -> al 1%nat 0%nat -> (0 < nc b)%nat).
  { intros sg al tbl b h (ps & _ & I & _ & _ & _ & _ & _ & -> & _) AL. assert (IN : In (1%nat, 0%nat) ps) by (apply I; split; [cbn; lia|]; split; [lia|]; split; [exact AL|]; split; intros ? Q; discriminate Q). destruct ps; [destruct IN|cbn; lia]. }
  split.
  - destruct (@PropPair.C40_inversion CR PairDemo.h0 PairDemo.h0 PairDemo.h0 rtC (fun _ => Ok (0, 0)) "Rb"%string "Rb"%string thrC sysC freeC EVEN _ scalarsC W SK O eq_refl ltac:(discriminate) PP) as (tbl & b & h & E & X).
    exists tbl, b, h. split; [exact E|]. eapply NZ; [exact X|]. discriminate.
  - destruct (@PropPair.C40_permutation CR PairDemo.h0 PairDemo.h0 PairDemo.h0 rtC (fun _ => Ok (0, 0)) "Rb"%string "Rb"%string thrC sysC freeC EVEN scalarsC W SK O eq_refl ltac:(discriminate)) as (tbl & b & h & E & X).
    exists tbl, b, h. split; [exact E|]. eapply NZ; [exact X|]. discriminate.
Qed.
Print Assumptions C98_hermitian.
Print Assumptions C98_matrix.
Print Assumptions C98_entry_exact.
Print Assumptions C99_reflection.
Print Assumptions C99_rotation.
Print Assumptions C99_rotation_sectors.
Print Assumptions C99_reflection_sectors.
Print Assumptions C99_inversion.
Print Assumptions C99_permutation.
Print Assumptions C99_inversion_sectors.
Print Assumptions C99_permutation_sectors.
Print Assumptions C99_permutation_refuted.
Print Assumptions C99_offaxis_refuted.
Print Assumptions C99_surface_rotation_refuted.
