(** C30, C31, C62: the fields of a one-atom system.  Vocabulary: FieldSpec.v. *)
From Verif Require Import Base StateModel MEModel Racah MESpec MEReal Matrix SystemModel HamProofs HamProofs2 PropHam FieldModel FieldProofs FieldSpec FieldProofs2.
From Coq Require Import ZArith Lia Bool Reals Lra String Setoid List.
Import ListNotations.
Set Implicit Arguments.
Local Open Scope R_scope.

(** *** C30.  A setter that throws leaves the object as it was, except in two situations
    (refuted below): a field with y-component for the real scalar type, and conserved momenta
    that do not fit to the conserved parity. *)
Theorem C30_rejected_partial : forall isreal c s s',
  set_one isreal c s = (s', Throw) ->
  (forall v, isreal = true -> c = SetE v \/ c = SetB v -> vy v = 0) ->
  (forall p, c = SetRefl p -> compatible p (rot s) = true) ->
  (forall a l, c = SetRot a l -> compatible (refl s) (if a then None else Some l) = true) ->
  s' = s.
Proof.
  intros isreal c s s' H Hy Hp Hr. destruct c; cbn [set_one] in H;
  try (destruct (opc s) as [O|O]; rewrite O in H; [congruence|try congruence]).
  - unfold toSpherical in H. destruct isreal; [|congruence]. destruct (Req_EM_T (vy v) 0); [congruence|].
    exfalso. apply n. apply Hy; auto.
  - unfold toSpherical in H. destruct isreal; [|congruence]. destruct (Req_EM_T (vy v) 0); [congruence|].
    exfalso. apply n. apply Hy; auto.
  - unfold onSymmetryChange in H. destruct (f_built s); [congruence|]. rewrite (Hp p eq_refl) in H. congruence.
  - destruct (arb && _) in H; [congruence|]. unfold onSymmetryChange in H. destruct (f_built s); [congruence|].
    rewrite (Hr arb l eq_refl) in H. congruence.
Qed.
Print Assumptions C30_rejected_partial.

(** setEfield with a y-component on a real system throws, but the stored Cartesian field is the
    rejected one, the spherical components used for the Hamiltonian are the old ones, and the
    system is marked for a rebuild. *)
Theorem C30_field_refuted : exists s s', set_one true (SetE (0, 1, 0)) s = (s', Throw) /\
  efield s = (0, 0, 0) /\ efield s' = (0, 1, 0) /\ esph s' = esph s /\ f_required s = false /\ f_required s' = true.
Proof.
  exists new_one. eexists. split.
  - cbn [set_one new_one onParameterChange f_incons f_contained f_cached andb negb]. unfold toSpherical.
    destruct (Req_EM_T (vy (0, 1, 0)) 0) as [E|_]; [exfalso; cbn in E; lra|]. reflexivity.
  - cbn. auto.
Qed.
Print Assumptions C30_field_refuted.

(** setConservedParityUnderReflection / setConservedMomentaUnderRotation report the incompatible
    combination but keep it. *)
Theorem C30_symmetry_refuted : exists s p s', set_one false (SetRefl p) s = (s', Throw) /\ refl s' = p /\ refl s <> p /\
  exists l s'', set_one false (SetRot false l) (one_set_sym PEVEN None new_one) = (s'', Throw) /\ rot s'' = Some l.
Proof.
  exists (one_set_sym PNA (Some [1%Z]) new_one), PEVEN. eexists. split; [reflexivity|]. cbn. repeat split; try discriminate.
  exists [1%Z]. eexists. split; reflexivity.
Qed.
Print Assumptions C30_symmetry_refuted.

Example C30_nonvacuous : exists s s', set_one true (SetE (1, 0, 2)) s = (s', Throw) /\ s' = s /\ s <> new_one.
Proof.
  exists (One true false false false true (0, 0, 0) sph0 (0, 0, 0) sph0 dterms0 true 0 0 None PNA None). eexists.
  split; [reflexivity|]. split; auto. discriminate.
Qed.

(** The parameters are what the setters say: an accepted call stores its argument and changes no other parameter; a new system has no fields and no ion, and diamagnetism is considered. *)
Theorem C62_setters : forall isreal c s s', set_one isreal c s = (s', Ok tt) ->
  (efield s', bfield s', diamag s', charge s', ordermax s', distance s', refl s', rot s') =
  match c with
  | SetE v => (v, bfield s, diamag s, charge s, ordermax s, distance s, refl s, rot s)
  | SetB v => (efield s, v, diamag s, charge s, ordermax s, distance s, refl s, rot s)
  | SetDia b => (efield s, bfield s, b, charge s, ordermax s, distance s, refl s, rot s)
  | SetCharge z => (efield s, bfield s, diamag s, z, ordermax s, distance s, refl s, rot s)
  | SetOrder o => (efield s, bfield s, diamag s, charge s, o, distance s, refl s, rot s)
  | SetDist d => (efield s, bfield s, diamag s, charge s, ordermax s, Some d, refl s, rot s)
  | SetRefl p => (efield s, bfield s, diamag s, charge s, ordermax s, distance s, p, rot s)
  | SetRot arb l => (efield s, bfield s, diamag s, charge s, ordermax s, distance s, refl s, if arb then None else Some l)
  end.
Proof.
  intros isreal c s s' H. destruct c; cbn [set_one] in H; try (destruct (opc s) as [O|O]; rewrite O in H; [discriminate H|]).
  1, 2: destruct (toSpherical isreal v); try discriminate H; injection H as <-; reflexivity.
  1, 2, 3, 4: injection H as <-; reflexivity.
  - unfold onSymmetryChange in H. destruct (f_built s); [discriminate H|]. cbn in H. destruct (compatible p (rot s)); [|discriminate H]. injection H as <-. reflexivity.
  - destruct (arb && _); [discriminate H|]. unfold onSymmetryChange in H. destruct (f_built s); [discriminate H|]. cbn in H. destruct (compatible (refl s) _); [|discriminate H]. injection H as <-. reflexivity.
Qed.
Print Assumptions C62_setters.
Theorem C62_new : (efield new_one, bfield new_one, diamag new_one, charge new_one, refl new_one, rot new_one) = ((0, 0, 0), (0, 0, 0), true, 0%Z, PNA, None).
Proof. reflexivity. Qed.


Section Phys.
Variable radial : string -> Z -> string -> Z -> Z -> Z -> Z -> Z -> Z -> Z -> res R.
Variables (e_charge minus_muB gL gS : R).
Variables (dn : string) (mth : Z).
Variables (cdia cion tol : R).
Variables (sp : string) (sp2 : Z).
Notation INIT := (initOne radial e_charge minus_muB gL gS dn mth cdia cion tol).
Notation frun' := (frun radial e_charge minus_muB gL gS dn mth cdia cion tol).
Notation elem' := (elem radial e_charge minus_muB gL gS dn mth cdia cion).

(** *** C31.  Whatever setters were called (successfully or not) and however often operators were
    computed before, the Hamiltonian assembled for the current fields is Hermitian. *)
Theorem C31_hermitian : forall isreal tbl B ev H0,
  good_table sp sp2 tbl -> nr H0 = nc B -> nc H0 = nc B -> hermitian H0 ->
  let x := frun' isreal tbl B ev (new_one, no_ops) in
  hermitian (addInt tol (fst x) (INIT (fst x) tbl B (snd x)) H0).
Proof. intros isreal tbl B ev H0 T. apply (@hermitian_history radial e_charge minus_muB gL gS dn mth cdia cion tol sp sp2 isreal tbl B T ev H0). Qed.

(** *** C62.  It is the unperturbed Hamiltonian plus -E.d - B.mu + diamagnetic + ion terms, each
    with the library's matrix elements between the states, transformed to the basis. *)
Lemma fields_spherical : forall isreal tbl B ev x,
  (isreal = true -> forall v, In (FSet (SetE v)) ev \/ In (FSet (SetB v)) ev -> vy v = 0) ->
  esph (fst x) = spherical (efield (fst x)) /\ bsph (fst x) = spherical (bfield (fst x)) ->
  let y := frun' isreal tbl B ev x in
  esph (fst y) = spherical (efield (fst y)) /\ bsph (fst y) = spherical (bfield (fst y)).
Proof.
  intros isreal tbl B ev. induction ev as [|e ev IH]; intros x Hy H; [exact H|]. cbn [frun fold_left].
  apply IH. { intros R v [X|X]; apply Hy; auto; [left|right]; right; auto. }
  destruct e as [c|]; [|exact H]. cbn [fstep fst]. set (s := fst x) in *. clearbody s.
  destruct c; cbn [set_one]; try (destruct (opc s) as [-> | ->]; cbn [fst]; auto).
  - destruct (toSpherical isreal v) as [e| |] eqn:T; cbn [fst]; auto.
    + apply toSpherical_spec in T. subst e. cbn. split; [reflexivity|tauto].
    + unfold toSpherical in T. destruct isreal; [|discriminate]. destruct (Req_EM_T (vy v) 0) as [|N]; [discriminate|].
      exfalso. apply N. apply Hy; auto. left. left. auto.
  - destruct (toSpherical isreal v) as [e| |] eqn:T; cbn [fst]; auto.
    + apply toSpherical_spec in T. subst e. cbn. split; [tauto|reflexivity].
    + unfold toSpherical in T. destruct isreal; [|discriminate]. destruct (Req_EM_T (vy v) 0) as [|N]; [discriminate|].
      exfalso. apply N. apply Hy; auto. right. left. auto.
  - unfold onSymmetryChange. destruct (f_built s); cbn [fst]; auto. destruct (compatible p (rot s)); auto.
  - destruct (arb && _); auto. unfold onSymmetryChange. destruct (f_built s); cbn [fst]; auto.
    destruct (compatible _ _); auto.
Qed.

Theorem C62_value : forall isreal tbl B ev (H0 : mat CR),
  good_table sp sp2 tbl -> nr H0 = nc B -> nc H0 = nc B ->
  (isreal = true -> forall v, In (FSet (SetE v)) ev \/ In (FSet (SetB v)) ev -> vy v = 0) ->
  let x := frun' isreal tbl B ev (new_one, no_ops) in let s := fst x in
  crisp_fields tol s ->
  exists W : mat CR, nr W = length tbl /\ nc W = length tbl /\
    (forall i j a b, nth_error tbl i = Some (i, a) -> nth_error tbl j = Some (j, b) ->
       at_ W i j = interaction radial e_charge minus_muB gL gS dn mth cdia cion
                     (efield s) (bfield s) (diamag s) (charge s) (ordermax s) (distance s) a b) /\
    meq (addInt tol s (INIT s tbl B (snd x)) H0) (madd H0 (mconj B W)).
Proof.
  intros isreal tbl B ev H0 T a b Hy x s C.
  destruct (no_ops_inv radial e_charge minus_muB gL gS dn mth cdia cion tbl B) as [R Cl].
  destruct (@frun_inv radial e_charge minus_muB gL gS dn mth cdia cion tol sp sp2 isreal tbl B T ev (new_one, no_ops) new_fields_ok R Cl) as (F & R' & C').
  fold x in F, R', C'. fold s in F.
  destruct (@fields_spherical isreal tbl B ev (new_one, no_ops) Hy) as [Se Sb].
  { cbn. unfold spherical, sph0. cbn. replace (0 / sqrt 2) with 0 by (unfold Rdiv; ring). replace (- 0 / sqrt 2) with 0 by (unfold Rdiv; ring). auto. }
  fold x in Se, Sb. fold s in Se, Sb.
  destruct T as [Ti To].
  exists (Wmat isArtificial m2 iselE iselB iselM (idE radial e_charge dn mth) (idB radial minus_muB gL gS dn mth)
     (idD radial e_charge dn mth) (idM radial e_charge dn mth) cdia cion tol tbl s).
  destruct (Wmat_dims isArtificial m2 iselE iselB iselM (idE radial e_charge dn mth) (idB radial minus_muB gL gS dn mth)
     (idD radial e_charge dn mth) (idM radial e_charge dn mth) cdia cion tol tbl s) as [W1 W2].
  split; auto. split; auto. split.
  - intros i j p q Hi Hj. rewrite (@Wmat_at _ _ _ _ _ _ _ _ _ _ cdia cion tol (one_atom sp sp2) tbl To Ti s i j p q Hi Hj).
    apply wsum_value; auto. apply F.
  - unfold initOne. apply (@addInt_formula _ _ _ _ _ _ _ _ _ _ cdia cion tol _ (@inst_symm radial e_charge minus_muB gL gS dn mth sp sp2) tbl To Ti B s (snd x) H0 R' C' F a b).
Qed.

(** *** C31 along the histories of C26: parameters changed, Hamiltonian rebuilt, diagonalised,
    in any order.  [Param] are the fields; operators and coefficients are those of the code. *)
Section Hist.
Context {Angle : Type}.
Variable seqb : state1 -> state1 -> bool.
Variable sgen : state1 -> bool.
Variable qvalid : ranges -> state1 -> bool.
Variable v_init : one -> @request CR state1 -> list (nat * state1) * res (mat CR * mat CR).
Variable v_rot : Angle -> list (nat * state1) -> list (nat * nat * CR).
Variable v_compat : one -> one -> res one.
Variable v_label : list state1 -> (nat -> CR) -> nat -> state1.
Notation Xrun := (run (Angle := Angle) seqb sgen fkey_eqb qvalid v_init (vkeys tol) elem' v_rot v_compat v_label).
Notation Xhist26 := (hist26 (Angle := Angle) seqb sgen fkey_eqb qvalid v_init (vkeys tol) elem' v_rot v_compat v_label).
Notation XbuildHam := (buildHamiltonian seqb fkey_eqb qvalid v_init (vkeys tol) elem').

Theorem C31_any_history : forall s0 (l : list (@call CR state1 one fkey Angle)),
  PropHam.fresh (vkeys tol) s0 -> hermitian (ham s0) -> good_table sp sp2 (states s0) ->
  Xhist26 l s0 -> fields_ok (par (fst (Xrun l s0))) ->
  exists s, XbuildHam (fst (Xrun l s0)) = (s, Ok tt) /\ hermitian (lift (bv s) (ham s)).
Proof.
  intros s0 l F Hh T Hl Fp.
  destruct (@C26_value CR state1 one fkey Angle seqb sgen fkey_eqb qvalid v_init (vkeys tol) elem' v_rot v_compat v_label
     fkey_eqb_eq s0 l F Hl) as (s & Bs & Ps & Es & BP & L).
  exists s. split; auto. unfold hermitian. rewrite L. rewrite Ps.
  destruct F as (St & R & R1 & C1 & I & _). destruct T as [Ti To].
  assert (PA : meq (madj (proj (bv s0))) (proj (bv s0))).
  { unfold proj. rewrite madj_mul, madj_adj. reflexivity. }
  assert (AH : hermitian (lift (bv s0) (ham s0))).
  { unfold hermitian, lift. rewrite !madj_mul, madj_adj. unfold hermitian in Hh. rewrite Hh. rewrite mmul_assoc. reflexivity. }
  assert (X : meq (Htot (vkeys tol) elem' (states s0) (bv s0) (ham s0) (par (fst (Xrun l s0))))
     (madd (lift (bv s0) (ham s0)) (mconj (proj (bv s0))
        (Wmat isArtificial m2 iselE iselB iselM (idE radial e_charge dn mth) (idB radial minus_muB gL gS dn mth)
     (idD radial e_charge dn mth) (idM radial e_charge dn mth) cdia cion tol (states s0) (par (fst (Xrun l s0))))))).
  { unfold Htot, A0, Wmat. rewrite <- (@Hsum_mconj (proj (bv s0)) (length (states s0))); auto.
    apply Hsum_ext.
    - split; [cbn; rewrite Nat.min_id; auto|]. split; [cbn; rewrite Nat.min_id; auto|].
      intros i j Hi Hj. cbn [madd at_].
      rewrite mconj_zero_at. apply cx_eq; cbn; ring.
    - intros e He. unfold mconj. rewrite PA. reflexivity. }
  rewrite X. apply madd_hermitian; auto. apply mconj_hermitian. eapply Wmat_herm; eauto. apply inst_symm.
Qed.
End Hist.
End Phys.
Print Assumptions C31_hermitian.
Print Assumptions C31_any_history.
Print Assumptions C62_value.

(** The coefficients are those of the scalar products: for a position vector r, the sum of field
    components times spherical components of r is -F.r, and the diamagnetic combination is |F x r|^2. *)
Theorem C62_dipole_cartesian : forall F r,
  cadd (copp (cmul (s_0 (spherical F)) (s_0 (spherical r))))
       (cadd (cmul (s_m (spherical F)) (s_p (spherical r))) (cmul (s_p (spherical F)) (s_m (spherical r)))) = (- vdot F r, 0).
Proof. exact dot_spherical. Qed.
Print Assumptions C62_dipole_cartesian.

Theorem C62_diamagnetic_cartesian : forall F r, let t := diaTerms (spherical F) in
  cmul (2/3, 0)
   (cadd (cmul (t00 t) (C00 r))
   (cadd (copp (cmul (t20 t) (C20 r)))
   (cadd (cmul (sqrt 3, 0) (cadd (cmul (t21 t) (C21 r)) (cmul (t2m1 t) (C2m1 r))))
         (copp (cmul (sqrt (3/2), 0) (cadd (cmul (t22 t) (C22 r)) (cmul (t2m2 t) (C2m2 r)))))))) 
  = (vdot (vcross F r) (vcross F r), 0).
Proof. exact dia_cartesian. Qed.
Print Assumptions C62_diamagnetic_cartesian.

(** A table with an artificial and two physical states, fields with all components set. *)
Example C31_nonvacuous :
  good_table "Rb" 1 [(0%nat, sRb 60 0 1 1); (1%nat, sRb 60 1 3 (-1)); (2%nat, St1 "x" "0" 0 0 0 0 0 0%N)] /\
  isArtificial (St1 "x" "0" 0 0 0 0 0 0%N) = true /\
  crisp_fields 0 (fst (frun radial1 1 (-1) 1 2 EmptyString 0 1 1 0 false
     [(0%nat, sRb 60 0 1 1); (1%nat, sRb 60 1 3 (-1))] (mid 2)
     [FSet (SetE (1, 2, 3)); FInit; FSet (SetB (4, 5, 6)); FSet (SetCharge 1)] (new_one, no_ops))).
Proof.
  split; [|split; [reflexivity|]].
  - split; [reflexivity|]. intros e [<-|[<-|[<-|[]]]]; cbn [snd]; [right|right|left; reflexivity];
    (split; [unfold physical; cbn; repeat split; lia|split; reflexivity]).
  - assert (X : forall x : cx, x <> (0, 0) -> 0 * 0 < fst x * fst x + snd x * snd x).
    { intros [a b] H. cbn. destruct (Req_dec a 0) as [->|A]; [destruct (Req_dec b 0) as [->|Bz]; [congruence|]|]; nra. }
    unfold crisp_fields, crisp.
    repeat split; match goal with |- ?x = _ \/ _ => 
      destruct (Req_EM_T (fst x) 0) as [E|E]; [destruct (Req_EM_T (snd x) 0) as [E'|E']; 
        [left; apply cx_eq; auto|right; apply X; intro Q; rewrite Q in E'; cbn in E'; lra]
       |right; apply X; intro Q; rewrite Q in E; cbn in E; lra] end.
Qed.
