(** Setters, Cartesian forms and the instance with the library's matrix elements. *)
From Verif Require Import Base StateModel MEModel Racah MESpec MEProofs MEReal Matrix SystemModel HamProofs FieldModel FieldProofs FieldSpec.
From Coq Require Import ZArith Lia Bool Reals Lra String List.
Import ListNotations.
Set Implicit Arguments.
Local Open Scope R_scope.

Lemma toSpherical_spec : forall isreal v e, toSpherical isreal v = Ok e -> e = spherical v.
Proof.
  intros isreal v e H. unfold toSpherical in H. destruct isreal.
  - destruct (Req_EM_T (vy v) 0) as [Y|]; [|discriminate]. injection H as <-. unfold spherical. rewrite Y.
    unfold ofR. replace (- 0 / sqrt 2) with 0 by (unfold Rdiv; ring). reflexivity.
  - injection H as <-. reflexivity.
Qed.
Lemma toSpherical_ub : forall isreal v, toSpherical isreal v <> UB.
Proof. intros isreal v. unfold toSpherical. destruct isreal; [destruct (Req_EM_T (vy v) 0)|]; discriminate. Qed.

Lemma spherical_real : forall v, real_sph (spherical v).
Proof. intro v. split; [|reflexivity]. cbn. apply cx_eq; cbn; unfold Rdiv; ring. Qed.

Lemma opc : forall s, onParameterChange s = (s, Throw) \/ onParameterChange s = (one_set_required s, Ok tt).
Proof. intro s. unfold onParameterChange. destruct (f_incons s); auto. destruct (f_contained s && negb (f_cached s)); auto. Qed.

Lemma set_fields_ok : forall isreal c s, fields_ok s -> fields_ok (fst (set_one isreal c s)).
Proof.
  intros isreal c s F. destruct c; cbn [set_one]; try (destruct (opc s) as [-> | ->]; cbn [fst]; auto).
  - destruct (toSpherical isreal v) as [e| |] eqn:T; cbn [fst]; auto. apply toSpherical_spec in T. subst e.
    destruct F as (_ & B & D). split; [apply spherical_real|]. auto.
  - destruct (toSpherical isreal v) as [e| |] eqn:T; cbn [fst]; auto. apply toSpherical_spec in T. subst e.
    destruct F as (A & _ & _). split; [exact A|]. split; [apply spherical_real|reflexivity].
  - unfold onSymmetryChange. destruct (f_built s); cbn [fst]; auto. destruct (compatible p (rot s)); auto.
  - destruct (arb && _); auto. unfold onSymmetryChange. destruct (f_built s); cbn [fst]; auto.
    destruct (compatible _ _); auto.
Qed.

Lemma diaTerms0 : diaTerms sph0 = dterms0.
Proof. unfold diaTerms, dterms0, sph0; cbn. f_equal; apply cx_eq; cbn; ring. Qed.

Lemma new_fields_ok : fields_ok new_one.
Proof. split; [|split]; try (split; [cbn; apply cx_eq; cbn; ring|reflexivity]). symmetry. apply diaTerms0. Qed.

(** ** Cartesian forms *)
Lemma sqrt2_sq : sqrt 2 * sqrt 2 = 2.
Proof. apply sqrt_sqrt. lra. Qed.
Lemma sqrt2_nz : sqrt 2 <> 0.
Proof. intro H. pose proof sqrt2_sq as S. rewrite H in S. lra. Qed.
Lemma div2 : forall a b, a / sqrt 2 * (b / sqrt 2) = a * b / 2.
Proof. intros. unfold Rdiv. replace (a * / sqrt 2 * (b * / sqrt 2)) with (a * b * / (sqrt 2 * sqrt 2)) by (rewrite Rinv_mult; ring). rewrite sqrt2_sq. ring. Qed.

Lemma dot_spherical : forall F r,
  cadd (copp (cmul (s_0 (spherical F)) (s_0 (spherical r))))
       (cadd (cmul (s_m (spherical F)) (s_p (spherical r))) (cmul (s_p (spherical F)) (s_m (spherical r)))) = (- vdot F r, 0).
Proof.
  intros F r. unfold spherical, vdot. cbn [s_0 s_m s_p]. apply cx_eq; unfold cadd, cmul, copp; cbn [fst snd]; rewrite !div2; field.
Qed.

Lemma s3_32 : sqrt 3 * sqrt (3/2) = 3 / sqrt 2.
Proof.
  rewrite <- sqrt_mult by lra. replace (3 * (3/2)) with (3 * 3 / 2) by field. rewrite sqrt_div by lra.
  rewrite sqrt_square by lra. reflexivity.
Qed.
Lemma s32_38 : sqrt (3/2) * sqrt (3/8) = 3 / 4.
Proof.
  rewrite <- sqrt_mult by lra. replace (3/2 * (3/8)) with (3/4 * (3/4)) by field. apply sqrt_square. lra.
Qed.

Lemma dia_cartesian : forall F r, let t := diaTerms (spherical F) in
  cmul (2/3, 0)
   (cadd (cmul (t00 t) (C00 r))
   (cadd (copp (cmul (t20 t) (C20 r)))
   (cadd (cmul (sqrt 3, 0) (cadd (cmul (t21 t) (C21 r)) (cmul (t2m1 t) (C2m1 r))))
         (copp (cmul (sqrt (3/2), 0) (cadd (cmul (t22 t) (C22 r)) (cmul (t2m2 t) (C2m2 r)))))))) 
  = (vdot (vcross F r) (vcross F r), 0).
Proof.
  intros [[fx fy] fz] [[x y] z] t. subst t. unfold diaTerms, spherical, C00, C20, C21, C2m1, C22, C2m2, vdot, vcross, vx, vy, vz.
  cbn [fst snd t00 t20 t21 t2m1 t22 t2m2 s_0 s_m s_p].
  pose proof sqrt2_nz as N. pose proof sqrt2_sq as Q2. pose proof s3_32 as A. pose proof s32_38 as C.
  assert (A' : sqrt 3 * sqrt (3 / 2) * sqrt 2 = 3). { rewrite A. field. auto. }
  set (i := / sqrt 2). assert (Ei : sqrt 2 * i = 1) by (unfold i; field; auto).
  assert (I2 : i * i = 1/2). { unfold i. rewrite <- Rinv_mult, Q2. field. }
  assert (A2 : sqrt 3 * sqrt (3/2) * i = 3/2). { rewrite A. unfold Rdiv. fold i. replace (3 * i * i) with (3 * (i * i)) by ring. rewrite I2. field. }
  set (u := sqrt (3/2)) in *. set (w := sqrt (3/8)) in *. set (s := sqrt 3) in *.
  unfold Rdiv at 3 4 5 6 7 8 9 10 11 12. 
  apply cx_eq; unfold cadd, cmul, copp, csub; cbn [fst snd]; unfold Rdiv; fold i.
  - match goal with |- ?L = _ => 
      replace L with (2/3 * ((fz*fz + 2 * (i*i) * (fx*fx+fy*fy)) * (x*x+y*y+z*z)
       - (fz*fz - (i*i) * (fx*fx+fy*fy)) * ((2*z*z - x*x - y*y)/2)
       + (s*u*i) * (fz * (- 2 * (fx*x*z + fy*y*z)))
       - (u*w) * (i*i) * (2 * (fx*fx - fy*fy)*(x*x-y*y) + 8*fx*fy*x*y))) by field end.
    rewrite I2, A2, C. field.
  - field.
Qed.

Lemma mconj_zero_at : forall T n m i j, at_ (mconj T (@mzero CR n m)) i j = s0.
Proof.
  intros. cbn [mconj mmul madj mzero at_ nc nr]. apply bsum_zero. intros.
  rewrite bsum_zero; [apply cx_eq; cbn; ring|]. intros. apply cx_eq; cbn; ring.
Qed.

(** ** The library's matrix elements *)
Section Inst.
Variable radial : string -> Z -> string -> Z -> Z -> Z -> Z -> Z -> Z -> Z -> res R.
Variables (e_charge minus_muB gL gS : R).
Variables (dn : string) (mth : Z).
Variables (cdia cion tol : R).
Variables (sp : string) (sp2 : Z).
Notation idE' := (idE radial e_charge dn mth).
Notation idB' := (idB radial minus_muB gL gS dn mth).
Notation idD' := (idD radial e_charge dn mth).
Notation idM' := (idM radial e_charge dn mth).
Notation INIT := (initOne radial e_charge minus_muB gL gS dn mth cdia cion tol).

Lemma isT_true : forall r, isT r = true <-> r = Ok true.
Proof. intros [[|]| |]; cbn; split; intro H; congruence. Qed.

Lemma one_atom_phys : forall a b, one_atom sp sp2 a -> one_atom sp sp2 b -> isArtificial a = false -> isArtificial b = false ->
  physical a /\ physical b /\ same_atom a b.
Proof. intros a b [X|(P & S & T)] [Y|(P' & S' & T')] A B; try congruence. split; [auto|]. split; [auto|]. split; congruence. Qed.

Lemma phase_sg : forall q, phase (2 * q) = sg q.
Proof. intro q. unfold phase, rsgn, sg. rewrite Z.mul_comm, Z.div_mul by lia. reflexivity. Qed.

Lemma val_adj : forall a b kr ka q, physical a -> physical b -> same_atom a b -> (m2 a - m2 b = 2 * q)%Z ->
  val (multipole radial e_charge dn mth b a kr ka) = sg q * val (multipole radial e_charge dn mth a b kr ka).
Proof.
  intros a b kr ka q Pa Pb S M.
  destruct (multipole radial e_charge dn mth a b kr ka) as [v| |] eqn:E.
  - rewrite (@multipole_adjoint radial e_charge dn mth a b kr ka v Pa Pb S E), M, phase_sg. reflexivity.
  - destruct (multipole radial e_charge dn mth b a kr ka) as [v| |] eqn:E'; cbn; try ring.
    rewrite (@multipole_adjoint radial e_charge dn mth b a kr ka v Pb Pa ltac:(destruct S; split; auto) E') in E. discriminate.
  - destruct (multipole radial e_charge dn mth b a kr ka) as [v| |] eqn:E'; cbn; try ring.
    rewrite (@multipole_adjoint radial e_charge dn mth b a kr ka v Pb Pa ltac:(destruct S; split; auto) E') in E. discriminate.
Qed.

Lemma val_adjB : forall a b q, physical a -> physical b -> same_atom a b -> l a = l b -> (m2 a - m2 b = 2 * q)%Z ->
  val (magnetic radial minus_muB gL gS dn mth b a) = sg q * val (magnetic radial minus_muB gL gS dn mth a b).
Proof.
  intros a b q Pa Pb S L M.
  destruct (magnetic radial minus_muB gL gS dn mth a b) as [v| |] eqn:E.
  - rewrite (@magnetic_adjoint radial minus_muB gL gS dn mth a b v Pa Pb S L E), M, phase_sg. reflexivity.
  - destruct (magnetic radial minus_muB gL gS dn mth b a) as [v| |] eqn:E'; cbn; try ring.
    rewrite (@magnetic_adjoint radial minus_muB gL gS dn mth b a v Pb Pa ltac:(destruct S; split; auto) (eq_sym L) E') in E. discriminate.
  - destruct (magnetic radial minus_muB gL gS dn mth b a) as [v| |] eqn:E'; cbn; try ring.
    rewrite (@magnetic_adjoint radial minus_muB gL gS dn mth b a v Pb Pa ltac:(destruct S; split; auto) (eq_sym L) E') in E. discriminate.
Qed.

Lemma selE_sym : forall a b k q, selMultipoleQ a b k q = selMultipoleQ b a k (- q).
Proof.
  intros a b k q. unfold selMultipoleQ, guard2. rewrite (orb_comm (isArtificial b)).
  destruct (isArtificial a || isArtificial b); auto. f_equal. apply eq_true_iff_eq.
  unfold validL_mult, validJ_mult, noZero. rewrite !andb_true_iff, !negb_true_iff, !Z.leb_le, !Z.eqb_eq.
  replace (Z.abs (l b - l a)) with (Z.abs (l a - l b)) by lia.
  replace (Z.abs (j2 b - j2 a)) with (Z.abs (j2 a - j2 b)) by lia.
  replace (Z.abs (m2 b - m2 a)) with (Z.abs (m2 a - m2 b)) by lia.
  replace (Z.abs (- q)) with (Z.abs q) by lia.
  assert (X : ((k =? 2)%Z && (j2 a =? j2 b)%Z && (j2 b =? 3)%Z && (m2 a =? - m2 b)%Z && (Z.abs (m2 a - m2 b) =? 2)%Z) =
              ((k =? 2)%Z && (j2 b =? j2 a)%Z && (j2 a =? 3)%Z && (m2 b =? - m2 a)%Z && (Z.abs (m2 a - m2 b) =? 2)%Z)).
  { apply eq_true_iff_eq. rewrite !andb_true_iff, !Z.eqb_eq. lia. }
  rewrite X. intuition lia.
Qed.
Lemma selB_sym : forall a b q, selMomentumQ a b q = selMomentumQ b a (- q).
Proof.
  intros a b q. unfold selMomentumQ, guard2. rewrite (orb_comm (isArtificial b)).
  destruct (isArtificial a || isArtificial b); auto. f_equal. apply eq_true_iff_eq.
  rewrite !andb_true_iff, !Z.leb_le, !Z.eqb_eq. lia.
Qed.
Lemma Ok_true : forall x, Ok x = Ok true -> x = true.
Proof. congruence. Qed.
Lemma selE_m : forall a b k q, selMultipoleQ a b k q = Ok true -> (m2 a - m2 b = 2 * q)%Z.
Proof.
  intros a b k q. unfold selMultipoleQ, guard2. destruct (isArtificial a || isArtificial b); [discriminate|].
  intro H. apply Ok_true in H. rewrite !andb_true_iff in H. destruct H as [[[[_ _] H] _] _]. apply Z.eqb_eq in H. lia.
Qed.
Lemma selB_m : forall a b q, selMomentumQ a b q = Ok true -> (m2 a - m2 b = 2 * q)%Z /\ l a = l b.
Proof.
  intros a b q. unfold selMomentumQ, guard2. destruct (isArtificial a || isArtificial b); [discriminate|].
  intro H. apply Ok_true in H. rewrite !andb_true_iff, !Z.eqb_eq in H. lia.
Qed.

Lemma inst_symm : symm isArtificial m2 iselE iselB iselM idE' idB' idD' idM' (one_atom sp sp2).
Proof.
  constructor.
  - intros. unfold iselE. rewrite selE_sym. reflexivity.
  - intros k q r c _ _ _ _ H. apply isT_true in H. apply selE_m in H. auto.
  - intros. unfold iselB. rewrite selB_sym. reflexivity.
  - intros q r c _ _ _ _ H. apply isT_true in H. apply selB_m in H. tauto.
  - intros q r c Or Oc Ar Ac H. destruct (one_atom_phys Or Oc Ar Ac) as (P & P' & S). apply isT_true in H.
    apply val_adj; auto. apply selE_m in H. auto.
  - intros q r c Or Oc Ar Ac H. destruct (one_atom_phys Or Oc Ar Ac) as (P & P' & S). apply isT_true in H.
    apply selB_m in H. apply val_adjB; tauto.
  - intros k q r c Or Oc Ar Ac H. destruct (one_atom_phys Or Oc Ar Ac) as (P & P' & S). apply isT_true in H.
    unfold idD. rewrite (@val_adj r c 2 k q); auto; [ring|]. apply selE_m in H. auto.
  - intros o r c Or Oc Ar Ac H. destruct (one_atom_phys Or Oc Ar Ac) as (P & P' & S).
    split. { unfold iselM. rewrite (proj1 (sel_sym r c (Z.of_nat o))). reflexivity. }
    intros _. unfold idM. rewrite (@val_adj r c (Z.of_nat o) (Z.of_nat o) 0); auto; [unfold sg; cbn; ring|].
    destruct P as (_ & _ & _ & E1 & E2 & _). destruct P' as (_ & _ & _ & E3 & E4 & _).
    destruct S as [_ S]. apply Z.even_spec in E1, E2, E3, E4. destruct E1 as [x1 E1], E2 as [x2 E2], E3 as [x3 E3], E4 as [x4 E4].
    assert (X : exists y, (m2 r - m2 c = y * 2)%Z). { exists (l r - x1 - x2 - l c + x3 + x4)%Z. lia. }
    destruct X as [y X]. rewrite X, Z.quot_mul in H by lia. lia.
Qed.

Variable isreal : bool.
Variables (tbl : list (nat * state1)) (B : mat CR).
Hypothesis T : good_table sp sp2 tbl.

Notation Rel := (rel isArtificial m2 iselE iselB iselM idE' idB' idD' idM' cdia cion tbl B).
Notation frun' := (frun radial e_charge minus_muB gL gS dn mth cdia cion tol isreal tbl B).

Lemma frun_inv : forall ev x, fields_ok (fst x) -> Rel (snd x) -> closed (snd x) ->
  fields_ok (fst (frun' ev x)) /\ Rel (snd (frun' ev x)) /\ closed (snd (frun' ev x)).
Proof.
  destruct T as [Ti To].
  induction ev as [|e ev IH]; intros x F R C; [auto|]. cbn [frun fold_left]. apply IH; destruct e; cbn [fstep fst snd]; auto.
  - apply set_fields_ok; auto.
  - unfold initOne. eapply init_rel; eauto. apply inst_symm.
  - unfold initOne. apply init_closed; auto.
Qed.

Lemma no_ops_inv : Rel no_ops /\ closed no_ops.
Proof. split; [|repeat split]. refine (conj _ (conj _ (conj _ _))); intros e []. Qed.

Theorem hermitian_history : forall ev H0, nr H0 = nc B -> nc H0 = nc B -> hermitian H0 ->
  let x := frun' ev (new_one, no_ops) in
  hermitian (addInt tol (fst x) (INIT (fst x) tbl B (snd x)) H0).
Proof.
  intros ev H0 a b Hh x. destruct no_ops_inv as [R C].
  destruct (@frun_inv ev (new_one, no_ops) new_fields_ok R C) as (F & R' & C'). fold x in F, R', C'.
  destruct T as [Ti To]. unfold initOne, hermitian.
  rewrite (@addInt_formula _ _ _ _ _ _ _ _ _ _ cdia cion tol _ inst_symm tbl To Ti B (fst x) (snd x) H0 R' C' F a b).
  apply madd_hermitian; auto. apply mconj_hermitian. eapply Wmat_herm; eauto. apply inst_symm.
Qed.

(** The value. *)
Lemma crisp_big : forall x : CR, crisp tol x -> big tol x = false -> x = (0, 0).
Proof. intros x [H|H] Hb; auto. unfold big in Hb. destruct (Rlt_dec _ _); [discriminate|contradiction]. Qed.

Lemma cterm : forall (b : bool) (x y : CR), (b = false -> x = (0, 0)) -> (if b then cmul x y else ((0, 0) : CR)) = cmul x y.
Proof. intros [|] x y H; auto. rewrite (H eq_refl). apply cx_eq; cbn; ring. Qed.

Definition crisp_fields (s : one) : Prop :=
  crisp tol (s_0 (esph s)) /\ crisp tol (s_m (esph s)) /\ crisp tol (s_p (esph s)) /\
  crisp tol (s_0 (bsph s)) /\ crisp tol (s_m (bsph s)) /\ crisp tol (s_p (bsph s)) /\
  crisp tol (t00 (dia s)) /\ crisp tol (t20 (dia s)) /\ crisp tol (t21 (dia s)) /\ crisp tol (t2m1 (dia s)) /\
  crisp tol (t22 (dia s)) /\ crisp tol (t2m2 (dia s)).

Lemma wsum_value : forall s E Bf a b, crisp_fields s -> esph s = spherical E -> bsph s = spherical Bf -> dia s = diaTerms (bsph s) ->
  wsum isArtificial m2 iselE iselB iselM idE' idB' idD' idM' cdia cion (vkeys tol s) a b =
  interaction radial e_charge minus_muB gL gS dn mth cdia cion E Bf (diamag s) (charge s) (ordermax s) (distance s) a b.
Proof.
  intros s E Bf a b (c1 & c2 & c3 & c4 & c5 & c6 & c7 & c8 & c9 & c10 & c11 & c12) He Hb Hd.
  unfold vkeys, interaction. rewrite !wsum_app, !wsum_one. fold (elem radial e_charge minus_muB gL gS dn mth cdia cion).
  rewrite <- He, <- Hb, <- Hd.
  rewrite (@cterm (big tol (s_0 (esph s)))) by (intro X; rewrite (crisp_big c1 X); apply cx_eq; cbn; ring).
  rewrite (@cterm (big tol (s_m (esph s)))) by (apply crisp_big; auto).
  rewrite (@cterm (big tol (s_p (esph s)))) by (apply crisp_big; auto).
  rewrite (@cterm (big tol (s_0 (bsph s)))) by (intro X; rewrite (crisp_big c4 X); apply cx_eq; cbn; ring).
  rewrite (@cterm (big tol (s_m (bsph s)))) by (apply crisp_big; auto).
  rewrite (@cterm (big tol (s_p (bsph s)))) by (apply crisp_big; auto).
  match goal with |- context [wsum _ _ _ _ _ _ _ _ _ _ _ ?l a b] => set (ion := wsum isArtificial m2 iselE iselB iselM idE' idB' idD' idM' cdia cion l a b) end.
  assert (Hion : ion = ionSum radial e_charge minus_muB gL gS dn mth cdia cion (charge s) (ordermax s) (distance s) a b).
  { unfold ion, ionSum. destruct (distance s) as [d|]; [|destruct (negb _); reflexivity].
    destruct (charge s =? 0)%Z eqn:Ec; cbn [negb].
    - apply Z.eqb_eq in Ec. rewrite Ec. cbn [wsum fold_right].
      induction (seq 1 (ordermax s)) as [|o os IH]; [reflexivity|]. cbn [fold_right]. rewrite <- IH. apply cx_eq; cbn; unfold Rdiv; ring.
    - induction (seq 1 (ordermax s)) as [|o os IH]; [reflexivity|]. cbn [map wsum fold_right fst snd]. unfold wsum in IH. rewrite IH. reflexivity. }
  rewrite Hion. clear Hion ion. set (ion := ionSum _ _ _ _ _ _ _ _ _ _ _ _ a b). clearbody ion.
  destruct (diamag s); cbn [andb].
  - rewrite (@cterm (big tol (t00 (dia s)))) by (apply crisp_big; auto).
    rewrite (@cterm (big tol (t20 (dia s)))) by (intro X; rewrite (crisp_big c8 X); apply cx_eq; cbn; ring).
    rewrite (@cterm (big tol (t21 (dia s)))) by (intro X; rewrite (crisp_big c9 X); apply cx_eq; cbn; ring).
    rewrite (@cterm (big tol (t2m1 (dia s)))) by (intro X; rewrite (crisp_big c10 X); apply cx_eq; cbn; ring).
    rewrite (@cterm (big tol (t22 (dia s)))) by (intro X; rewrite (crisp_big c11 X); apply cx_eq; cbn; ring).
    rewrite (@cterm (big tol (t2m2 (dia s)))) by (intro X; rewrite (crisp_big c12 X); apply cx_eq; cbn; ring).
    apply cx_eq; unfold cadd, cmul, copp, ofR; cbn [fst snd]; ring.
  - apply cx_eq; unfold cadd, cmul, copp, ofR; cbn [fst snd]; ring.
Qed.
End Inst.
