(** Proofs of C13 and C14: matrix elements over the reals with the Racah formulas. *)
From Verif Require Import Base StateModel MEModel Racah MESpec MEProofs.
From Coq Require Import ZArith Reals Lra Lia Bool String Ascii List Permutation.
Local Open Scope list_scope.
Local Open Scope Z_scope.
Set Implicit Arguments.

Notation rcalc := (calc 0%R 1%R Rmult Ropp W3j W6j sqrtZ).
Local Arguments Racah.W3j : simpl never.
Local Arguments Racah.W6j : simpl never.

Lemma sgn_rsgn : forall e, sgn 1%R Ropp e = rsgn e.
Proof. intros e. unfold sgn, rsgn. destruct (Z.even e); [reflexivity|lra]. Qed.
Lemma trunc2_div : forall x, Z.even x = true -> trunc2 x = x / 2.
Proof.
  intros x H. apply half in H. destruct H as [h ->]. unfold trunc2.
  rewrite Z.mul_comm, Z.quot_mul, Z.div_mul; lia.
Qed.
Lemma even_ex : forall x, Z.even x = true <-> exists h, x = 2 * h.
Proof. intros x. rewrite Z.even_spec. reflexivity. Qed.

Section Rad.
  Variable radial : string -> Z -> string -> Z -> Z -> Z -> Z -> Z -> Z -> Z -> res R.

  Lemma mkAng_correct : forall dn mth k j1 jj2 m1 mm2 key g, mkAng k j1 jj2 m1 mm2 = (key, g) ->
    Z.even (j1 - m1) = true -> Z.even (jj2 - mm2) = true ->
    exists x, rcalc radial dn mth key = Ok x /\
      (rsgn g * x = phase (j1 - m1) * W3j j1 (2 * k) jj2 (- m1) (m1 - mm2) mm2)%R.
  Proof.
    intros dn mth k j1 jj2 m1 mm2 key g H E1 E2. unfold mkAng in H.
    destruct ((j1 <? jj2) || _); apply pair_equal_spec in H; destruct H as [<- <-]; cbn [calc]; eexists; (split; [reflexivity|]);
      unfold angular_val, phase; change (sgn 1%R Ropp) with rsgn.
    - rewrite (trunc2_div _ E1). change (rsgn 0) with 1%R. ring.
    - rewrite (trunc2_div _ E2). rewrite (trunc2_div (j1 - m1 + jj2 - mm2)).
      2:{ apply even_ex in E1, E2. apply even_ex. destruct E1 as [a E1], E2 as [b E2]. exists (a + b). lia. }
      apply half in E1. destruct E1 as [a E1]. apply half in E2. destruct E2 as [b E2].
      rewrite (div2_of (j1 - m1 + jj2 - mm2) (a + b)) by lia.
      rewrite (div2_of _ _ E1), (div2_of _ _ E2).
      rewrite (W3j_swap jj2). 
      replace (jj2 + 2 * k + j1) with (j1 + 2 * k + jj2) by lia.
      replace m1 with (- - m1) at 1 by lia. replace (mm2 - m1) with (- (m1 - mm2)) by lia.
      rewrite W3j_flip. rewrite rsgn_add.
      set (w := W3j _ _ _ _ _ _). pose proof (rsgn_sq b) as H0. pose proof (rsgn_sq ((j1 + 2 * k + jj2) / 2)) as H1.
      set (J := rsgn ((j1 + 2 * k + jj2) / 2)) in *.
      replace (rsgn a * rsgn b * (rsgn b * (J * (J * w))))%R with (rsgn a * (rsgn b * rsgn b) * (J * J) * w)%R by ring.
      rewrite H0, H1. ring.
  Qed.

  Lemma triS_false : forall s k l1 l2 j1 jj2, triS s k l1 l2 j1 jj2 = false ->
    W6j (2 * l1) j1 s jj2 (2 * l2) (2 * k) = 0%R.
  Proof.
    intros s k l1 l2 j1 jj2 H. unfold W6j.
    destruct (Racah.triangle (2 * l1) j1 s && Racah.triangle (2 * l1) (2 * l2) (2 * k) && Racah.triangle jj2 j1 (2 * k) && Racah.triangle jj2 (2 * l2) s) eqn:E; [|reflexivity].
    exfalso. apply not_true_iff_false in H. apply H. unfold triS. unfold Racah.triangle in E.
    rewrite !andb_true_iff, !Z.leb_le in *. lia.
  Qed.
  Lemma triL_false : forall s k l1 j1 jj2, triL s k l1 j1 jj2 = false ->
    W6j s j1 (2 * l1) jj2 s (2 * k) = 0%R.
  Proof.
    intros s k l1 j1 jj2 H. unfold W6j.
    destruct (Racah.triangle s j1 (2 * l1) && Racah.triangle s s (2 * k) && Racah.triangle jj2 j1 (2 * k) && Racah.triangle jj2 s (2 * l1)) eqn:E; [|reflexivity].
    exfalso. apply not_true_iff_false in H. apply H. unfold triL. unfold Racah.triangle in E.
    rewrite !andb_true_iff, !Z.leb_le in *. lia.
  Qed.

  Lemma mkComS_correct : forall dn mth s k l1 l2 j1 jj2 key g, mkComS s k l1 l2 j1 jj2 = (key, g) ->
    Z.even (2 * l1 + s - j1) = true -> Z.even (2 * l2 + s - jj2) = true ->
    exists x, rcalc radial dn mth key = Ok x /\
      (rsgn g * x = phase (2 * l1 + s + jj2 + 2 * k) * sqrt (IZR ((j1 + 1) * (jj2 + 1))) *
                    W6j (2 * l1) j1 s jj2 (2 * l2) (2 * k))%R.
  Proof.
    intros dn mth s k l1 l2 j1 jj2 key g H E1 E2. unfold mkComS in H.
    apply half in E1. destruct E1 as [a E1]. apply half in E2. destruct E2 as [b E2].
    destruct (swapCom l1 l2 j1 jj2); apply pair_equal_spec in H; destruct H as [<- <-]; cbn [calc]; eexists; (split; [reflexivity|]).
    - unfold comS_val, phase. change (sgn 1%R Ropp) with rsgn.
      rewrite (trunc2_div (2 * l1 + j1 + 2 * l2 + jj2 + 2 * s)) by (apply even_ex; exists (2 * l1 + 2 * l2 + 2 * s - a - b); lia).
      rewrite (div2_of (2 * l1 + j1 + 2 * l2 + jj2 + 2 * s) (2 * l1 + 2 * l2 + 2 * s - a - b)) by lia.
      rewrite (div2_of (2 * l1 + s + jj2 + 2 * k) (l1 + l2 + s + k - b)) by lia.
      assert (W : W6j (2 * l2) jj2 s j1 (2 * l1) (2 * k) = W6j (2 * l1) j1 s jj2 (2 * l2) (2 * k)).
      { rewrite W6j_cols, W6j_rows. reflexivity. }
      destruct (triS s k l2 l1 jj2 j1) eqn:T.
      + rewrite trunc2_div by (apply even_ex; exists (l2 + l1 + s + k - a); lia).
        rewrite (div2_of (2 * l2 + s + j1 + 2 * k) (l2 + l1 + s + k - a)) by lia.
        unfold sqrtZ. rewrite (Z.mul_comm (jj2 + 1)), W.
        replace (2 * l1 + 2 * l2 + 2 * s - a - b) with (2 * (l1 + l2 + s) - a - b) by lia.
        rewrite !rsgn_sub, !rsgn_add. rewrite (rsgn_even (2 * (l1 + l2 + s))).
        2:{ apply even_ex. eauto. }
        pose proof (rsgn_sq a) as H0.
        replace (1 * rsgn a * rsgn b * (rsgn l2 * rsgn l1 * rsgn s * rsgn k * rsgn a * sqrt (IZR ((j1 + 1) * (jj2 + 1))) *
           W6j (2 * l1) j1 s jj2 (2 * l2) (2 * k)))%R with
          ((rsgn a * rsgn a) * (rsgn b * rsgn l1 * rsgn l2 * rsgn s * rsgn k * sqrt (IZR ((j1 + 1) * (jj2 + 1))) *
           W6j (2 * l1) j1 s jj2 (2 * l2) (2 * k)))%R by ring.
        rewrite H0. ring.
      + apply triS_false in T. rewrite W in T. rewrite T. ring.
    - unfold comS_val, phase. change (sgn 1%R Ropp) with rsgn. destruct (triS s k l1 l2 j1 jj2) eqn:T.
      + rewrite trunc2_div by (apply even_ex; exists (l1 + l2 + s + k - b); lia). cbn [rsgn Z.even]. unfold sqrtZ. ring.
      + rewrite (triS_false _ _ _ _ _ _ T). ring.
  Qed.

  Lemma mkComL_correct : forall dn mth s k l1 l2 j1 jj2 key g, mkComL s k l1 l2 j1 jj2 = (key, g) -> l1 = l2 ->
    Z.even (2 * l1 + s - j1) = true -> Z.even (2 * l2 + s - jj2) = true ->
    exists x, rcalc radial dn mth key = Ok x /\
      (rsgn g * x = phase (2 * l1 + s + j1 + 2 * k) * sqrt (IZR ((j1 + 1) * (jj2 + 1))) *
                    W6j s j1 (2 * l1) jj2 s (2 * k))%R.
  Proof.
    intros dn mth s k l1 l2 j1 jj2 key g H L E1 E2. subst l2. unfold mkComL in H.
    apply half in E1. destruct E1 as [a E1]. apply half in E2. destruct E2 as [b E2].
    destruct (swapCom l1 l1 j1 jj2); apply pair_equal_spec in H; destruct H as [<- <-]; cbn [calc]; eexists; (split; [reflexivity|]).
    - unfold comL_val, phase. change (sgn 1%R Ropp) with rsgn.
      rewrite (trunc2_div (2 * l1 + j1 + 2 * l1 + jj2 + 2 * s)) by (apply even_ex; exists (2 * l1 + 2 * l1 + 2 * s - a - b); lia).
      rewrite (div2_of (2 * l1 + j1 + 2 * l1 + jj2 + 2 * s) (2 * l1 + 2 * l1 + 2 * s - a - b)) by lia.
      rewrite (div2_of (2 * l1 + s + j1 + 2 * k) (2 * l1 + s + k - a)) by lia.
      assert (W : W6j s jj2 (2 * l1) j1 s (2 * k) = W6j s j1 (2 * l1) jj2 s (2 * k)).
      { rewrite W6j_cols, W6j_rows. reflexivity. }
      destruct (triL s k l1 jj2 j1) eqn:T.
      + rewrite trunc2_div by (apply even_ex; exists (2 * l1 + s + k - b); lia).
        rewrite (div2_of (2 * l1 + s + jj2 + 2 * k) (2 * l1 + s + k - b)) by lia.
        unfold sqrtZ. rewrite (Z.mul_comm (jj2 + 1)), W.
        replace (2 * l1 + 2 * l1 + 2 * s - a - b) with (2 * (l1 + l1 + s) - a - b) by lia.
        rewrite !rsgn_sub. rewrite (rsgn_even (2 * (l1 + l1 + s))).
        2:{ apply even_ex. eauto. }
        pose proof (rsgn_sq b) as H0. set (w := W6j _ _ _ _ _ _). set (q := sqrt _). set (z := rsgn (2 * l1 + s + k)).
        replace (1 * rsgn a * rsgn b * (z * rsgn b * q * w))%R with
          ((rsgn b * rsgn b) * (rsgn a * z * q * w))%R by ring.
        rewrite H0. ring.
      + apply triL_false in T. rewrite W in T. rewrite T. ring.
    - unfold comL_val, phase. change (sgn 1%R Ropp) with rsgn. destruct (triL s k l1 j1 jj2) eqn:T.
      + rewrite trunc2_div by (apply even_ex; exists (2 * l1 + s + k - a); lia). cbn [rsgn Z.even]. unfold sqrtZ. ring.
      + rewrite (triL_false _ _ _ _ _ T). ring.
  Qed.

  Lemma mkMul_correct : forall dn mth k l1 l2 key g, mkMul k l1 l2 = (key, g) ->
    exists x, rcalc radial dn mth key = Ok x /\
      (rsgn g * x = rsgn l1 * sqrt (IZR ((2 * l1 + 1) * (2 * l2 + 1))) * W3j (2 * l1) (2 * k) (2 * l2) 0 0 0)%R.
  Proof.
    intros dn mth k l1 l2 key g H. unfold mkMul in H.
    destruct (l1 <=? l2); apply pair_equal_spec in H; destruct H as [<- <-]; cbn [calc]; eexists; (split; [reflexivity|]);
      unfold mul_val, sqrtZ; change (sgn 1%R Ropp) with rsgn.
    - cbn [rsgn Z.even]. ring.
    - rewrite (W3j_swap (2 * l2)). rewrite (div2_of (2 * l2 + 2 * k + 2 * l1) (l2 + k + l1)) by lia.
      rewrite (Z.mul_comm (2 * l2 + 1)). rewrite !rsgn_add.
      pose proof (rsgn_sq k) as H0. pose proof (rsgn_sq l2) as H1. set (w := W3j _ _ _ _ _ _). set (q := sqrt _).
      replace (rsgn k * (rsgn l2 * q * (rsgn l2 * rsgn k * rsgn l1 * w)))%R with
        ((rsgn k * rsgn k) * (rsgn l2 * rsgn l2) * (rsgn l1 * q * w))%R by ring.
      rewrite H0, H1. ring.
  Qed.

  Lemma mkRad_correct : forall dn mth a b k,
    rcalc radial dn mth (mkRad mth (species a) k (n a) (n b) (l a) (l b) (j2 a) (j2 b)) = radial_of radial dn mth a b k.
  Proof. intros. unfold mkRad, radial_of. destruct (_ || _); reflexivity. Qed.

  Variables (e_charge minus_muB gL gS : R).

  Lemma asis_perm : forall l, Permutation (asis l) l.
  Proof. intros. apply Permutation_refl. Qed.

  Lemma physical_mixed : forall a b, physical a -> physical b -> same_atom a b -> artificial_or_mixed a b = false.
  Proof.
    intros a b [A _] [B _] [S _]. unfold artificial_or_mixed. rewrite A, B, S, String.eqb_refl. reflexivity.
  Qed.

  Theorem multipole_ok : forall dn mth a b kr ka, physical a -> physical b -> same_atom a b -> forall v,
    multipole radial e_charge dn mth a b kr ka = Ok v <->
    multipole_textbook radial e_charge dn mth a b kr ka = Ok v.
  Proof.
    intros dn mth a b kr ka Pa Pb S v. unfold multipole.
    rewrite (@gem_fresh R 0%R 1%R Rplus Rmult Ropp W3j W6j sqrtZ radial asis e_charge asis_perm).
    unfold dir_multipole, multipole_textbook. rewrite (physical_mixed Pa Pb S).
    destruct Pa as (_ & _ & _ & Ea & Fa & _), Pb as (_ & _ & _ & Eb & Fb & _). destruct S as [_ S].
    destruct (mkAng ka (j2 a) (j2 b) (m2 a) (m2 b)) as [key2 g2] eqn:E2.
    destruct (mkComS (s2 a) ka (l a) (l b) (j2 a) (j2 b)) as [key3 g3] eqn:E3.
    destruct (mkMul ka (l a) (l b)) as [key4 g4] eqn:E4.
    rewrite mkRad_correct.
    destruct (mkAng_correct dn mth _ _ _ _ _ E2 Fa Fb) as (x & -> & X).
    rewrite <- S in Eb.
    destruct (mkComS_correct dn mth _ _ _ _ _ _ E3 Ea Eb) as (y & -> & Y).
    destruct (mkMul_correct dn mth _ _ _ E4) as (z & -> & ZZ).
    destruct (radial_of radial dn mth a b kr) as [r| |]; cbn [bind]; [|tauto|tauto].
    unfold wigner_eckart, reduced_orbital, reduced_Ck. rewrite <- X, <- Y, <- ZZ. change (sgn 1%R Ropp) with rsgn.
    replace (e_charge * r * (rsgn g2 * x) * (rsgn g3 * y) * (rsgn g4 * z))%R with
            (e_charge * r * rsgn g2 * x * rsgn g3 * y * rsgn g4 * z)%R by ring.
    tauto.
  Qed.

  Theorem magnetic_ok : forall dn mth a b, physical a -> physical b -> same_atom a b -> l a = l b -> forall v,
    magnetic radial minus_muB gL gS dn mth a b = Ok v <->
    magnetic_textbook radial minus_muB gL gS dn mth a b = Ok v.
  Proof.
    intros dn mth a b Pa Pb S L v. unfold magnetic.
    rewrite (@gmd_fresh R 0%R 1%R Rplus Rmult Ropp W3j W6j sqrtZ radial asis minus_muB gL gS sqrtSpin sqrtL asis_perm).
    unfold dir_magnetic, magnetic_textbook. rewrite (physical_mixed Pa Pb S).
    destruct Pa as (_ & _ & _ & Ea & Fa & _), Pb as (_ & _ & _ & Eb & Fb & _). destruct S as [_ S].
    destruct (mkAng 1 (j2 a) (j2 b) (m2 a) (m2 b)) as [key2 g2] eqn:E2.
    destruct (mkComS (s2 a) 1 (l a) (l b) (j2 a) (j2 b)) as [key3 g3] eqn:E3.
    destruct (mkComL (s2 a) 1 (l a) (l b) (j2 a) (j2 b)) as [key4 g4] eqn:E4.
    rewrite mkRad_correct. rewrite <- S in Eb.
    destruct (mkAng_correct dn mth _ _ _ _ _ E2 Fa Fb) as (x & -> & X).
    destruct (mkComS_correct dn mth _ _ _ _ _ _ E3 Ea Eb) as (y & -> & Y).
    destruct (@mkComL_correct dn mth _ _ _ _ _ _ _ _ E4 L Ea Eb) as (z & -> & ZZ).
    destruct (radial_of radial dn mth a b 0) as [r| |]; cbn [bind]; [|tauto|tauto].
    unfold wigner_eckart, reduced_orbital, reduced_spin. rewrite <- S. rewrite <- X, <- Y, <- ZZ. change (sgn 1%R Ropp) with rsgn.
    replace (minus_muB * r * rsgn g2 * x * (gL * rsgn g3 * y * sqrtL (l a) + gS * rsgn g4 * z * sqrtSpin (s2 a)))%R with
            (minus_muB * r * (rsgn g2 * x) * (gL * (rsgn g3 * y) * sqrtL (l a) + gS * (rsgn g4 * z) * sqrtSpin (s2 a)))%R by ring.
    tauto.
  Qed.

  (** *** Adjoint relation *)
  Lemma radial_of_sym : forall dn mth a b k, species a = species b ->
    radial_of radial dn mth a b k = radial_of radial dn mth b a k.
  Proof.
    intros dn mth a b k S. unfold radial_of. rewrite S.
    generalize (n a) (n b) (l a) (l b) (j2 a) (j2 b). intros na nb la lb ja jb.
    destruct (Z.ltb_spec na nb), (Z.ltb_spec nb na), (Z.eqb_spec na nb), (Z.eqb_spec nb na);
    cbn [orb andb]; try lia; try reflexivity;
    destruct (Z.ltb_spec la lb), (Z.ltb_spec lb la), (Z.eqb_spec la lb), (Z.eqb_spec lb la);
    cbn [orb andb]; try lia; try congruence;
    destruct (Z.leb_spec ja jb), (Z.leb_spec jb ja); try lia; try congruence.
    all: repeat f_equal; lia.
  Qed.

  Lemma wigner_eckart_swap : forall a b k, Z.even (j2 a - m2 a) = true -> Z.even (j2 b - m2 b) = true ->
    wigner_eckart b a k = (phase (j2 a - m2 a) * phase (j2 b - m2 b) * wigner_eckart a b k)%R.
  Proof.
    intros a b k Ea Eb. unfold wigner_eckart.
    rewrite (W3j_swap (j2 b)). replace (j2 b + 2 * k + j2 a) with (j2 a + 2 * k + j2 b) by lia.
    replace (W3j (j2 a) (2 * k) (j2 b) (m2 a) (m2 b - m2 a) (- m2 b)) with
      (W3j (j2 a) (2 * k) (j2 b) (- - m2 a) (- (m2 a - m2 b)) (- m2 b)) by (f_equal; lia).
    rewrite W3j_flip. unfold phase.
    set (J := rsgn ((j2 a + 2 * k + j2 b) / 2)). assert (HJ : (J * J = 1)%R) by apply rsgn_sq.
    set (pa := rsgn ((j2 a - m2 a) / 2)). assert (HA : (pa * pa = 1)%R) by apply rsgn_sq.
    set (pb := rsgn ((j2 b - m2 b) / 2)). set (w := W3j _ _ _ _ _ _).
    replace (pb * (J * (J * w)))%R with ((J * J) * (pb * w))%R by ring.
    replace (pa * pb * (pa * w))%R with ((pa * pa) * (pb * w))%R by ring.
    now rewrite HJ, HA.
  Qed.
  Lemma reduced_orbital_swap : forall a b k, s2 a = s2 b ->
    Z.even (2 * l a + s2 a - j2 a) = true -> Z.even (2 * l b + s2 b - j2 b) = true ->
    reduced_orbital b a k = (phase (2 * l a + j2 a + 2 * l b + j2 b + 2 * s2 a) * reduced_orbital a b k)%R.
  Proof.
    intros a b k S Ea Eb. rewrite <- S in Eb. apply half in Ea. destruct Ea as [x Ea]. apply half in Eb. destruct Eb as [y Eb].
    unfold reduced_orbital, phase. rewrite <- S.
    rewrite (div2_of (2 * l b + s2 a + j2 a + 2 * k) (l a + l b + s2 a + k - x)) by lia.
    rewrite (div2_of (2 * l a + s2 a + j2 b + 2 * k) (l a + l b + s2 a + k - y)) by lia.
    rewrite (div2_of (2 * l a + j2 a + 2 * l b + j2 b + 2 * s2 a) (2 * (l a + l b + s2 a) - x - y)) by lia.
    assert (W : W6j (2 * l b) (j2 b) (s2 a) (j2 a) (2 * l a) (2 * k) = W6j (2 * l a) (j2 a) (s2 a) (j2 b) (2 * l b) (2 * k)).
    { rewrite W6j_cols, W6j_rows. reflexivity. }
    rewrite W. rewrite (Z.mul_comm (j2 b + 1)). rewrite !rsgn_sub. rewrite (rsgn_even (2 * (l a + l b + s2 a))) by (apply even_ex; eauto).
    pose proof (rsgn_sq y). set (w := W6j _ _ _ _ _ _). set (q := sqrt _). set (z := rsgn (l a + l b + s2 a + k)).
    replace (1 * rsgn x * rsgn y * (z * rsgn y * q * w))%R with ((rsgn y * rsgn y) * (z * rsgn x * q * w))%R by ring.
    rewrite H. ring.
  Qed.
  Lemma reduced_spin_swap : forall a b k, s2 a = s2 b -> l a = l b ->
    Z.even (2 * l a + s2 a - j2 a) = true -> Z.even (2 * l b + s2 b - j2 b) = true ->
    reduced_spin b a k = (phase (2 * l a + j2 a + 2 * l b + j2 b + 2 * s2 a) * reduced_spin a b k)%R.
  Proof.
    intros a b k S L Ea Eb. rewrite <- S, <- L in *. apply half in Ea. destruct Ea as [x Ea]. apply half in Eb. destruct Eb as [y Eb].
    unfold reduced_spin, phase. rewrite <- S, <- L.
    rewrite (div2_of (2 * l a + s2 a + j2 b + 2 * k) (2 * l a + s2 a + k - y)) by lia.
    rewrite (div2_of (2 * l a + s2 a + j2 a + 2 * k) (2 * l a + s2 a + k - x)) by lia.
    rewrite (div2_of (2 * l a + j2 a + 2 * l a + j2 b + 2 * s2 a) (2 * (2 * l a + s2 a) - x - y)) by lia.
    assert (W : W6j (s2 a) (j2 b) (2 * l a) (j2 a) (s2 a) (2 * k) = W6j (s2 a) (j2 a) (2 * l a) (j2 b) (s2 a) (2 * k)).
    { rewrite W6j_cols, W6j_rows. reflexivity. }
    rewrite W. rewrite (Z.mul_comm (j2 b + 1)). rewrite !rsgn_sub. rewrite (rsgn_even (2 * (2 * l a + s2 a))) by (apply even_ex; eauto).
    pose proof (rsgn_sq x). set (w := W6j _ _ _ _ _ _). set (q := sqrt _). set (z := rsgn (2 * l a + s2 a + k)).
    replace (1 * rsgn x * rsgn y * (z * rsgn x * q * w))%R with ((rsgn x * rsgn x) * (z * rsgn y * q * w))%R by ring.
    rewrite H. ring.
  Qed.
  Lemma reduced_Ck_swap : forall a b k, reduced_Ck b a k = (rsgn k * reduced_Ck a b k)%R.
  Proof.
    intros a b k. unfold reduced_Ck. rewrite (W3j_swap (2 * l b)).
    rewrite (div2_of (2 * l b + 2 * k + 2 * l a) (l b + k + l a)) by lia. rewrite (Z.mul_comm (2 * l b + 1)).
    rewrite !rsgn_add. pose proof (rsgn_sq (l b)). set (w := W3j _ _ _ _ _ _). set (q := sqrt _).
    replace (rsgn (l b) * q * (rsgn (l b) * rsgn k * rsgn (l a) * w))%R with
      ((rsgn (l b) * rsgn (l b)) * (rsgn k * (rsgn (l a) * q * w)))%R by ring.
    rewrite H. ring.
  Qed.
  Lemma reduced_Ck_odd : forall a b k, Z.even (l a + k + l b) = false -> reduced_Ck a b k = 0%R.
  Proof.
    intros a b k H. unfold reduced_Ck. rewrite W3j_odd_zero; [ring|].
    rewrite (div2_of (2 * l a + 2 * k + 2 * l b) (l a + k + l b)) by lia. rewrite <- Z.negb_even, H. reflexivity.
  Qed.

  Theorem multipole_adjoint : forall dn mth a b kr ka v, physical a -> physical b -> same_atom a b ->
    multipole radial e_charge dn mth a b kr ka = Ok v ->
    multipole radial e_charge dn mth b a kr ka = Ok (phase (m2 a - m2 b) * v)%R.
  Proof.
    intros dn mth a b kr ka v Pa Pb S H. assert (S' : same_atom b a) by (destruct S; split; congruence).
    apply multipole_ok in H; auto. apply multipole_ok; auto.
    unfold multipole_textbook in *. rewrite (radial_of_sym dn mth b a kr) by apply S'.
    destruct (radial_of radial dn mth a b kr) as [r| |]; cbn [bind] in *; try discriminate.
    inversion H. f_equal. clear H H1.
    destruct Pa as (_ & _ & _ & Ea & Fa & _), Pb as (_ & _ & _ & Eb & Fb & _). destruct S as [_ S].
    rewrite (wigner_eckart_swap a b ka Fa Fb), (reduced_orbital_swap a b ka S Ea Eb), reduced_Ck_swap.
    destruct (Z.even (l a + ka + l b)) eqn:P.
    - set (A := wigner_eckart a b ka). set (B := reduced_orbital a b ka). set (C := reduced_Ck a b ka).
      assert (Q : (phase (j2 a - m2 a) * phase (j2 b - m2 b) * phase (2 * l a + j2 a + 2 * l b + j2 b + 2 * s2 a) * rsgn ka
                   = phase (m2 a - m2 b))%R).
      { rewrite <- S in Eb. apply half in Ea. destruct Ea as [xa Ea]. apply half in Eb. destruct Eb as [xb Eb].
        apply half in Fa. destruct Fa as [ya Fa]. apply half in Fb. destruct Fb as [yb Fb]. apply half in P. destruct P as [z P].
        unfold phase. rewrite (div2_of _ _ Fa), (div2_of _ _ Fb).
        rewrite (div2_of (2 * l a + j2 a + 2 * l b + j2 b + 2 * s2 a) (2 * (l a + l b + s2 a) - xa - xb)) by lia.
        rewrite (div2_of (m2 a - m2 b) (l a - xa - ya - l b + xb + yb)) by lia.
        rewrite <- !rsgn_add. unfold rsgn.
        replace (ya + yb + (2 * (l a + l b + s2 a) - xa - xb) + ka) with
          ((l a - xa - ya - l b + xb + yb) + 2 * (l b + ya - xb + s2 a + z)) by lia.
        rewrite (Z.even_add _ (2 * _)), (Z.even_mul 2). cbn [Z.even orb].
        destruct (Z.even (l a - xa - ya - l b + xb + yb)); reflexivity. }
      rewrite <- Q. ring.
    - rewrite reduced_Ck_odd by exact P. ring.
  Qed.

  Theorem magnetic_adjoint : forall dn mth a b v, physical a -> physical b -> same_atom a b -> l a = l b ->
    magnetic radial minus_muB gL gS dn mth a b = Ok v ->
    magnetic radial minus_muB gL gS dn mth b a = Ok (phase (m2 a - m2 b) * v)%R.
  Proof.
    intros dn mth a b v Pa Pb S L H. assert (S' : same_atom b a) by (destruct S; split; congruence).
    apply magnetic_ok in H; auto. apply magnetic_ok; auto.
    unfold magnetic_textbook in *. rewrite (radial_of_sym dn mth b a 0) by apply S'.
    destruct (radial_of radial dn mth a b 0) as [r| |]; cbn [bind] in *; try discriminate.
    inversion H. f_equal. clear H H1.
    destruct Pa as (_ & _ & _ & Ea & Fa & _), Pb as (_ & _ & _ & Eb & Fb & _). destruct S as [_ S].
    rewrite (wigner_eckart_swap a b 1 Fa Fb), (reduced_orbital_swap a b 1 S Ea Eb), (reduced_spin_swap a b 1 S L Ea Eb).
    rewrite <- L, <- S.
    set (A := wigner_eckart a b 1). set (B := reduced_orbital a b 1). set (C := reduced_spin a b 1).
    assert (Q : (phase (j2 a - m2 a) * phase (j2 b - m2 b) * phase (2 * l a + j2 a + 2 * l a + j2 b + 2 * s2 a)
                 = phase (m2 a - m2 b))%R).
    { rewrite <- S, <- L in *. apply half in Ea. destruct Ea as [xa Ea]. apply half in Eb. destruct Eb as [xb Eb].
      apply half in Fa. destruct Fa as [ya Fa]. apply half in Fb. destruct Fb as [yb Fb].
      unfold phase. rewrite (div2_of _ _ Fa), (div2_of _ _ Fb).
      rewrite (div2_of (2 * l a + j2 a + 2 * l a + j2 b + 2 * s2 a) (2 * (2 * l a + s2 a) - xa - xb)) by lia.
      rewrite (div2_of (m2 a - m2 b) (xb - xa - ya + yb)) by lia.
      rewrite <- !rsgn_add. unfold rsgn.
      replace (ya + yb + (2 * (2 * l a + s2 a) - xa - xb)) with
        ((xb - xa - ya + yb) + 2 * (2 * l a + s2 a + ya - xb)) by lia.
      rewrite (Z.even_add _ (2 * _)), (Z.even_mul 2). cbn [Z.even orb].
      destruct (Z.even (xb - xa - ya + yb)); reflexivity. }
    rewrite <- Q. ring.
  Qed.

  (** *** Selection rules *)
  Lemma tri_false : forall a b c, (Z.abs (a - b) <=? c) && (c <=? a + b) = false -> Racah.triangle a b c = false.
  Proof. intros a b c H. unfold Racah.triangle. now rewrite H. Qed.

  Theorem multipole_forbidden : forall dn mth a b kr ka v, physical a -> physical b -> same_atom a b ->
    selMultipole a b ka = Ok false -> multipole radial e_charge dn mth a b kr ka = Ok v -> v = 0%R.
  Proof.
    intros dn mth a b kr ka v Pa Pb S R H. apply multipole_ok in H; auto.
    unfold multipole_textbook in H. destruct (radial_of radial dn mth a b kr) as [r| |]; cbn [bind] in H; try discriminate.
    inversion H. clear H H1.
    assert (AA : isArtificial a || isArtificial b = false).
    { destruct Pa as [-> _], Pb as [-> _]. reflexivity. }
    unfold selMultipole, guard2 in R. rewrite AA in R. assert (R' := f_equal (fun r => match r with Ok x => x | _ => true end) R). cbv beta iota in R'. clear R.
    assert (C : validL_mult a b ka = false \/ validJ_mult a b ka = false \/ (Z.abs (m2 a - m2 b) <=? 2 * ka) = false \/ noZero a b ka = false).
    { destruct (validL_mult a b ka), (validJ_mult a b ka), (Z.abs (m2 a - m2 b) <=? 2 * ka), (noZero a b ka); auto; discriminate. }
    destruct C as [C|[C|[C|C]]].
    - (* orbital parity or triangle *)
      assert (Z0 : reduced_Ck a b ka = 0%R).
      { unfold validL_mult in C. destruct (Z.leb_spec (Z.abs (l a - l b)) ka) as [T|T]; cbn [andb] in C.
        - apply reduced_Ck_odd. apply Z.eqb_neq in C.
          destruct (Z.even (l a + ka + l b)) eqn:E; [|reflexivity]. exfalso. apply C.
          apply half in E. destruct E as [h E].
          rewrite !Z.rem_mod_nonneg by lia.
          replace ka with (Z.abs (l a - l b) + (h - Z.max (l a) (l b)) * 2) at 1 by lia.
          now rewrite Z.mod_add.
        - unfold reduced_Ck. rewrite W3j_zero; [ring|]. unfold valid3.
          rewrite tri_false; [reflexivity|]. apply not_true_iff_false. rewrite andb_true_iff, !Z.leb_le. lia. }
      rewrite Z0. ring.
    - assert (Z0 : wigner_eckart a b ka = 0%R).
      { unfold wigner_eckart. rewrite W3j_zero; [ring|]. unfold valid3. rewrite tri_false; [reflexivity|].
        unfold validJ_mult in C. apply not_true_iff_false. apply not_true_iff_false in C.
        rewrite andb_true_iff, !Z.leb_le in *. lia. }
      rewrite Z0. ring.
    - assert (Z0 : wigner_eckart a b ka = 0%R).
      { unfold wigner_eckart. rewrite W3j_zero; [ring|]. unfold valid3, proj.
        rewrite C. rewrite !andb_false_r. reflexivity. }
      rewrite Z0. ring.
    - assert (Z0 : wigner_eckart a b ka = 0%R).
      { unfold noZero in C. apply negb_false_iff in C. rewrite !andb_true_iff, !Z.eqb_eq in C.
        destruct C as ((((C1 & C2) & C3) & C4) & C5). unfold wigner_eckart. subst ka. rewrite C2, C3, C4.
        replace (- - m2 b) with (m2 b) by lia.
        pose proof (W3j_swap 3 (2 * 2) 3 (m2 b) (- m2 b - m2 b) (m2 b)) as W.
        change (rsgn ((3 + 2 * 2 + 3) / 2)) with (-1)%R in W.
        assert (W0 : W3j 3 (2 * 2) 3 (m2 b) (- m2 b - m2 b) (m2 b) = 0%R) by lra. rewrite W0. ring. }
      rewrite Z0. ring.
  Qed.

  Theorem magnetic_forbidden : forall dn mth a b v, physical a -> physical b -> same_atom a b -> l a = l b ->
    selMomentum a b = Ok false -> magnetic radial minus_muB gL gS dn mth a b = Ok v -> v = 0%R.
  Proof.
    intros dn mth a b v Pa Pb S L R H. apply magnetic_ok in H; auto.
    unfold magnetic_textbook in H. destruct (radial_of radial dn mth a b 0) as [r| |]; cbn [bind] in H; try discriminate.
    inversion H. clear H H1.
    assert (AA : isArtificial a || isArtificial b = false).
    { destruct Pa as [-> _], Pb as [-> _]. reflexivity. }
    unfold selMomentum, guard2 in R. rewrite AA in R. assert (R' := f_equal (fun r => match r with Ok x => x | _ => true end) R). cbv beta iota in R'. clear R. rewrite L, Z.eqb_refl in R'. cbn [andb] in R'.
    assert (Z0 : wigner_eckart a b 1 = 0%R).
    { unfold wigner_eckart. rewrite W3j_zero; [ring|]. unfold valid3, proj. apply andb_false_iff in R'. destruct R' as [R'|R'].
      - rewrite tri_false; [reflexivity|]. apply not_true_iff_false. apply not_true_iff_false in R'.
        rewrite andb_true_iff, !Z.leb_le in *. lia.
      - change (2 * 1) with 2. rewrite R'. rewrite !andb_false_r. reflexivity. }
    rewrite Z0. ring.
  Qed.
End Rad.

Lemma sel_sym : forall a b k, selMultipole a b k = selMultipole b a k /\ selMomentum a b = selMomentum b a.
Proof.
  intros a b k. unfold selMultipole, selMomentum, guard2. rewrite (orb_comm (isArtificial b)).
  destruct (isArtificial a || isArtificial b); [auto|]. split; f_equal; apply eq_true_iff_eq.
  - unfold validL_mult, validJ_mult, noZero. rewrite !andb_true_iff, !negb_true_iff, !Z.leb_le.
    replace (Z.abs (l b - l a)) with (Z.abs (l a - l b)) by lia.
    replace (Z.abs (j2 b - j2 a)) with (Z.abs (j2 a - j2 b)) by lia.
    replace (Z.abs (m2 b - m2 a)) with (Z.abs (m2 a - m2 b)) by lia.
    rewrite <- !not_true_iff_false, !andb_true_iff, !Z.eqb_eq. lia.
  - rewrite !andb_true_iff, !Z.leb_le, !Z.eqb_eq. lia.
Qed.
Lemma sel_q : forall a b k q, 0 <= k ->
  (selMultipoleQ a b k q = Ok true <-> selMultipole a b k = Ok true /\ m2 a - m2 b = 2 * q) /\
  (selMomentumQ a b q = Ok true <-> selMomentum a b = Ok true /\ m2 a - m2 b = 2 * q).
Proof.
  intros a b k q K. unfold selMultipoleQ, selMultipole, selMomentumQ, selMomentum, guard2.
  destruct (isArtificial a || isArtificial b).
  { repeat split; intros; try discriminate; destruct H; discriminate. }
  assert (I : forall x y : bool, (Ok x = Ok true) <-> x = true) by (intros; split; [congruence|intros ->; reflexivity]).
  split; rewrite !(I _ true), !andb_true_iff, !Z.eqb_eq, !Z.leb_le; intuition lia.
Qed.

(** *** A magnetic dipole element the selection rules forbid but the code does not return as zero *)
Lemma W3j_121 : W3j 1 2 1 (-1) 0 1 <> 0%R.
Proof.
  unfold W3j. cbn -[norm3 span racah_term rsgn].
  assert (S : span 4 (racah_term 1 2 1 (-1) 0) = (-1)%R).
  { unfold span. change (Z.to_nat (2 * 4 + 1)) with 9%nat. cbn [zsum Z.opp Z.add Z.succ Z.pos_sub Pos.succ Pos.pred_double].
    unfold racah_term, invfact, rsgn. cbn. change (INR (fact (Pos.to_nat 1))) with 1%R. rewrite Rinv_1. ring. }
  rewrite S.
  assert (N : (0 < norm3 1 2 1 (-1) 0 1)%R).
  { unfold norm3. apply sqrt_lt_R0. unfold zfact, invfact. cbn. change (Pos.to_nat 1) with 1%nat. change (Pos.to_nat 3) with 3%nat. cbn. lra. }
  unfold rsgn. cbn. lra.
Qed.
Lemma W6j_110 : W6j 1 1 0 1 1 2 <> 0%R.
Proof.
  unfold W6j. cbn -[delta zsum racah6_term].
  assert (S : zsum 0 (Pos.to_nat 6) (racah6_term 1 1 0 1 1 2) = 6%R).
  { change (Pos.to_nat 6) with 6%nat. cbn [zsum Z.add Z.succ Pos.succ Pos.add].
    unfold racah6_term, invfact, zfact, rsgn. cbn. change (Pos.to_nat 1) with 1%nat. change (Pos.to_nat 2) with 2%nat. change (Pos.to_nat 3) with 3%nat. cbn. rewrite ?Rinv_1. ring. }
  rewrite S.
  assert (N : (0 < delta 1 1 0 * delta 1 1 2 * delta 1 1 2 * delta 1 1 0)%R).
  { unfold delta, zfact, invfact. cbn. change (Pos.to_nat 1) with 1%nat. change (Pos.to_nat 2) with 2%nat. change (Pos.to_nat 3) with 3%nat. cbn. lra. }
  apply sqrt_lt_R0 in N. lra.
Qed.

Definition sRb (nn ll jj mm : Z) : state1 := St1 "Rb" "Rb" nn ll jj mm 1 0%N.
Definition radial1 : string -> Z -> string -> Z -> Z -> Z -> Z -> Z -> Z -> Z -> res R :=
  fun _ _ _ _ _ _ _ _ _ _ => Ok 1%R.

Theorem magnetic_not_zero : exists a b, physical a /\ physical b /\ same_atom a b /\
  selMomentum a b = Ok false /\
  exists v, magnetic radial1 (-1) 1 2 EmptyString 0 a b = Ok v /\ v <> 0%R.
Proof.
  exists (sRb 60 0 1 1), (sRb 60 1 1 1).
  assert (P1 : physical (sRb 60 0 1 1)) by (unfold physical; cbn; repeat split; lia).
  assert (P2 : physical (sRb 60 1 1 1)) by (unfold physical; cbn; repeat split; lia).
  split; [exact P1|split; [exact P2|split; [split; reflexivity|split; [reflexivity|]]]].
  eexists. split.
  - unfold magnetic. apply (@gmd_fresh R 0%R 1%R Rplus Rmult Ropp W3j W6j sqrtZ radial1 asis (-1)%R 1%R 2%R sqrtSpin sqrtL asis_perm).
    unfold dir_magnetic.
    change (artificial_or_mixed (sRb 60 0 1 1) (sRb 60 1 1 1)) with false. cbv iota.
    cbn -[angular_val comS_val comL_val sgn sqrtL sqrtSpin Rmult Rplus]. reflexivity.
  - change (sgn 1%R Ropp 0) with 1%R.
    assert (L0 : sqrtL 0 = 0%R) by (unfold sqrtL; cbn; apply sqrt_0). rewrite L0.
    assert (SS : (0 < sqrtSpin 1)%R) by (unfold sqrtSpin; cbn; apply sqrt_lt_R0; lra).
    assert (A : angular_val 1%R Rmult Ropp W3j 1 1 1 1 1 <> 0%R).
    { unfold angular_val. change (sgn 1%R Ropp (trunc2 (1 - 1))) with 1%R.
      change (W3j 1 (2 * 1) 1 (- (1)) (1 - 1) 1) with (W3j 1 2 1 (-1) 0 1). pose proof W3j_121. lra. }
    assert (C : comL_val 0%R 1%R Rmult Ropp W6j sqrtZ 1 1 0 1 1 1 <> 0%R).
    { unfold comL_val. change (triL 1 1 0 1 1) with true. cbv iota.
      change (sgn 1%R Ropp (trunc2 (2 * 0 + 1 + 1 + 2 * 1))) with 1%R.
      change (W6j 1 1 (2 * 0) 1 1 (2 * 1)) with (W6j 1 1 0 1 1 2).
      assert (Q : (0 < sqrtZ ((1 + 1) * (1 + 1)))%R) by (unfold sqrtZ; cbn; apply sqrt_lt_R0; lra).
      rewrite Rmult_1_l. apply Rmult_integral_contrapositive_currified; [lra|exact W6j_110]. }
    set (A' := angular_val _ _ _ _ _ _ _ _ _) in *. set (C' := comL_val _ _ _ _ _ _ _ _ _ _ _ _) in *.
    match goal with |- (?x <> 0)%R => replace x with (- (A' * (2 * (C' * sqrtSpin 1))))%R by ring end.
    apply Ropp_neq_0_compat. apply Rmult_integral_contrapositive_currified; [exact A|].
    apply Rmult_integral_contrapositive_currified; [lra|].
    apply Rmult_integral_contrapositive_currified; [exact C|lra].
Qed.
