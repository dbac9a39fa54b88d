(** Property C101: electric dipole elements loaded from a file of the user.  Vocabulary: DipoleSpec.v and MESpec.v. *)
From Coq Require Import ZArith Reals Lra Lia Bool String Ascii List Permutation.
Import ListNotations.
From Verif Require Import Base StateModel MEModel Racah MESpec MEProofs MEReal DipoleModel DipoleSpec DipoleProofs DipoleProofs2 DipoleProofs3.
From Verif Require TwoSymDemo.
Local Open Scope list_scope.
Local Open Scope Z_scope.
Set Implicit Arguments.

(** rows of a database file whose angular expressions have the right value; nothing is asked of the radial ones *)
Definition angular_correct (V : Type) (calc : string -> Z -> ckey -> res V) (r : rows V) : Prop :=
  forall k v, In (k, v) r -> is_rad k = false -> calc EmptyString 0 k = Ok v.
Lemma rget_In : forall (V : Type) (r : rows V) k v, rget r k = Some v -> In (k, v) r.
Proof.
  intros V. induction r as [|[k0 x] r IH]; intros k v H; cbn in H; [discriminate|]. destruct (ckey_eqb k0 k) eqn:Q; [apply ckey_eqb_eq in Q; subst; injection H as <-; left; reflexivity|right; auto].
Qed.

(** The spin read from the name of the species is the one of the states with this name. *)
Lemma spin_of : forall sp el t, analyzeSpecies sp = Ok (el, t) -> species_spin sp = Ok t.
Proof.
  intros sp el t. unfold analyzeSpecies, species_spin, is_digit. destruct (str_last sp); [|discriminate].
  intros H. f_equal. set (d := Z.of_N (N_of_ascii a)) in *.
  destruct ((48 <=? N_of_ascii a) && (N_of_ascii a <=? 57))%N eqn:E.
  - injection H as _ <-. apply andb_prop in E. destruct E as [E1 E2]. apply N.leb_le in E1, E2.
    replace (48 <=? d) with true by (symmetry; apply Z.leb_le; unfold d; lia). replace (d <=? 57) with true by (symmetry; apply Z.leb_le; unfold d; lia). reflexivity.
  - injection H as _ <-. apply andb_false_iff in E. destruct E as [E|E]; apply N.leb_gt in E.
    + replace (48 <=? d) with false by (symmetry; apply Z.leb_gt; unfold d; lia). reflexivity.
    + replace (d <=? 57) with false by (symmetry; apply Z.leb_gt; unfold d; lia). rewrite andb_false_r. reflexivity.
Qed.

Section Real.
  Variable radial : string -> Z -> string -> Z -> Z -> Z -> Z -> Z -> Z -> Z -> res R.
  Variable order : list ckey -> list ckey.
  Variables (stoi stof : string -> parsed Z) (stod : string -> parsed R) (au2um : R).
  Variable rehashed : rows R -> rows R -> bool.
  Variables (e_charge minus_muB gL gS : R).
  Let load := loadElectricDipoleDB 0%R 1%R Rmult Rdiv Ropp W3j W6j sqrtZ radial order stoi stof stod au2um.
  Let line := parse stoi stof stod.
  Let run := runD 0%R 1%R Rmult Rdiv Ropp W3j W6j sqrtZ radial order stoi stof stod au2um Rplus rehashed e_charge minus_muB gL gS sqrtSpin sqrtL.
  (** getElectricDipole (352-355) *)
  Let dipole (c : cache R) (a b : state1) : res R :=
    snd (getElectricMultipole 0%R 1%R Rmult Ropp W3j W6j sqrtZ radial order e_charge c a b 1 1).
  Let right := angular_correct (calc 0%R 1%R Rmult Ropp W3j W6j sqrtZ radial).
  Notation invR := (invA 0%R 1%R Rmult Ropp W3j W6j sqrtZ radial).

  Lemma right_ok : forall r, right r -> okrows (PA 0%R 1%R Rmult Ropp W3j W6j sqrtZ radial) r.
  Proof. intros r H k v E A. apply (H k v); [apply rget_In; exact E|exact A]. Qed.

  Lemma mem_value : (forall l, Permutation (order l) l) -> forall c a b r, invR c -> physical a -> physical b -> same_atom a b ->
    rget (mem c) (skey (method c) a b 1) = Some r ->
    let val := (e_charge * r * wigner_eckart a b 1 * reduced_orbital a b 1 * reduced_Ck a b 1)%R in
    (forall v, dipole c a b = Ok v -> v = val) /\
    (missing c = [] -> (usedb c = true -> open_tx (file c) = None) -> dipole c a b = Ok val).
  Proof.
    intros OP c a b r I Pa Pb S G val.
    pose proof (@multipole_mem R 0%R 1%R Rplus Rmult Ropp W3j W6j sqrtZ radial order e_charge OP c a b 1 1 r I G) as Q. cbv zeta in Q. fold (dipole c a b) in Q.
    destruct (mkAng 1 (j2 a) (j2 b) (m2 a) (m2 b)) as [k2 g2] eqn:E2.
    destruct (mkComS (s2 a) 1 (l a) (l b) (j2 a) (j2 b)) as [k3 g3] eqn:E3.
    destruct (mkMul 1 (l a) (l b)) as [k4 g4] eqn:E4. destruct Q as [Q1 Q2].
    assert (V1 : forall v, dipole c a b = Ok v -> v = val).
    { intros v Hv. destruct (Q1 v Hv) as (x & y & z & X & Y & ZZ & ->). destruct Pa as (_ & _ & _ & Ea & Fa & _), Pb as (_ & _ & _ & Eb & Fb & _). destruct S as [_ S]. rewrite <- S in Eb.
      destruct (mkAng_correct radial EmptyString 0 _ _ _ _ _ E2 Fa Fb) as (x' & X1 & X2).
      destruct (mkComS_correct radial EmptyString 0 _ _ _ _ _ _ E3 Ea Eb) as (y' & Y1 & Y2).
      destruct (mkMul_correct radial EmptyString 0 _ _ _ E4) as (z' & Z1 & Z2).
      unfold rcalc in *. rewrite X in X1. rewrite Y in Y1. rewrite ZZ in Z1. injection X1 as <-. injection Y1 as <-. injection Z1 as <-.
      unfold val, wigner_eckart, reduced_orbital, reduced_Ck. rewrite <- X2, <- Y2, <- Z2. change (sgn 1%R Ropp) with rsgn. ring. }
    split; [exact V1|]. intros Mi Cl. destruct (Q2 (physical_mixed Pa Pb S) Mi Cl) as (v & Hv). fold (dipole c a b) in Hv. rewrite Hv. f_equal. apply V1. exact Hv.
  Qed.

  (** the reduced element of the exchanged states *)
  Lemma reduced_swap : forall a b, physical a -> physical b -> same_atom a b -> (reduced_orbital a b 1 * reduced_Ck a b 1 <> 0)%R ->
    (reduced_orbital b a 1 * reduced_Ck b a 1 = phase (j2 a - j2 b) * (reduced_orbital a b 1 * reduced_Ck a b 1))%R.
  Proof.
    intros a b (_ & _ & _ & Ea & _) (_ & _ & _ & Eb & _) [_ S] N.
    rewrite (reduced_orbital_swap a b 1 S Ea Eb), reduced_Ck_swap.
    destruct (Z.even (l a + 1 + l b)) eqn:P; [|exfalso; apply N; rewrite (reduced_Ck_odd a b 1 P); ring].
    rewrite <- S in Eb. apply half in Ea. destruct Ea as [xa Ea]. apply half in Eb. destruct Eb as [xb Eb]. apply half in P. destruct P as [z P].
    assert (Q : (phase (2 * l a + j2 a + 2 * l b + j2 b + 2 * s2 a) * rsgn 1 = phase (j2 a - j2 b))%R).
    { unfold phase. rewrite (div2_of (2 * l a + j2 a + 2 * l b + j2 b + 2 * s2 a) (2 * (l a + l b + s2 a) - xa - xb)) by lia.
      rewrite (div2_of (j2 a - j2 b) (l a - l b - xa + xb)) by lia. rewrite <- rsgn_add. unfold rsgn.
      replace (2 * (l a + l b + s2 a) - xa - xb + 1) with ((l a - l b - xa + xb) + 2 * (s2 a + l b - xb + z)) by lia.
      rewrite (Z.even_add _ (2 * _)), (Z.even_mul 2). cbn [Z.even orb]. destruct (Z.even (l a - l b - xa + xb)); reflexivity. }
    rewrite <- Q. ring.
  Qed.

  Section Loaded.
    Hypothesis OP : forall l, Permutation (order l) l.
    Variables (usedb0 : bool) (f : dbfile R) (h : list (call R)).
    Hypothesis Hf : right (committed f).
    Hypothesis Ho : open_tx f = None.
    Hypothesis Hh : forall new, In (Call (EExtern new)) h -> right new.
    Let c := run (newCache usedb0 f) h.
    Variables (pre : list (list string)) (tk : list string) (post : list (list string)) (c' : cache R) (e : entry R) (a b : state1).
    Hypothesis HL : load c (pre ++ tk :: post) (species a) = (c', Ok tt).
    Hypothesis Ht : line tk = Good e.
    Hypothesis Hp : ~ about line post a b.
    Hypothesis Pa : physical a.
    Hypothesis Pb : physical b.
    Hypothesis Sab : same_atom a b.
    Hypothesis Hs : species_spin (species a) = Ok (s2 a).
    Hypothesis Nz : (reduced_orbital a b 1 * reduced_Ck a b 1 <> 0)%R.
    Hypothesis So : sorted a b.
    Hypothesis Li : listed e a b \/ listed e b a.

    Lemma inv_c : invR c.
    Proof.
      apply runD_A; [apply newCache_A; [apply right_ok; exact Hf|exact Ho]|]. intros new J. apply right_ok, Hh, J.
    Qed.
    Let r := (evalue e * au2um / (reduced_orbital a b 1 * reduced_Ck a b 1))%R.
    Lemma row_c' : rget (mem c') (skey (method c) a b 1) = Some r /\ missing c' = [] /\ (usedb c' = true -> open_tx (file c') = None) /\ invR c' /\ method c' = method c.
    Proof.
      destruct (@load_row R 0%R 1%R Rplus Rmult Rdiv Ropp W3j W6j sqrtZ radial order stoi stof stod au2um OP c pre tk post (species a) (s2 a) c' e a b inv_c HL Hs Ht eq_refl So Li Hp) as (y & z & Y & ZZ & G & (Sm & _) & Mi & Cl).
      destruct (mkComS (s2 a) 1 (l a) (l b) (j2 a) (j2 b)) as [k3 g3] eqn:E3. destruct (mkMul 1 (l a) (l b)) as [k4 g4] eqn:E4. cbn [fst snd] in *.
      destruct Pa as (_ & _ & _ & Ea & _), Pb as (_ & _ & _ & Eb & _). destruct Sab as [_ S]. rewrite <- S in Eb.
      destruct (mkComS_correct radial EmptyString 0 _ _ _ _ _ _ E3 Ea Eb) as (y' & Y1 & Y2).
      destruct (mkMul_correct radial EmptyString 0 _ _ _ E4) as (z' & Z1 & Z2).
      unfold rcalc in *. rewrite Y in Y1. rewrite ZZ in Z1. injection Y1 as <-. injection Z1 as <-.
      split; [|split; [exact Mi|split; [exact Cl|split; [|exact Sm]]]].
      - rewrite G. f_equal. unfold r. f_equal. unfold reduced_orbital, reduced_Ck. rewrite <- Y2, <- Z2. change (sgn 1%R Ropp) with rsgn. ring.
      - pose proof (@stepD_A R 0%R 1%R Rplus Rmult Rdiv Ropp W3j W6j sqrtZ radial order stoi stof stod au2um rehashed e_charge minus_muB gL gS sqrtSpin sqrtL c (Load R (pre ++ tk :: post) (species a)) inv_c) as Q.
        cbn [stepD] in Q. fold load in Q. rewrite HL in Q. apply Q. intros new J. discriminate J.
    Qed.
    Lemma value_later : forall h', ~ In (Call (ERestart R)) h' -> (forall x, In x h' -> ~ mentions line x a b) -> (forall new, In (Call (EExtern new)) h' -> right new) ->
      let c2 := run c' h' in method c2 = method c ->
      (forall v, dipole c2 a b = Ok v -> v = (e_charge * wigner_eckart a b 1 * (evalue e * au2um))%R) /\
      (forall v, dipole c2 b a = Ok v -> v = (e_charge * wigner_eckart b a 1 * (phase (j2 a - j2 b) * (evalue e * au2um)))%R).
    Proof.
      intros h' NR NM X c2 M2. destruct row_c' as (G & _ & _ & I & _).
      destruct (@run_keeps R 0%R 1%R Rplus Rmult Rdiv Ropp W3j W6j sqrtZ radial order stoi stof stod au2um rehashed e_charge minus_muB gL gS sqrtSpin sqrtL (method c) a b r h' c' I (fun new J => right_ok (X new J)) NR NM G) as (I2 & G2).
      fold run in I2, G2. fold c2 in I2, G2. rewrite <- M2 in G2. split; intros v Hv.
      - rewrite (proj1 (@mem_value OP c2 a b r I2 Pa Pb Sab G2) v Hv). unfold r. field. split; intros Q; apply Nz; rewrite Q; ring.
      - assert (S' : same_atom b a) by (destruct Sab; split; congruence).
        assert (G3 : rget (mem c2) (skey (method c2) b a 1) = Some r) by (unfold skey in *; rewrite mkRad_sym, <- (proj1 Sab); exact G2).
        rewrite (proj1 (@mem_value OP c2 b a r I2 Pb Pa S' G3) v Hv). pose proof (reduced_swap Pa Pb Sab Nz) as RS.
        replace (e_charge * r * wigner_eckart b a 1 * reduced_orbital b a 1 * reduced_Ck b a 1)%R with (e_charge * r * wigner_eckart b a 1 * (reduced_orbital b a 1 * reduced_Ck b a 1))%R by ring.
        rewrite RS. unfold r. field. split; intros Q; apply Nz; rewrite Q; ring.
    Qed.
    Lemma value_now : dipole c' a b = Ok (e_charge * wigner_eckart a b 1 * (evalue e * au2um))%R /\
      dipole c' b a = Ok (e_charge * wigner_eckart b a 1 * (phase (j2 a - j2 b) * (evalue e * au2um)))%R.
    Proof.
      destruct row_c' as (G & Mi & Cl & I & M). rewrite <- M in G.
      assert (S' : same_atom b a) by (destruct Sab; split; congruence).
      assert (G3 : rget (mem c') (skey (method c') b a 1) = Some r) by (unfold skey in *; rewrite mkRad_sym, <- (proj1 Sab); exact G).
      destruct (@value_later []) as [V1 V2]; [intros []|intros x []|intros new []|exact M|]. cbn [run runD] in V1, V2.
      pose proof (proj2 (@mem_value OP c' a b r I Pa Pb Sab G) Mi Cl) as W1. pose proof (proj2 (@mem_value OP c' b a r I Pb Pa S' G3) Mi Cl) as W2.
      split; [rewrite W1; f_equal; apply V1; exact W1|rewrite W2; f_equal; apply V2; exact W2].
    Qed.
  End Loaded.

  (** *** C101.  Whatever happened before, once loadElectricDipoleDB has returned, getElectricDipole of a transition the file lists
      is the Wigner-Eckart value for the listed reduced element of the last line about it, at once and through every later history of
      requests, failures, precalculations, setDefectDB and changes of the method and back, until a file with a line about
      the same transition is loaded or the process ends.  Proved for transitions listed with the state of smaller (n, l, j) in front; the
      exchanged element is the adjoint.  Missing: the other order, for which it is false. *)
  Theorem C101_value_partial : (forall l, Permutation (order l) l) -> forall usedb0 f h,
    right (committed f) -> open_tx f = None -> (forall new, In (Call (EExtern new)) h -> right new) ->
    let c := run (newCache usedb0 f) h in
    forall pre tk post c' e a b, load c (pre ++ tk :: post) (species a) = (c', Ok tt) ->
    line tk = Good e -> ~ about line post a b -> physical a -> physical b -> same_atom a b -> analyzeSpecies (species a) = Ok (element a, s2 a) ->
    (reduced_orbital a b 1 * reduced_Ck a b 1 <> 0)%R -> listed e a b -> sorted a b ->
    (dipole c' a b = Ok (e_charge * wigner_eckart a b 1 * (evalue e * au2um))%R /\
     dipole c' b a = Ok (e_charge * wigner_eckart b a 1 * (phase (j2 a - j2 b) * (evalue e * au2um)))%R) /\
    forall h', ~ In (Call (ERestart R)) h' -> (forall x, In x h' -> ~ mentions line x a b) -> (forall new, In (Call (EExtern new)) h' -> right new) ->
    let c2 := run c' h' in method c2 = method c ->
    (forall v, dipole c2 a b = Ok v -> v = (e_charge * wigner_eckart a b 1 * (evalue e * au2um))%R) /\
    (forall v, dipole c2 b a = Ok v -> v = (e_charge * wigner_eckart b a 1 * (phase (j2 a - j2 b) * (evalue e * au2um)))%R).
  Proof.
    intros OP u f h F O X c pre tk post c' e a b HL Ht Hp Pa Pb S Hs' Nz Li So. pose proof (@spin_of _ _ _ Hs') as Hs. split.
    - exact (@value_now OP u f h F O X pre tk post c' e a b HL Ht Hp Pa Pb S Hs Nz So (or_introl Li)).
    - exact (@value_later OP u f h F O X pre tk post c' e a b HL Ht Hp Pa Pb S Hs Nz So (or_introl Li)).
  Qed.

  (** The other order: the factor (-1)^(j1 - j2) of the exchange is missing. *)
  Theorem C101_other_order_partial : (forall l, Permutation (order l) l) -> forall usedb0 f h,
    right (committed f) -> open_tx f = None -> (forall new, In (Call (EExtern new)) h -> right new) ->
    let c := run (newCache usedb0 f) h in
    forall pre tk post c' e a b, load c (pre ++ tk :: post) (species a) = (c', Ok tt) ->
    line tk = Good e -> ~ about line post a b -> physical a -> physical b -> same_atom a b -> analyzeSpecies (species a) = Ok (element a, s2 a) ->
    (reduced_orbital a b 1 * reduced_Ck a b 1 <> 0)%R -> listed e b a -> sorted a b ->
    dipole c' b a = Ok (phase (j2 a - j2 b) * (e_charge * wigner_eckart b a 1 * (evalue e * au2um)))%R.
  Proof.
    intros OP u f h F O X c pre tk post c' e a b HL Ht Hp Pa Pb S Hs' Nz Li So. pose proof (@spin_of _ _ _ Hs') as Hs.
    rewrite (proj2 (@value_now OP u f h F O X pre tk post c' e a b HL Ht Hp Pa Pb S Hs Nz So (or_intror Li))). f_equal. ring.
  Qed.
End Real.
Print Assumptions C101_value_partial.
Print Assumptions C101_other_order_partial.

(** *** Everything else is as if nothing had been loaded: elements of other transitions and of other orders, magnetic elements, and
    the rows in the shared database.  For any history with settings that stay as they are, with any number of files. *)
Section Others.
  Variables (V : Type) (v0 v1 : V) (vadd vmul vdiv : V -> V -> V) (vopp : V -> V).
  Variables (w3j w6j : Z -> Z -> Z -> Z -> Z -> Z -> V) (sqrtZ : Z -> V).
  Variable radial : string -> Z -> string -> Z -> Z -> Z -> Z -> Z -> Z -> Z -> res V.
  Variable order : list ckey -> list ckey.
  Variables (stoi stof : string -> parsed Z) (stod : string -> parsed V) (au2um : V).
  Variable rehashed : rows V -> rows V -> bool.
  Variables (e_charge minus_muB gL gS : V) (sqrtSpin sqrtL : Z -> V).
  Let calc := calc v0 v1 vmul vopp w3j w6j sqrtZ radial.
  Let multi := getElectricMultipole v0 v1 vmul vopp w3j w6j sqrtZ radial order e_charge.
  Let magn := getMagneticDipole v0 v1 vadd vmul vopp w3j w6j sqrtZ radial order minus_muB gL gS sqrtSpin sqrtL.
  Let load := loadElectricDipoleDB v0 v1 vmul vdiv vopp w3j w6j sqrtZ radial order stoi stof stod au2um.
  Let line := parse stoi stof stod.
  Let run := runD v0 v1 vmul vdiv vopp w3j w6j sqrtZ radial order stoi stof stod au2um vadd rehashed e_charge minus_muB gL gS sqrtSpin sqrtL.
  (** rows that hold what is calculated with the settings (dn, m); radial rows of other methods do not matter *)
  Definition calculated (dn : string) (m : Z) (r : rows V) : Prop := forall k v, In (k, v) r -> kmeth m k = m -> calc dn m k = Ok v.
  (** neither the settings nor the process change; other processes write calculated rows *)
  Definition steady (dn : string) (m : Z) (x : call V) : Prop :=
    match x with
    | Call (ESetMethod _ _) | Call (ESetDefect _ _) | Call (ERestart _) => False
    | Call (EExtern new) => calculated dn m new
    | _ => True
    end.

  Theorem C101_others : (forall l, Permutation (order l) l) -> forall dn m usedb0 f h,
    (usedb0 = true -> calculated dn m (committed f) /\ open_tx f = None) -> (forall x, In x h -> steady dn m x) ->
    let c := run (Cache [] [] m dn usedb0 f) h in
    (forall a b kr ka v, (kr = 1 -> forall x, In x h -> ~ mentions line x a b) -> snd (multi c a b kr ka) = Ok v -> snd (multi (fresh V dn m) a b kr ka) = Ok v) /\
    (forall a b v, snd (magn c a b) = Ok v -> snd (magn (fresh V dn m) a b) = Ok v) /\
    (usedb0 = true -> forall k v, rget (committed (file c)) k = Some v -> kmeth m k = m -> calc dn m k = Ok v).
  Proof.
    intros OP dn m u f h F Q c.
    assert (OK : forall r, calculated dn m r -> okrows (PF v0 v1 vmul vopp w3j w6j sqrtZ radial dn m) r) by (intros r H k v E K; apply (H k v); [apply rget_In; exact E|exact K]).
    set (P0 := PM v0 v1 vmul vopp w3j w6j sqrtZ radial stoi stof stod dn m h).
    assert (I0 : inv P0 (PF v0 v1 vmul vopp w3j w6j sqrtZ radial dn m) false (Cache [] [] m dn u f)).
    { split; [intros k v E; discriminate E|]. cbn [usedb orb file]. intros U. destruct (F U) as [A B]. split; [apply OK; exact A|]. rewrite B. intros; discriminate. }
    destruct (@run_others V v0 v1 vadd vmul vdiv vopp w3j w6j sqrtZ radial order stoi stof stod au2um rehashed e_charge minus_muB gL gS sqrtSpin sqrtL dn m h h _ (fun x J => J) I0 eq_refl eq_refl) as (I & (S1 & S2 & S3)).
    { intros x J. specialize (Q x J). unfold steady in Q. unfold quiet. destruct x as [[]|]; auto. }
    fold run in I, S1, S2, S3. fold c in I, S1, S2, S3. cbn [method ddb usedb] in S1, S2, S3.
    split; [|split].
    - intros a b kr ka v N E. apply (@gem_others V v0 v1 vadd vmul vopp w3j w6j sqrtZ radial order stoi stof stod e_charge OP dn m h c I S1 S2); [apply not_loaded; exact N|exact E].
    - intros a b v E. apply (@gmd_others V v0 v1 vadd vmul vopp w3j w6j sqrtZ radial order stoi stof stod minus_muB gL gS sqrtSpin sqrtL OP dn m h c I S1 S2). exact E.
    - intros U k v E. rewrite U in S3. destruct I as [_ I]. rewrite S3 in I. destruct (I eq_refl) as [A _]. exact (A k v E).
  Qed.

  (** When nothing is pending, loading returns for every file whose lines are all read or skipped (text in place of a number: skipped). *)
  Theorem C101_returns : (forall l, Permutation (order l) l) -> forall c lines sp, sp <> EmptyString -> missing c = [] ->
    (usedb c = true -> open_tx (file c) = None) -> (forall tk, In tk lines -> (exists e, line tk = Good e) \/ line tk = Skip _) ->
    snd (load c lines sp) = Ok tt.
  Proof.
    intros OP c lines sp Ne. assert (exists s, species_spin sp = Ok s) as (s & Sp).
    { unfold species_spin. destruct (str_last sp) eqn:E; [eauto|]. destruct sp as [|x sp]; [congruence|]. exfalso. clear - E. revert x E. induction sp as [|y sp IH]; intros x E; [discriminate E|]. exact (IH y E). }
    exact (@load_ok V v0 v1 vadd vmul vdiv vopp w3j w6j sqrtZ radial order stoi stof stod au2um OP c lines sp s Sp).
  Qed.

  (** A number out of the range of int, float or double: the exception leaves the function and none of the lines, also of those in
      front, has taken effect; a line with too few fields, such as an empty one, has no defined behaviour. *)
  Theorem C101_bad_line_refuted : forall c pre tk post sp, sp <> EmptyString -> (forall t, In t pre -> (exists e, line t = Good e) \/ line t = Skip _) ->
    (line tk = Raise _ -> snd (load c (pre ++ tk :: post) sp) = Throw /\ mem (fst (load c (pre ++ tk :: post) sp)) = mem c) /\
    ((tk = [] \/ line tk = Undefined _) -> snd (load c (pre ++ tk :: post) sp) = UB).
  Proof.
    intros c pre tk post sp Ns H. destruct (@load_bad V v0 v1 vadd vmul vdiv vopp w3j w6j sqrtZ radial order stoi stof stod au2um c pre tk post sp Ns H) as [A B].
    split; [exact A|]. intros [->|E]; apply B; [reflexivity|exact E].
  Qed.
End Others.
Print Assumptions C101_others.
Print Assumptions C101_returns.
Print Assumptions C101_bad_line_refuted.

(** *** Concrete files *)
Local Open Scope string_scope.
Definition sti (s : string) : parsed Z :=
  if String.eqb s "60" then Num 60 else if String.eqb s "61" then Num 61 else if String.eqb s "0" then Num 0 else if String.eqb s "1" then Num 1 else
  if String.eqb s "99999999999" then TooLarge else Invalid.
Definition stf (s : string) : parsed Z := if String.eqb s "0.5" then Num 1 else if String.eqb s "1.5" then Num 3 else Invalid.
Definition std (s : string) : parsed R := if String.eqb s "7" then Num 7%R else Invalid.
Local Close Scope string_scope.
Definition lineSP : list string := ["60"; "0"; "0.5"; "60"; "1"; "1.5"; "7"]%string.
Definition linePS : list string := ["60"; "1"; "1.5"; "60"; "0"; "0.5"; "7"]%string.
Definition header : list string := ["n1"; "l1"; "j1"; "n2"; "l2"; "j2"; "d"]%string.
Definition S12 := sRb 60 0 1 1.
Definition P32 := sRb 60 1 3 1.
Definition loadR := loadElectricDipoleDB 0%R 1%R Rmult Rdiv Ropp W3j W6j sqrtZ radial1 asis sti stf std 1%R.
Definition dipoleR (c : cache R) (a b : state1) : res R :=
  snd (getElectricMultipole 0%R 1%R Rmult Ropp W3j W6j sqrtZ radial1 asis 1%R c a b 1 1).
Definition new0 : cache R := newCache true (Dbf [] None).

Lemma physS : physical S12. Proof. unfold physical. cbn. repeat split; lia. Qed.
Lemma physP : physical P32. Proof. unfold physical. cbn. repeat split; lia. Qed.
Lemma w3 : W3j 3 2 1 (-1) 0 1 <> 0%R. Proof. apply TwoSymDemo.w3_nz; vm_compute; reflexivity. Qed.
Lemma w6 : W6j 0 1 1 3 2 2 <> 0%R. Proof. apply TwoSymDemo.w6_nz; vm_compute; reflexivity. Qed.
Lemma sqrt_nz : forall z, 0 < z -> sqrt (IZR z) <> 0%R.
Proof. intros z Hz. apply Rgt_not_eq, sqrt_lt_R0. apply (IZR_lt 0 z). exact Hz. Qed.
Lemma phase_nz : forall z, phase z <> 0%R.
Proof. intros z. unfold phase, rsgn. destruct (Z.even _); lra. Qed.
Lemma mul_nz : forall x y, (x <> 0 -> y <> 0 -> x * y <> 0)%R. Proof. intros. apply Rmult_integral_contrapositive_currified; assumption. Qed.
Lemma mul3_nz : forall x y z, (x <> 0 -> y <> 0 -> z <> 0 -> x * y * z <> 0)%R. Proof. intros. apply mul_nz; [apply mul_nz|]; assumption. Qed.
Lemma nonzeroSP : (reduced_orbital S12 P32 1 * reduced_Ck S12 P32 1 <> 0)%R.
Proof.
  unfold reduced_orbital, reduced_Ck. cbn [S12 P32 sRb l j2 s2].
  assert (A : rsgn 0 <> 0%R) by (unfold rsgn; cbn; lra).
  apply mul_nz; apply mul3_nz; [apply phase_nz|apply sqrt_nz; lia|exact w6|exact A|apply sqrt_nz; lia|exact TwoSymDemo.w_c].
Qed.
Lemma parseSP : parse sti stf std lineSP = Good (Entry 60 0 1 60 1 3 7%R). Proof. reflexivity. Qed.
Lemma parsePS : parse sti stf std linePS = Good (Entry 60 1 3 60 0 1 7%R). Proof. reflexivity. Qed.
Lemma angular_nil : forall calc, @angular_correct R calc []. Proof. intros calc k v []. Qed.

(** a file with a heading and one line: hypotheses of C101_value_partial, and its value is not zero *)
Example C101_nonvacuous : exists c' v, loadR new0 ([header] ++ lineSP :: []) (species S12) = (c', Ok tt) /\
  dipoleR c' S12 P32 = Ok v /\ v = (wigner_eckart S12 P32 1 * 7)%R /\ dipoleR c' P32 S12 = Ok (wigner_eckart P32 S12 1 * (-7))%R /\
  wigner_eckart P32 S12 1 <> 0%R /\ snd (loadR new0 [lineSP; []] "Rb") = UB /\ snd (loadR new0 [["99999999999"%string]] "Rb") = Throw.
Proof.
  assert (L : snd (loadR new0 ([header] ++ lineSP :: []) (species S12)) = Ok tt).
  { apply (@C101_returns R 0%R 1%R Rplus Rmult Rdiv Ropp W3j W6j sqrtZ radial1 asis sti stf std 1%R asis_perm new0 ([header] ++ lineSP :: []) (species S12) ltac:(discriminate) eq_refl (fun _ => eq_refl)).
    intros tk [<-|[<-|[]]]; [right; reflexivity|left; eexists; apply parseSP]. }
  destruct (loadR new0 ([header] ++ lineSP :: []) (species S12)) as [c' r] eqn:E. cbn [snd] in L. subst r. exists c'.
  destruct (@C101_value_partial radial1 asis sti stf std 1%R never 1%R 1%R 1%R 1%R asis_perm true (Dbf [] None) [] (angular_nil _) eq_refl (fun new J => match J with end)
    [header] lineSP [] c' _ S12 P32 E parseSP) as ((V1 & V2) & _).
  - intros (tk & e & [] & _).
  - apply physS.
  - apply physP.
  - split; reflexivity.
  - reflexivity.
  - apply nonzeroSP.
  - unfold listed. cbn. auto 10.
  - right. cbn. lia.
  - eexists. split; [reflexivity|]. split; [exact V1|]. split; [cbn [evalue]; ring|]. split.
    + unfold dipoleR. rewrite V2. f_equal. cbn [evalue]. change (phase (j2 S12 - j2 P32)) with (-1)%R. ring.
    + split; [|split; reflexivity]. unfold wigner_eckart. apply Rmult_integral_contrapositive_currified; [apply phase_nz|exact w3].
Qed.

(** The same transition listed with P in front: getElectricDipole(P, S) has the wrong sign. *)
Theorem C101_other_order_refuted : exists c', loadR new0 ([header] ++ linePS :: []) (species P32) = (c', Ok tt) /\
  listed (Entry 60 1 3 60 0 1 7%R) P32 S12 /\
  dipoleR c' P32 S12 = Ok (- (wigner_eckart P32 S12 1 * 7))%R /\ dipoleR c' P32 S12 <> Ok (wigner_eckart P32 S12 1 * 7)%R.
Proof.
  assert (L : snd (loadR new0 ([header] ++ linePS :: []) (species S12)) = Ok tt).
  { apply (@C101_returns R 0%R 1%R Rplus Rmult Rdiv Ropp W3j W6j sqrtZ radial1 asis sti stf std 1%R asis_perm new0 ([header] ++ linePS :: []) (species S12) ltac:(discriminate) eq_refl (fun _ => eq_refl)).
    intros tk [<-|[<-|[]]]; [right; reflexivity|left; eexists; apply parsePS]. }
  destruct (loadR new0 ([header] ++ linePS :: []) (species S12)) as [c' r] eqn:E. cbn [snd] in L. subst r. exists c'. split; [exact E|].
  assert (Li : listed (Entry 60 1 3 60 0 1 7%R) P32 S12) by (unfold listed; cbn; auto 10). split; [exact Li|].
  assert (V : dipoleR c' P32 S12 = Ok (- (wigner_eckart P32 S12 1 * 7))%R).
  { unfold dipoleR. rewrite (@C101_other_order_partial radial1 asis sti stf std 1%R never 1%R 1%R 1%R 1%R asis_perm true (Dbf [] None) [] (angular_nil _) eq_refl (fun new J => match J with end)
      [header] linePS [] c' _ S12 P32 E parsePS).
    - f_equal. cbn [evalue]. change (phase (j2 S12 - j2 P32)) with (-1)%R. ring.
    - intros (tk & e & [] & _).
    - apply physS.
    - apply physP.
    - split; reflexivity.
    - reflexivity.
    - apply nonzeroSP.
    - exact Li.
    - right. cbn. lia. }
  split; [exact V|]. rewrite V. intros Q. injection Q as Q.
  assert (N : (wigner_eckart P32 S12 1 <> 0)%R) by (unfold wigner_eckart; apply Rmult_integral_contrapositive_currified; [apply phase_nz|exact w3]). lra.
Qed.
Print Assumptions C101_other_order_refuted.

(** A line about a transition that the selection rules forbid: the element is not a number afterwards (here [None]: an infinity or NaN;
    any product with it that occurs here is NaN, because the remaining factor is zero).  Without the line it is 0. *)
Definition oR := option R.
Definition omul (x y : oR) : oR := match x, y with Some x, Some y => Some (x * y)%R | _, _ => None end.
Definition odiv (x y : oR) : oR := match x, y with Some x, Some y => if Req_EM_T y 0 then None else Some (x / y)%R | _, _ => None end.
Definition oopp (x : oR) : oR := option_map Ropp x.
Definition ow3 (a b c d e f : Z) : oR := Some (W3j a b c d e f).
Definition ow6 (a b c d e f : Z) : oR := Some (W6j a b c d e f).
Definition orad : string -> Z -> string -> Z -> Z -> Z -> Z -> Z -> Z -> Z -> res oR := fun _ _ _ _ _ _ _ _ _ _ => Ok (Some 1%R).
Definition ostd (s : string) : parsed oR := if String.eqb s "7" then Num (Some 7%R) else Invalid.
Definition loadO := loadElectricDipoleDB (Some 0%R) (Some 1%R) omul odiv oopp ow3 ow6 (fun z => Some (sqrtZ z)) orad asis sti stf ostd (Some 1%R).
Definition dipoleO (c : cache oR) (a b : state1) : res oR :=
  snd (getElectricMultipole (Some 0%R) (Some 1%R) omul oopp ow3 ow6 (fun z => Some (sqrtZ z)) orad asis (Some 1%R) c a b 1 1).
Definition lineSS : list string := ["60"; "0"; "0.5"; "61"; "0"; "0.5"; "7"]%string.
Theorem C101_forbidden_refuted : exists c', loadO (newCache false (Dbf [] None)) [lineSS] "Rb" = (c', Ok tt) /\
  selMultipole (sRb 60 0 1 1) (sRb 61 0 1 1) 1 = Ok false /\
  dipoleO c' (sRb 60 0 1 1) (sRb 61 0 1 1) = Ok None /\
  dipoleO (newCache false (Dbf [] None)) (sRb 60 0 1 1) (sRb 61 0 1 1) = Ok (Some 0%R).
Proof.
  assert (Z3 : W3j 0 2 0 0 0 0 = 0%R) by reflexivity.
  eexists. split; [reflexivity|]. split; [reflexivity|]. split.
  - unfold dipoleO. cbn -[W3j W6j odiv omul sqrtZ comS_val mul_val angular_val sgn]. 
    assert (M0 : exists q, mul_val (Some 1%R) omul oopp ow3 (fun z => Some (sqrtZ z)) 1 0 0 = Some (q * 0)%R).
    { unfold mul_val, ow3. change (2 * 0) with 0. change (2 * 1) with 2. rewrite Z3. cbn -[sqrtZ]. eexists. reflexivity. }
    destruct M0 as (q & M0). rewrite M0.
    assert (N : forall x y, odiv x (omul y (Some (q * 0)%R)) = None).
    { intros [x|] [y|]; cbn; try reflexivity. destruct (Req_EM_T (y * (q * 0)) 0) as [_|Q]; [reflexivity|]. exfalso. apply Q. ring. }
    rewrite N. reflexivity.
  - unfold dipoleO. cbn -[W3j W6j odiv omul sqrtZ comS_val mul_val angular_val sgn].
    assert (M0 : exists q, mul_val (Some 1%R) omul oopp ow3 (fun z => Some (sqrtZ z)) 1 0 0 = Some (q * 0)%R).
    { unfold mul_val, ow3. change (2 * 0) with 0. change (2 * 1) with 2. rewrite Z3. cbn -[sqrtZ]. eexists. reflexivity. }
    destruct M0 as (q & M0). rewrite M0.
    assert (C : exists x, comS_val (Some 0%R) (Some 1%R) omul oopp ow6 (fun z : Z => Some (sqrtZ z)) 1 1 0 0 1 1 = Some x) by (unfold comS_val; destruct (triS _ _ _ _ _ _); eexists; reflexivity).
    destruct C as (x & ->).
    assert (A : exists y, angular_val (Some 1%R) omul oopp ow3 1 1 1 1 1 = Some y) by (eexists; reflexivity). destruct A as (y & ->).
    cbn. do 2 f_equal. ring.
Qed.
Print Assumptions C101_forbidden_refuted.

(** hypotheses of C101_others: a loaded line, then requests of the listed and of another transition with a database file (integers, all symbols 1) *)
Definition z6 (_ _ _ _ _ _ : Z) : Z := 1.
Definition z1 (_ : Z) : Z := 1.
Definition zr : string -> Z -> string -> Z -> Z -> Z -> Z -> Z -> Z -> Z -> res Z := fun _ _ _ _ _ _ _ _ _ _ => Ok 100.
Definition zstd (s : string) : parsed Z := if String.eqb s "7" then Num 7 else Invalid.
Example C101_others_nonvacuous :
  let h := [Load Z [header; lineSP] "Rb"; Call (EMultipole Z S12 P32 1 1); Call (EMultipole Z S12 (sRb 61 1 3 1) 1 1)] in
  let run := runD 0 1 Z.mul Z.div Z.opp z6 z6 z1 zr asis sti stf zstd 1 Z.add (fun _ _ => false) 1 1 1 1 z1 z1 in
  let multi := getElectricMultipole 0 1 Z.mul Z.opp z6 z6 z1 zr asis 1 in
  (forall x, In x h -> steady 0 1 Z.mul Z.opp z6 z6 z1 zr EmptyString 0 x) /\
  (forall x, In x h -> ~ mentions (parse sti stf zstd) x S12 (sRb 61 1 3 1)) /\
  let c := run (Cache [] [] 0 EmptyString true (Dbf [] None)) h in
  snd (multi c S12 P32 1 1) = Ok 7 /\ snd (multi c S12 (sRb 61 1 3 1) 1 1) = Ok (-100) /\
  filter is_rad (map fst (committed (file c))) = [KRad 0 "Rb" 1 60 61 0 1 1 3].
Proof.
  cbv zeta. split; [|split]. 3:{ vm_compute. repeat split. }
  - intros x [<-|[<-|[<-|[]]]]; exact I.
  - intros x [<-|[<-|[<-|[]]]] (lines & E & tk & e & It & P & L); try discriminate E. injection E as <-. destruct It as [<-|[<-|[]]]; [discriminate P|]. vm_compute in P. injection P as <-.
    destruct L as [((A & _) & B & _)|((A & _) & B & _)]; cbn in A, B; discriminate.
Qed.
