From Coq Require Import ZArith Bool String Ascii List Lia Permutation.
Import ListNotations.
From Verif Require Import Base StateModel MEModel MESpec MEProofs DipoleModel DipoleSpec DipoleProofs DipoleProofs2.
Local Open Scope Z_scope.
Set Implicit Arguments.

Section P.
  Variable V : Type.
  Variables (v0 v1 : V) (vadd vmul vdiv : V -> V -> V) (vopp : V -> V).
  Variables (w3j w6j : Z -> Z -> Z -> Z -> Z -> Z -> V).
  Variable sqrtZ : Z -> V.
  Variable radial : string -> Z -> string -> Z -> Z -> Z -> Z -> Z -> Z -> Z -> res V.
  Variable order : list ckey -> list ckey.
  Variables (stoi stof : string -> parsed Z) (stod : string -> parsed V).
  Variable au2um : V.
  Variables (rehashed : rows V -> rows V -> bool) (e_charge minus_muB gL gS : V) (sqrtSpin sqrtL : Z -> V).
  Hypothesis OP : forall l, Permutation (order l) l.
  Notation calcX := (calc v0 v1 vmul vopp w3j w6j sqrtZ radial).
  Notation updateX := (update v0 v1 vmul vopp w3j w6j sqrtZ radial order).
  Notation loadX := (loadElectricDipoleDB v0 v1 vmul vdiv vopp w3j w6j sqrtZ radial order stoi stof stod au2um).
  Notation readX := (read vmul stoi stof stod au2um).
  Notation parseX := (parse stoi stof stod).
  Notation stepX := (stepE v0 v1 vadd vmul vopp w3j w6j sqrtZ radial order rehashed e_charge minus_muB gL gS sqrtSpin sqrtL).
  Notation runDX := (runD v0 v1 vmul vdiv vopp w3j w6j sqrtZ radial order stoi stof stod au2um vadd rehashed e_charge minus_muB gL gS sqrtSpin sqrtL).
  Notation gem := (getElectricMultipole v0 v1 vmul vopp w3j w6j sqrtZ radial order e_charge).
  Notation gmd := (getMagneticDipole v0 v1 vadd vmul vopp w3j w6j sqrtZ radial order minus_muB gL gS sqrtSpin sqrtL).
  Notation grd := (getRadial v0 v1 vmul vopp w3j w6j sqrtZ radial order rehashed).

  (** *** When loading succeeds *)
  Lemma update_ang_ok : forall c, (forall k, In k (missing c) -> is_rad k = false) -> (usedb c = true -> open_tx (file c) = None) -> exists c' b, updateX c = (c', Ok b).
  Proof.
    intros c NR Cl. unfold update. destruct (missing c) as [|k0 ms0] eqn:Em; [eauto|]. rewrite <- Em in *. clear Em.
    assert (LM : forall (d : dbfile V) ms m, (forall k, In k ms -> is_rad k = false) -> forall k, In k (snd (load d m ms)) -> is_rad k = false).
    { intros d. induction ms as [|k9 ms IH]; intros m HH k J; cbn [load] in J; [destruct J|]. destruct (dbget d k9); [apply (IH _ (fun k Jk => HH k (or_intror Jk)) k J)|].
      destruct (load d m ms) as [m9 l9] eqn:L9. cbn [snd] in J. destruct J as [<-|J]; [apply HH; left; reflexivity|]. apply (IH m (fun k Jk => HH k (or_intror Jk)) k). rewrite L9. exact J. }
    assert (FA : forall dn mth u ms (d : dbfile V) m, (forall k, In k ms -> is_rad k = false) -> exists d' m', fill v0 v1 vmul vopp w3j w6j sqrtZ radial dn mth u d m ms = (d', m', Ok tt)).
    { intros dn mth u. induction ms as [|k9 ms IH]; intros d m HH; cbn [fill]; [eauto|]. assert (A9 : is_rad k9 = false) by (apply HH; left; reflexivity).
      destruct k9; try discriminate A9; cbn [calc]; apply IH; intros; apply HH; right; assumption. }
    pose proof (LM (file c) (missing c) (mem c) NR) as L1.
    set (ld := if usedb c then load (file c) (mem c) (missing c) else (mem c, missing c)).
    assert (L2 : forall k, In k (snd ld) -> is_rad k = false) by (unfold ld; destruct (usedb c); [exact L1|exact NR]).
    clearbody ld. destruct ld as [m1 ms1]. cbn [snd] in L2.
    assert (O0 : (if usedb c then open_tx (file c) else None) = None) by (destruct (usedb c); [apply Cl; reflexivity|reflexivity]). rewrite O0.
    destruct (FA (ddb c) (method c) (usedb c) (order (filter is_rad ms1)) (if usedb c then Dbf (committed (file c)) (Some []) else file c) m1) as (d1 & mm1 & F1).
    { intros k J. apply (Permutation_in k (OP _)) in J. apply filter_In in J. apply L2, J. }
    rewrite F1.
    destruct (FA (ddb c) (method c) (usedb c) (order (filter (fun k => negb (is_rad k)) ms1)) d1 mm1) as (d2 & mm2 & F2).
    { intros k J. apply (Permutation_in k (OP _)) in J. apply filter_In in J. apply L2, J. }
    rewrite F2. eauto.
  Qed.
  (** a line that is used or skipped *)
  Definition harmless (tk : list string) : Prop := (exists e, parseX tk = Good e) \/ parseX tk = Skip _.
  Lemma read_ok : forall sp s lines c, (forall tk, In tk lines -> harmless tk) -> (forall k, In k (missing c) -> is_rad k = false) ->
    exists c1 kvs, readX sp s c lines = (c1, Ok kvs) /\ (forall k, In k (missing c1) -> is_rad k = false).
  Proof.
    intros sp s. induction lines as [|tk lines IH]; intros c H M; cbn [read]; [eauto|].
    assert (Ht : harmless tk) by (apply H; left; reflexivity). destruct Ht as [(e & ->)| ->].
    - destruct (use vmul au2um sp s c e) as [c2 kv] eqn:U. unfold use in U. injection U as <- <-.
      destruct (ang_keys s 1 (el1 e) (el2 e) (ej1 e) (ej2 e)) as [A3 A4].
      edestruct IH as (c1 & kvs & E & K); [intros; apply H; right; eassumption| |rewrite E; eauto].
      intros k J. cbn [missing pend] in J. apply (@sput_in V v0 vadd vmul vopp) in J. destruct J as [->|J]; [exact A4|]. apply (@sput_in V v0 vadd vmul vopp) in J. destruct J as [->|J]; [exact A3|apply M; exact J].
    - apply IH; [intros; apply H; right; assumption|exact M].
  Qed.
  Lemma load_ok : forall c lines sp s, species_spin sp = Ok s -> missing c = [] -> (usedb c = true -> open_tx (file c) = None) ->
    (forall tk, In tk lines -> harmless tk) -> snd (loadX c lines sp) = Ok tt.
  Proof.
    intros c lines sp s Sp Mi Cl H. unfold loadElectricDipoleDB. rewrite Sp. destruct (@read_ok sp s lines c H) as (c1 & kvs & E & K); [rewrite Mi; intros k []|]. rewrite E.
    destruct (@read_keeps V v0 vadd vmul vopp stoi stof stod au2um _ _ _ _ _ _ E) as (A & B & (C & D & F) & _).
    destruct (@update_ang_ok c1 K) as (c2 & b & U); [rewrite B, F; exact Cl|]. rewrite U. reflexivity.
  Qed.
  (** the first line that is neither decides *)
  Lemma read_bad : forall sp s tk post pre c, (forall t, In t pre -> harmless t) ->
    (parseX tk = Raise _ -> snd (readX sp s c (pre ++ tk :: post)) = Throw) /\ (parseX tk = Undefined _ -> snd (readX sp s c (pre ++ tk :: post)) = UB).
  Proof.
    intros sp s tk post. induction pre as [|t pre IH]; intros c H; cbn [app read].
    - split; intros ->; reflexivity.
    - assert (Ht : harmless t) by (apply H; left; reflexivity). destruct Ht as [(e & ->)| ->]; [|apply IH; intros; apply H; right; assumption].
      destruct (use vmul au2um sp s c e) as [c2 kv]. destruct (IH c2) as [A B]; [intros; apply H; right; assumption|].
      destruct (readX sp s c2 (pre ++ tk :: post)) as [c3 r3]. cbn [snd] in *. split; intros Q; [rewrite (A Q)|rewrite (B Q)]; reflexivity.
  Qed.
  Lemma load_bad : forall c pre tk post sp, sp <> EmptyString -> (forall t, In t pre -> harmless t) ->
    (parseX tk = Raise _ -> snd (loadX c (pre ++ tk :: post) sp) = Throw /\ mem (fst (loadX c (pre ++ tk :: post) sp)) = mem c) /\
    (parseX tk = Undefined _ -> snd (loadX c (pre ++ tk :: post) sp) = UB).
  Proof.
    intros c pre tk post sp Ns H. assert (exists s, species_spin sp = Ok s) as (s & Sp).
    { unfold species_spin. destruct (str_last sp) eqn:E; [eauto|]. destruct sp as [|x sp]; [congruence|]. exfalso. clear - E. revert x E. induction sp as [|y sp IH]; intros x E; [discriminate E|]. exact (IH y E). }
    unfold loadElectricDipoleDB. rewrite Sp. destruct (@read_bad sp s tk post pre c H) as [A B].
    destruct (readX sp s c (pre ++ tk :: post)) as [c1 r1] eqn:R. destruct (@read_keeps V v0 vadd vmul vopp stoi stof stod au2um _ _ _ _ _ _ R) as (M & _). cbn [snd] in *.
    split; intros Q; [rewrite (A Q); split; [reflexivity|exact M]|rewrite (B Q); reflexivity].
  Qed.

  (** *** Elements that no file mentions *)
  Section Others.
    Variables (dn : string) (m : Z).
    Definition PF (k : ckey) (v : V) : Prop := kmeth m k = m -> calcX dn m k = Ok v.
    Definition loaded (h : list (call V)) (k : ckey) : Prop :=
      exists lines sp tk e, In (Load V lines sp) h /\ In tk lines /\ parseX tk = Good e /\ k = ekey m sp e.
    Definition PM (h : list (call V)) (k : ckey) (v : V) : Prop := loaded h k \/ PF k v.
    Definition quiet (x : call V) : Prop :=
      match x with Call (ESetMethod _ _) | Call (ESetDefect _ _) | Call (ERestart _) => False | Call (EExtern new) => okrows PF new | _ => True end.
    Lemma run_others : forall H h c, incl h H -> inv (PM H) PF false c -> method c = m -> ddb c = dn -> (forall x, In x h -> quiet x) ->
      let c' := runDX c h in inv (PM H) PF false c' /\ sets c c'.
    Proof.
      intros H. assert (SUB : forall k v, PF k v -> PM H k v) by (intros; right; assumption).
      induction h as [|x h IH]; intros c Inc I M D Q; cbn [runD]; [split; [exact I|repeat split]|].
      assert (G : good v0 v1 vmul vopp w3j w6j sqrtZ radial PF c) by (intros k v E _; rewrite M, D in E; exact E).
      assert (Qx : quiet x) by (apply Q; left; reflexivity).
      match goal with |- context [runDX ?c1 h] => assert (St : inv (PM H) PF false c1 /\ sets c c1) end.
      { destruct x as [e|lines sp]; cbn [stepD fst].
        - destruct e as [a b kr ka|a b|a b k|basis ka q kr el mag rad|mm|p|new|]; cbn [stepE]; try destruct Qx.
          + destruct (@multipole_step V v0 v1 vadd vmul vopp w3j w6j sqrtZ radial order e_charge (PM H) PF false SUB c a b kr ka I G) as (A & _ & B). destruct (gem c a b kr ka). auto.
          + destruct (@magnetic_step V v0 v1 vadd vmul vopp w3j w6j sqrtZ radial order minus_muB gL gS sqrtSpin sqrtL (PM H) PF false SUB c a b I G) as (A & _ & B). destruct (gmd c a b). auto.
          + destruct (@radial_step V v0 v1 vadd vmul vopp w3j w6j sqrtZ radial order rehashed (PM H) PF false SUB c a b k I G) as (A & _ & B). destruct (grd c a b k). auto.
          + destruct (@pre_step V v0 v1 vmul vopp w3j w6j sqrtZ radial (PM H) PF false c basis ka q kr el mag rad I G) as (A & _ & B). auto.
          + split; [apply extern_step; [exact I|exact Qx]|repeat split].
        - apply (@load_inv V v0 v1 vadd vmul vdiv vopp w3j w6j sqrtZ radial order stoi stof stod au2um (PM H) PF false SUB c lines sp I G).
          intros tk e v T1 T2. left. exists lines, sp, tk, e. split; [apply Inc; left; reflexivity|]. split; [exact T1|]. split; [exact T2|]. rewrite M. reflexivity. }
      destruct St as (I1 & (S1 & S2 & S3)). destruct (IH _ (fun y Y => Inc y (or_intror Y)) I1) as (I2 & (S4 & S5 & S6)); [congruence|congruence|intros y Y; apply Q; right; exact Y|].
      split; [exact I2|]. unfold sets, DipoleProofs.sets. rewrite S4, S5, S6, S1, S2, S3. auto.
    Qed.

    Lemma not_loaded : forall h a b kr, (kr = 1 -> forall x, In x h -> ~ mentions parseX x a b) -> ~ loaded h (skey m a b kr).
    Proof.
      intros h a b kr N (lines & sp & tk & e & A & B & C & D). symmetry in D. apply listed_ekey in D. destruct D as (E & -> & L).
      apply (N E _ A). exists lines. split; [reflexivity|]. exists tk, e. auto.
    Qed.
    Lemma loaded_rad : forall h k, loaded h k -> is_rad k = true.
    Proof. intros h k (lines & sp & tk & e & _ & _ & _ & ->). unfold ekey, mkRad. destruct (_ || _); reflexivity. Qed.
    Lemma row_calc : forall h k v, PM h k v -> ~ loaded h k -> kmeth m k = m -> calcX dn m k = Ok v.
    Proof. intros h k v [L|P] N K; [contradiction|exact (P K)]. Qed.
    Lemma ang_calc : forall h k v, PM h k v -> is_rad k = false -> calcX dn m k = Ok v.
    Proof. intros h k v [L|P] A; [apply loaded_rad in L; congruence|apply P; destruct k; try reflexivity; discriminate]. Qed.

    Section Query.
      Variable H : list (call V).
      Variable c : cache V.
      Hypothesis I : inv (PM H) PF false c.
      Hypothesis M : method c = m.
      Hypothesis D : ddb c = dn.
      Let SUB : forall k v, PF k v -> PM H k v := fun k v P => or_intror P.
      Let G : good v0 v1 vmul vopp w3j w6j sqrtZ radial PF c.
      Proof. intros k v E _. rewrite M, D in E. exact E. Qed.

      Lemma gem_others : forall a b kr ka v, ~ loaded H (skey m a b kr) -> snd (gem c a b kr ka) = Ok v -> snd (gem (fresh V dn m) a b kr ka) = Ok v.
      Proof.
        intros a b kr ka v NL E. apply (@gem_fresh V v0 v1 vadd vmul vopp w3j w6j sqrtZ radial order e_charge OP). unfold dir_multipole. unfold getElectricMultipole in E.
        destruct (artificial_or_mixed a b); [discriminate E|].
        assert (A2 : is_rad (fst (mkAng ka (j2 a) (j2 b) (m2 a) (m2 b))) = false) by (unfold mkAng; destruct (_ || _); reflexivity).
        destruct (ang_keys (s2 a) ka (l a) (l b) (j2 a) (j2 b)) as [A3 A4].
        destruct (mkAng ka (j2 a) (j2 b) (m2 a) (m2 b)) as [k2 g2]. destruct (mkComS (s2 a) ka (l a) (l b) (j2 a) (j2 b)) as [k3 g3]. destruct (mkMul ka (l a) (l b)) as [k4 g4]. cbn [fst] in A2, A3, A4.
        rewrite M in E. change (mkRad m (species a) kr (n a) (n b) (l a) (l b) (j2 a) (j2 b)) with (skey m a b kr) in *. set (k1 := skey m a b kr) in *.
        change (note (note (note (note c k1) k2) k3) k4) with (notes c [k1; k2; k3; k4]) in E.
        destruct (updateX (notes c [k1; k2; k3; k4])) as [c' rr] eqn:U. destruct (@request_step V v0 v1 vadd vmul vopp w3j w6j sqrtZ radial order (PM H) PF false SUB _ _ _ _ U I G) as ((OM & _) & _).
        destruct rr as [b0| |]; cbn [snd] in E; try discriminate. unfold deref in E.
        destruct (rget (mem c') k1) as [r|] eqn:R1; [|discriminate E]. cbn [bind] in E. destruct (rget (mem c') k2) as [x|] eqn:R2; [|discriminate E]. cbn [bind] in E.
        destruct (rget (mem c') k3) as [y|] eqn:R3; [|discriminate E]. cbn [bind] in E. destruct (rget (mem c') k4) as [z|] eqn:R4; [|discriminate E]. cbn [bind] in E.
        rewrite (row_calc (OM _ _ R1) NL (kmeth_mkRad _ _ _ _ _ _ _ _ _ _)), (ang_calc (OM _ _ R2) A2), (ang_calc (OM _ _ R3) A3), (ang_calc (OM _ _ R4) A4). exact E.
      Qed.
      Lemma gmd_others : forall a b v, snd (gmd c a b) = Ok v -> snd (gmd (fresh V dn m) a b) = Ok v.
      Proof.
        intros a b v E. assert (NL : ~ loaded H (skey m a b 0)) by (apply not_loaded; intros Q; discriminate Q).
        apply (@gmd_fresh V v0 v1 vadd vmul vopp w3j w6j sqrtZ radial order minus_muB gL gS sqrtSpin sqrtL OP). unfold dir_magnetic. unfold getMagneticDipole in E.
        destruct (artificial_or_mixed a b); [discriminate E|].
        assert (A2 : is_rad (fst (mkAng 1 (j2 a) (j2 b) (m2 a) (m2 b))) = false) by (unfold mkAng; destruct (_ || _); reflexivity).
        destruct (ang_keys (s2 a) 1 (l a) (l b) (j2 a) (j2 b)) as [A3 _].
        assert (A4 : is_rad (fst (mkComL (s2 a) 1 (l a) (l b) (j2 a) (j2 b))) = false) by (unfold mkComL; destruct (swapCom _ _ _ _); reflexivity).
        destruct (mkAng 1 (j2 a) (j2 b) (m2 a) (m2 b)) as [k2 g2]. destruct (mkComS (s2 a) 1 (l a) (l b) (j2 a) (j2 b)) as [k3 g3]. destruct (mkComL (s2 a) 1 (l a) (l b) (j2 a) (j2 b)) as [k4 g4]. cbn [fst] in A2, A3, A4.
        rewrite M in E. change (mkRad m (species a) 0 (n a) (n b) (l a) (l b) (j2 a) (j2 b)) with (skey m a b 0) in *. set (k1 := skey m a b 0) in *.
        change (note (note (note (note c k1) k2) k3) k4) with (notes c [k1; k2; k3; k4]) in E.
        destruct (updateX (notes c [k1; k2; k3; k4])) as [c' rr] eqn:U. destruct (@request_step V v0 v1 vadd vmul vopp w3j w6j sqrtZ radial order (PM H) PF false SUB _ _ _ _ U I G) as ((OM & _) & _).
        destruct rr as [b0| |]; cbn [snd] in E; try discriminate. unfold deref in E.
        destruct (rget (mem c') k1) as [r|] eqn:R1; [|discriminate E]. cbn [bind] in E. destruct (rget (mem c') k2) as [x|] eqn:R2; [|discriminate E]. cbn [bind] in E.
        destruct (rget (mem c') k3) as [y|] eqn:R3; [|discriminate E]. cbn [bind] in E. destruct (rget (mem c') k4) as [z|] eqn:R4; [|discriminate E]. cbn [bind] in E.
        rewrite (row_calc (OM _ _ R1) NL (kmeth_mkRad _ _ _ _ _ _ _ _ _ _)), (ang_calc (OM _ _ R2) A2), (ang_calc (OM _ _ R3) A3), (ang_calc (OM _ _ R4) A4). exact E.
      Qed.
    End Query.
  End Others.
End P.
