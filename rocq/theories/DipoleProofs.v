From Coq Require Import ZArith Bool String Ascii List Lia Permutation.
Import ListNotations.
From Verif Require Import Base StateModel MEModel MESpec MEProofs DipoleModel.
Local Open Scope Z_scope.
Set Implicit Arguments.

Section P.
  Variable V : Type.
  Variables (v0 v1 : V) (vadd vmul vdiv : V -> V -> V) (vopp : V -> V).
  Variables (w3j w6j : Z -> Z -> Z -> Z -> Z -> Z -> V).
  Variable sqrtZ : Z -> V.
  Variable radial : string -> Z -> string -> Z -> Z -> Z -> Z -> Z -> Z -> Z -> res V.
  Variable order : list ckey -> list ckey.
  Variables (stoi stof : string -> parsed Z) (stod : string -> parsed V).
  Variable au2um : V.
  Variables (rehashed : rows V -> rows V -> bool) (e_charge minus_muB gL gS : V) (sqrtSpin sqrtL : Z -> V).
  Notation calcX := (calc v0 v1 vmul vopp w3j w6j sqrtZ radial).
  Notation fillX := (fill v0 v1 vmul vopp w3j w6j sqrtZ radial).
  Notation updateX := (update v0 v1 vmul vopp w3j w6j sqrtZ radial order).
  Notation stepX := (stepE v0 v1 vadd vmul vopp w3j w6j sqrtZ radial order rehashed e_charge minus_muB gL gS sqrtSpin sqrtL).
  Notation loadX := (loadElectricDipoleDB v0 v1 vmul vdiv vopp w3j w6j sqrtZ radial order stoi stof stod au2um).
  Notation readX := (read vmul stoi stof stod au2um).
  Notation stepDX := (stepD v0 v1 vmul vdiv vopp w3j w6j sqrtZ radial order stoi stof stod au2um vadd rehashed e_charge minus_muB gL gS sqrtSpin sqrtL).
  Notation runDX := (runD v0 v1 vmul vdiv vopp w3j w6j sqrtZ radial order stoi stof stod au2um vadd rehashed e_charge minus_muB gL gS sqrtSpin sqrtL).

  Definition grow (m m' : rows V) : Prop := forall k v, rget m k = Some v -> rget m' k = Some v.
  Lemma grow_refl : forall m, grow m m. Proof. intros m k v H. exact H. Qed.
  Lemma grow_trans : forall a b c, grow a b -> grow b c -> grow a c. Proof. intros a b c H K k v E. apply K, H, E. Qed.

  (** what rows in memory and rows in the file satisfy *)
  Section Inv.
    Variables (PM PF : ckey -> V -> Prop) (fl : bool).
    Hypothesis sub : forall k v, PF k v -> PM k v.
    Definition okrows (P : ckey -> V -> Prop) (r : rows V) : Prop := forall k v, rget r k = Some v -> P k v.
    Definition okfile (d : dbfile V) : Prop := okrows PF (committed d) /\ forall t, open_tx d = Some t -> okrows PF t.
    Definition inv (c : cache V) : Prop := okrows PM (mem c) /\ (fl || usedb c = true -> okfile (file c)).
    Definition good (c : cache V) : Prop := forall k v, calcX (ddb c) (method c) k = Ok v -> PF k v.

    Lemma ok_rput : forall P r k v, okrows P r -> P k v -> okrows P (rput r k v) /\ grow r (rput r k v) /\ exists x, rget (rput r k v) k = Some x.
    Proof.
      intros P r k v H K. unfold rput. destruct (rget r k) as [x|] eqn:E.
      - split; [exact H|]. split; [apply grow_refl|]. eauto.
      - split; [|split].
        + intros k' v' E'. cbn [rget] in E'. destruct (ckey_eqb k k') eqn:Q; [|apply (H k'); assumption]. apply ckey_eqb_eq in Q. subst k'. injection E' as <-. auto.
        + intros k' v' E'. cbn [rget]. destruct (ckey_eqb k k') eqn:Q; [|exact E']. apply ckey_eqb_eq in Q. subst k'. congruence.
        + exists v. cbn [rget]. rewrite ckey_eqb_refl. reflexivity.
    Qed.
    Lemma ok_dbget : forall d k v, okfile d -> dbget d k = Some v -> PF k v.
    Proof.
      intros d k v [C T] H. unfold dbget in H. destruct (open_tx d) as [t|] eqn:E; [|apply (C k); assumption].
      destruct (rget t k) as [x|] eqn:F; [|apply (C k); assumption]. injection H as <-. apply (T t eq_refl k); assumption.
    Qed.
    Lemma load_step : forall d ms m m' left, load d m ms = (m', left) -> okfile d -> okrows PM m ->
      okrows PM m' /\ grow m m' /\ (forall k, In k ms -> In k left \/ exists v, rget m' k = Some v).
    Proof.
      intros d. induction ms as [|k ms IH]; intros m m' left H D M; cbn [load] in H.
      - injection H as <- <-. split; [exact M|]. split; [apply grow_refl|]. intros k [].
      - destruct (dbget d k) as [v|] eqn:E.
        + destruct (@ok_rput PM m k v M (sub (@ok_dbget d k v D E))) as (O & G & (x & X)). destruct (IH _ _ _ H D O) as (O' & G' & S').
          split; [exact O'|]. split; [eapply grow_trans; eauto|]. intros k' [<-|I]; auto. right. exists x. apply G'. exact X.
        + destruct (load d m ms) as [m1 l1] eqn:L. injection H as <- <-. destruct (IH _ _ _ L D M) as (O' & G' & S').
          split; [exact O'|]. split; [exact G'|]. intros k' [<-|I]; [left; left; reflexivity|]. destruct (S' k' I); auto. left. right. assumption.
    Qed.
    Lemma ok_txput : forall u d k v, okfile d -> PF k v -> okfile (txput u d k v).
    Proof.
      intros u d k v D K. unfold txput. destruct u; [|exact D]. destruct (open_tx d) as [t|] eqn:E; [|exact D].
      destruct D as [C T]. split; [exact C|]. cbn [open_tx]. intros t' Ht. injection Ht as <-. destruct (rget (committed d) k); [apply T; assumption|]. apply ok_rput; [apply T; assumption|exact K].
    Qed.
    Lemma fill_step : forall dn mth u ms d m d' m' r, fillX dn mth u d m ms = (d', m', r) -> (forall k v, calcX dn mth k = Ok v -> PF k v) ->
      (fl || u = true -> okfile d) -> okrows PM m ->
      (fl || u = true -> okfile d') /\ okrows PM m' /\ grow m m' /\ (r = Ok tt -> forall k, In k ms -> exists v, rget m' k = Some v).
    Proof.
      intros dn mth u. induction ms as [|k ms IH]; intros d m d' m' r H G0 D M; cbn [fill] in H.
      - injection H as <- <- <-. split; [exact D|]. split; [exact M|]. split; [apply grow_refl|]. intros _ k [].
      - destruct (calcX dn mth k) as [v| |] eqn:E.
        + pose proof (G0 k v E) as K.
          destruct (@ok_rput PM m k v M (sub K)) as (O & G & (x & X)). destruct (IH _ _ _ _ _ H G0 (fun U => @ok_txput u d k v (D U) K) O) as (D' & O' & G' & S').
          split; [exact D'|]. split; [exact O'|]. split; [eapply grow_trans; eauto|]. intros R k' [<-|I]; [exists x; apply G'; exact X|apply S'; assumption].
        + injection H as <- <- <-. split; [exact D|]. split; [exact M|]. split; [apply grow_refl|]. intros; discriminate.
        + injection H as <- <- <-. split; [exact D|]. split; [exact M|]. split; [apply grow_refl|]. intros; discriminate.
    Qed.
    Definition sets (c c' : cache V) : Prop := method c' = method c /\ ddb c' = ddb c /\ usedb c' = usedb c.
    Lemma update_step : forall c c' r, updateX c = (c', r) -> inv c -> good c ->
      inv c' /\ grow (mem c) (mem c') /\ sets c c' /\
      ((forall l, Permutation (order l) l) -> forall b, r = Ok b -> missing c' = [] /\ forall k, In k (missing c) -> exists v, rget (mem c') k = Some v).
    Proof.
      intros c c' r H [M F] G0. unfold update in H. destruct (missing c) as [|k0 ms0] eqn:Em.
      { injection H as <- <-. split; [split; assumption|]. split; [apply grow_refl|]. split; [repeat split|]. intros _ b _. split; [exact Em|]. intros k []. }
      rewrite <- Em in *. clear Em k0 ms0.
      destruct (if usedb c then load (file c) (mem c) (missing c) else (mem c, missing c)) as [m1 ms1] eqn:L.
      assert (L' : okrows PM m1 /\ grow (mem c) m1 /\ (forall k, In k (missing c) -> In k ms1 \/ exists v, rget m1 k = Some v)).
      { destruct (usedb c); [apply (@load_step _ _ _ _ _ L (F (orb_true_r _)) M)|]. injection L as <- <-. split; [exact M|]. split; [apply grow_refl|]. auto. }
      clear L. destruct L' as (O1 & G1 & S1).
      destruct (if usedb c then open_tx (file c) else None).
      { injection H as <- <-. split; [split; assumption|]. split; [exact G1|]. split; [repeat split|]. intros; discriminate. }
      set (d0 := if usedb c then Dbf (committed (file c)) (Some []) else file c) in *.
      assert (D0 : fl || usedb c = true -> okfile d0).
      { intros U. specialize (F U). unfold d0. destruct (usedb c); [|exact F]. split; [exact (proj1 F)|]. intros t Ht. cbn in Ht. injection Ht as <-. intros k v E. discriminate E. }
      destruct (fillX (ddb c) (method c) (usedb c) d0 m1 (order (filter is_rad ms1))) as [[d1 m2] r1] eqn:F1.
      destruct (@fill_step _ _ _ _ _ _ _ _ _ F1 G0 D0 O1) as (D1 & O2 & G2 & S2).
      destruct r1 as [[]| |].
      2, 3: injection H as <- <-; split; [split; assumption|]; split; [eapply grow_trans; eauto|]; split; [repeat split|]; intros; discriminate.
      destruct (fillX (ddb c) (method c) (usedb c) d1 m2 (order (filter (fun k => negb (is_rad k)) ms1))) as [[d2 m3] r2] eqn:F2.
      destruct (@fill_step _ _ _ _ _ _ _ _ _ F2 G0 D1 O2) as (D2 & O3 & G3 & S3).
      assert (G : grow (mem c) m3) by (eapply grow_trans; [exact G1|]; eapply grow_trans; eauto).
      destruct r2 as [[]| |].
      2, 3: injection H as <- <-; split; [split; assumption|]; split; [exact G|]; split; [repeat split|]; intros; discriminate.
      injection H as <- <-. split; [|split; [exact G|split; [repeat split|]]].
      - split; [exact O3|]. cbn [file usedb]. intros U. specialize (D2 U). destruct (usedb c); [|exact D2]. destruct (open_tx d2) as [t|] eqn:Et; [|exact D2]. destruct D2 as [C2 T2]. split; cbn [committed open_tx]; [|intros; discriminate].
        intros k v E. rewrite rget_app in E. destruct (rget t k) as [x|] eqn:Ex; [injection E as <-; apply (T2 t Et k); assumption|apply (C2 k); assumption].
      - intros P b _. split; [reflexivity|]. cbn [mem]. intros k I. destruct (S1 k I) as [I1|(v & E)]; [|exists v; apply G3, G2, E].
        destruct (is_rad k) eqn:A.
        + destruct (S2 eq_refl k) as (v & E); [|exists v; apply G3, E]. apply (Permutation_in k (Permutation_sym (P _))). apply filter_In. auto.
        + apply (S3 eq_refl k). apply (Permutation_in k (Permutation_sym (P _))). apply filter_In. rewrite A. auto.
    Qed.

    (** *** Requests *)
    Lemma notes_inv : forall ks c, inv c -> good c -> let c' := notes c ks in inv c' /\ good c' /\ mem c' = mem c /\ sets c c'.
    Proof.
      intros ks c [I1 I2] G c'. destruct (notes_fields ks c) as (E1 & E2 & E3 & E4 & E5). fold c' in E1, E2, E3, E4, E5. clearbody c'.
      split; [split; [rewrite E1; exact I1|rewrite E4, E5; exact I2]|]. split; [intros k v; rewrite E2, E3; apply G|]. split; [exact E1|]. repeat split; assumption.
    Qed.
    Lemma request_step : forall c ks c' r, updateX (notes c ks) = (c', r) -> inv c -> good c ->
      inv c' /\ grow (mem c) (mem c') /\ sets c c' /\
      ((forall l, Permutation (order l) l) -> forall b, r = Ok b -> forall k, In k ks -> exists v, rget (mem c') k = Some v).
    Proof.
      intros c ks c' r H I G. destruct (@notes_inv ks c I G) as (I1 & G1 & E1 & S1). destruct (@update_step _ _ _ H I1 G1) as (I2 & G2 & S2 & K). rewrite E1 in G2.
      split; [exact I2|]. split; [exact G2|]. split.
      - destruct S1 as (A & B & C), S2 as (A' & B' & C'). unfold sets. rewrite A', B', C'. auto.
      - intros P b R k Ik. destruct (@notes_either V v0 vadd vmul vopp ks c k Ik) as [(x & X)|M]; [exists x; apply G2; exact X|]. apply (proj2 (K P b R)). exact M.
    Qed.
    Lemma good_sets : forall c c', sets c c' -> good c -> good c'.
    Proof. intros c c' (A & B & _) G. unfold good. rewrite A, B. exact G. Qed.

    Lemma multipole_step : forall c a b kr ka, inv c -> good c ->
      let c' := fst (getElectricMultipole v0 v1 vmul vopp w3j w6j sqrtZ radial order e_charge c a b kr ka) in
      inv c' /\ grow (mem c) (mem c') /\ sets c c'.
    Proof.
      intros c a b kr ka I G. unfold getElectricMultipole. destruct (artificial_or_mixed a b); [cbn; split; [exact I|split; [apply grow_refl|repeat split]]|].
      destruct (mkAng ka (j2 a) (j2 b) (m2 a) (m2 b)) as [k2 g2]. destruct (mkComS (s2 a) ka (l a) (l b) (j2 a) (j2 b)) as [k3 g3]. destruct (mkMul ka (l a) (l b)) as [k4 g4].
      set (k1 := mkRad _ _ _ _ _ _ _ _ _). change (note (note (note (note c k1) k2) k3) k4) with (notes c [k1; k2; k3; k4]).
      destruct (updateX (notes c [k1; k2; k3; k4])) as [c' r] eqn:U. destruct (@request_step _ _ _ _ U I G) as (A & B & C & _). destruct r; cbn [fst]; auto.
    Qed.
    Lemma magnetic_step : forall c a b, inv c -> good c ->
      let c' := fst (getMagneticDipole v0 v1 vadd vmul vopp w3j w6j sqrtZ radial order minus_muB gL gS sqrtSpin sqrtL c a b) in
      inv c' /\ grow (mem c) (mem c') /\ sets c c'.
    Proof.
      intros c a b I G. unfold getMagneticDipole. destruct (artificial_or_mixed a b); [cbn; split; [exact I|split; [apply grow_refl|repeat split]]|].
      destruct (mkAng 1 (j2 a) (j2 b) (m2 a) (m2 b)) as [k2 g2]. destruct (mkComS (s2 a) 1 (l a) (l b) (j2 a) (j2 b)) as [k3 g3]. destruct (mkComL (s2 a) 1 (l a) (l b) (j2 a) (j2 b)) as [k4 g4].
      set (k1 := mkRad _ _ _ _ _ _ _ _ _). change (note (note (note (note c k1) k2) k3) k4) with (notes c [k1; k2; k3; k4]).
      destruct (updateX (notes c [k1; k2; k3; k4])) as [c' r] eqn:U. destruct (@request_step _ _ _ _ U I G) as (A & B & C & _). destruct r; cbn [fst]; auto.
    Qed.
    Lemma radial_step : forall c a b k, inv c -> good c ->
      let c' := fst (getRadial v0 v1 vmul vopp w3j w6j sqrtZ radial order rehashed c a b k) in
      inv c' /\ grow (mem c) (mem c') /\ sets c c'.
    Proof.
      intros c a b k I G. unfold getRadial. destruct (artificial_or_mixed a b); [cbn; split; [exact I|split; [apply grow_refl|repeat split]]|].
      set (k1 := mkRad _ _ _ _ _ _ _ _ _). change (note c k1) with (notes c [k1]).
      destruct (updateX (notes c [k1])) as [c' r] eqn:U. destruct (@request_step _ _ _ _ U I G) as (A & B & C & _). destruct r; cbn [fst]; auto.
    Qed.
    Lemma pre_step : forall c basis ka q kr el mag rad, inv c -> good c ->
      let c' := precalculate c basis ka q kr el mag rad in inv c' /\ grow (mem c) (mem c') /\ sets c c'.
    Proof.
      intros c basis ka q kr el mag rad I G. unfold precalculate. destruct (filter _ basis) as [|first rest]; [split; [exact I|split; [apply grow_refl|repeat split]]|].
      set (ks := pre_cols _ _ _ _ _ _ _ _ _ _ _). change (fold_left (fun c k => note c k) ks c) with (notes c ks). destruct (@notes_inv ks c I G) as (A & B & C & D).
      cbv zeta. split; [exact A|]. split; [rewrite C; apply grow_refl|exact D].
    Qed.

    (** *** Loading *)
    Lemma read_keeps : forall sp s lines c c1 r, readX sp s c lines = (c1, r) -> mem c1 = mem c /\ file c1 = file c /\ sets c c1 /\ (forall k, In k (missing c) -> In k (missing c1)).
    Proof.
      intros sp s. induction lines as [|tk lines IH]; intros c c1 r H; cbn [read] in H.
      - injection H as <- <-. repeat split; auto.
      - destruct (parse stoi stof stod tk) as [e| | |].
        + destruct (use vmul au2um sp s c e) as [c2 kv] eqn:U. destruct (readX sp s c2 lines) as [c3 r3] eqn:R. destruct (IH _ _ _ R) as (A & B & (C & D & E) & F).
          assert (X : c1 = c3) by (destruct r3; congruence). subst c3. unfold use in U. injection U as <- <-. cbn in A, B, C, D, E, F. repeat split; auto. intros k I. apply F. apply (@sput_in V v0 vadd vmul vopp). right. apply (@sput_in V v0 vadd vmul vopp). right. exact I.
        + apply IH in H. exact H.
        + injection H as <- <-. repeat split; auto.
        + injection H as <- <-. repeat split; auto.
    Qed.
    Lemma fold_reduce_PM : forall s (kvs : list (ckey * V)) m, okrows PM m -> (forall k x v, In (k, x) kvs -> is_rad k = true -> PM k v) ->
      okrows PM (fold_left (reduce v0 v1 vmul vdiv vopp s) kvs m).
    Proof.
      intros s. induction kvs as [|[k x] kvs IH]; intros m M H; cbn [fold_left]; [exact M|].
      apply IH; [|intros; eapply H; [right; eassumption|assumption]]. unfold reduce. destruct k as [a b c d e f g h i| | | |]; cbn [fst snd]; try exact M.
      destruct (mkComS s 1 f g h i) as [k3 g3]. destruct (mkMul 1 f g) as [k4 g4]. intros k' v' E. cbn [rget] in E.
      destruct (ckey_eqb (KRad a b c d e f g h i) k') eqn:Q; [|apply (M k'); assumption]. apply ckey_eqb_eq in Q. subst k'. eapply H; [left; reflexivity|reflexivity].
    Qed.
    (** the keys a file is about *)
    Lemma read_keys : forall sp s lines c c1 kvs, readX sp s c lines = (c1, Ok kvs) -> forall k x, In (k, x) kvs ->
      exists tk e, In tk lines /\ parse stoi stof stod tk = Good e /\ k = mkRad (method c) sp 1 (en1 e) (en2 e) (el1 e) (el2 e) (ej1 e) (ej2 e).
    Proof.
      intros sp s. induction lines as [|tk lines IH]; intros c c1 kvs H k x I; cbn [read] in H.
      - injection H as <- <-. destruct I.
      - destruct (parse stoi stof stod tk) as [e| | |] eqn:P.
        + destruct (use vmul au2um sp s c e) as [c2 kv] eqn:U. destruct (readX sp s c2 lines) as [c3 [kvs3| |]] eqn:R; try discriminate. injection H as <- <-.
          assert (M : method c2 = method c) by (unfold use in U; injection U as <- <-; reflexivity).
          destruct I as [E|I].
          * exists tk, e. split; [left; reflexivity|]. split; [exact P|]. unfold use in U. injection U as <- <-. congruence.
          * destruct (IH _ _ _ R k x I) as (tk' & e' & A & B & C). exists tk', e'. split; [right; exact A|]. split; [exact B|]. rewrite <- M. exact C.
        + destruct (IH _ _ _ H k x I) as (tk' & e' & A & B & C). exists tk', e'. split; [right; exact A|]. auto.
        + discriminate.
        + discriminate.
    Qed.
    Lemma load_inv : forall c lines sp, inv c -> good c ->
      (forall tk e v, In tk lines -> parse stoi stof stod tk = Good e -> PM (mkRad (method c) sp 1 (en1 e) (en2 e) (el1 e) (el2 e) (ej1 e) (ej2 e)) v) ->
      let c' := fst (loadX c lines sp) in inv c' /\ sets c c'.
    Proof.
      intros c lines sp I G H. unfold loadElectricDipoleDB. destruct (species_spin sp) as [s| |]; [|split; [exact I|repeat split]|split; [exact I|repeat split]].
      destruct (readX sp s c lines) as [c1 r1] eqn:R. destruct (@read_keeps _ _ _ _ _ _ R) as (A & B & (C & D & E) & F).
      assert (I1 : inv c1) by (unfold inv; rewrite A, B, E; exact I). assert (G1 : good c1) by (unfold good; rewrite C, D; exact G).
      destruct r1 as [kvs| |]; [|split; [exact I1|repeat split; assumption]|split; [exact I1|repeat split; assumption]].
      destruct (updateX c1) as [c2 r2] eqn:U. destruct (@update_step _ _ _ U I1 G1) as (I2 & G2 & (C2 & D2 & E2) & K).
      assert (S2 : sets c c2) by (unfold sets; rewrite C2, D2, E2; auto).
      destruct r2 as [b| |]; [|split; [exact I2|exact S2]|split; [exact I2|exact S2]].
      cbn [fst]. split; [|exact S2]. destruct I2 as [M2 F2]. split; [|exact F2]. cbn [mem]. apply fold_reduce_PM; [exact M2|].
      intros k x v Ik _. destruct (@read_keys _ _ _ _ _ _ R k x Ik) as (tk & e & Q1 & Q2 & ->). eapply H; eauto.
    Qed.
    Lemma extern_step : forall c new, inv c -> okrows PF new ->
      inv (Cache (mem c) (missing c) (method c) (ddb c) (usedb c) (Dbf (committed (file c) ++ new) (open_tx (file c)))).
    Proof.
      intros c new [A B] N. split; [exact A|]. cbn [usedb file]. intros U. destruct (B U) as [C D]. split; [|exact D]. cbn [committed].
      intros k v E. rewrite rget_app in E. destruct (rget (committed (file c)) k) as [x|] eqn:X; [injection E as <-; apply (C k); exact X|apply (N k); exact E].
    Qed.
  End Inv.

  (** *** Angular rows are right in every history *)
  Definition PA (k : ckey) (v : V) : Prop := is_rad k = false -> calcX EmptyString 0 k = Ok v.
  Lemma calc_ang : forall k dn m dn' m', is_rad k = false -> calcX dn m k = calcX dn' m' k.
  Proof. intros [| | | |]; cbn; intros; try reflexivity. discriminate. Qed.
  Lemma good_PA : forall c, good PA c.
  Proof. intros c k v E A. rewrite <- E. apply calc_ang. exact A. Qed.
  Definition invA := inv PA PA true.
  Lemma stepE_A : forall c e, invA c -> (forall new, e = EExtern new -> okrows PA new) -> invA (fst (stepX c e)) /\ (e <> ERestart V -> grow (mem c) (mem (fst (stepX c e)))).
  Proof.
    intros c e I X. pose proof (good_PA c) as G. assert (SUB : forall k v, PA k v -> PA k v) by auto.
    destruct e as [a b kr ka|a b|a b k|basis ka q kr el mag rad|m|p|new|]; cbn [stepE].
    - destruct (@multipole_step PA PA true SUB c a b kr ka I G) as (A & B & _). destruct (getElectricMultipole _ _ _ _ _ _ _ _ _ _ c a b kr ka). auto.
    - destruct (@magnetic_step PA PA true SUB c a b I G) as (A & B & _). destruct (getMagneticDipole _ _ _ _ _ _ _ _ _ _ _ _ _ _ _ c a b). auto.
    - destruct (@radial_step PA PA true SUB c a b k I G) as (A & B & _). destruct (getRadial _ _ _ _ _ _ _ _ _ _ c a b k). auto.
    - destruct (@pre_step PA PA true c basis ka q kr el mag rad I G) as (A & B & _). auto.
    - split; [exact I|]. intros _. apply grow_refl.
    - destruct I as [A B]. split; [split; [exact A|]; intros _; apply B; reflexivity|]. intros _. apply grow_refl.
    - split; [apply extern_step; [exact I|apply X; reflexivity]|]. intros _. apply grow_refl.
    - split; [|congruence]. destruct I as [A B]. split; [intros k v E; discriminate E|]. intros _. destruct (B eq_refl) as [C _]. split; [exact C|]. cbn. intros; discriminate.
  Qed.
  Lemma stepD_A : forall c x, invA c -> (forall new, x = Call (EExtern new) -> okrows PA new) -> invA (fst (stepDX c x)).
  Proof.
    intros c [e|lines sp] I X; cbn [stepD].
    - cbn [fst]. apply stepE_A; [exact I|]. intros new E. apply X. congruence.
    - apply (@load_inv PA PA true (fun k v H => H) c lines sp I (good_PA c)). intros tk e v _ _ A. exfalso. unfold mkRad in A. destruct (_ || _); discriminate A.
  Qed.
  Lemma runD_A : forall h c, invA c -> (forall new, In (Call (EExtern new)) h -> okrows PA new) -> invA (runDX c h).
  Proof.
    induction h as [|x h IH]; intros c I X; cbn [runD]; [exact I|]. apply IH; [|intros; apply X; right; assumption]. apply stepD_A; [exact I|]. intros new ->. apply X. left. reflexivity.
  Qed.
  Lemma newCache_A : forall u f, okrows PA (committed f) -> open_tx f = None -> invA (newCache u f).
  Proof. intros u f F O. split; [intros k v E; discriminate E|]. intros _. split; [exact F|]. cbn. rewrite O. intros; discriminate. Qed.
  (** rows in memory stay until the process ends *)
  Lemma run_grow : forall h c, invA c -> (forall new, In (EExtern new) h -> okrows PA new) -> ~ In (ERestart V) h ->
    let c' := runDX c (map (@Call V) h) in invA c' /\ grow (mem c) (mem c').
  Proof.
    induction h as [|e h IH]; intros c I X NR; cbn [map runD stepD fst]; [split; [exact I|apply grow_refl]|].
    destruct (@stepE_A c e I) as (A & B); [intros new ->; apply X; left; reflexivity|]. destruct (@IH (fst (stepX c e)) A) as (C & D); [intros; apply X; right; assumption|intros Q; apply NR; right; exact Q|].
    split; [exact C|]. eapply grow_trans; [apply B; intros ->; apply NR; left; reflexivity|exact D].
  Qed.
End P.
