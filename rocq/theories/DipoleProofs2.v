From Coq Require Import ZArith Bool String Ascii List Lia Permutation.
Import ListNotations.
From Verif Require Import Base StateModel MEModel MESpec MEProofs DipoleModel DipoleSpec DipoleProofs.
Local Open Scope Z_scope.
Set Implicit Arguments.

Section P.
  Variable V : Type.
  Variables (v0 v1 : V) (vadd vmul vdiv : V -> V -> V) (vopp : V -> V).
  Variables (w3j w6j : Z -> Z -> Z -> Z -> Z -> Z -> V).
  Variable sqrtZ : Z -> V.
  Variable radial : string -> Z -> string -> Z -> Z -> Z -> Z -> Z -> Z -> Z -> res V.
  Variable order : list ckey -> list ckey.
  Variables (stoi stof : string -> parsed Z) (stod : string -> parsed V).
  Variable au2um : V.
  Variables (rehashed : rows V -> rows V -> bool) (e_charge minus_muB gL gS : V) (sqrtSpin sqrtL : Z -> V).
  Notation calcX := (calc v0 v1 vmul vopp w3j w6j sqrtZ radial).
  Notation updateX := (update v0 v1 vmul vopp w3j w6j sqrtZ radial order).
  Notation stepX := (stepE v0 v1 vadd vmul vopp w3j w6j sqrtZ radial order rehashed e_charge minus_muB gL gS sqrtSpin sqrtL).
  Notation loadX := (loadElectricDipoleDB v0 v1 vmul vdiv vopp w3j w6j sqrtZ radial order stoi stof stod au2um).
  Notation readX := (read vmul stoi stof stod au2um).
  Notation parseX := (parse stoi stof stod).
  Notation stepDX := (stepD v0 v1 vmul vdiv vopp w3j w6j sqrtZ radial order stoi stof stod au2um vadd rehashed e_charge minus_muB gL gS sqrtSpin sqrtL).
  Notation runDX := (runD v0 v1 vmul vdiv vopp w3j w6j sqrtZ radial order stoi stof stod au2um vadd rehashed e_charge minus_muB gL gS sqrtSpin sqrtL).
  Notation redX := (reduce v0 v1 vmul vdiv vopp).
  Notation invA := (invA v0 v1 vmul vopp w3j w6j sqrtZ radial).
  Notation PA := (PA v0 v1 vmul vopp w3j w6j sqrtZ radial).

  Definition ekey (m : Z) (sp : string) (e : entry V) : ckey := mkRad m sp 1 (en1 e) (en2 e) (el1 e) (el2 e) (ej1 e) (ej2 e).
  Definition skey (m : Z) (a b : state1) (kr : Z) : ckey := mkRad m (species a) kr (n a) (n b) (l a) (l b) (j2 a) (j2 b).
  Lemma mkRad_sym : forall m sp k n1 n2 l1 l2 j1 j2', mkRad m sp k n1 n2 l1 l2 j1 j2' = mkRad m sp k n2 n1 l2 l1 j2' j1.
  Proof.
    intros m sp k na nb la lb ja jb. unfold mkRad.
    destruct (Z.ltb_spec na nb), (Z.ltb_spec nb na), (Z.eqb_spec na nb), (Z.eqb_spec nb na);
    cbn [orb andb]; try lia; try reflexivity;
    destruct (Z.ltb_spec la lb), (Z.ltb_spec lb la), (Z.eqb_spec la lb), (Z.eqb_spec lb la);
    cbn [orb andb]; try lia; try congruence;
    destruct (Z.leb_spec ja jb), (Z.leb_spec jb ja); try lia; try congruence.
    all: f_equal; lia.
  Qed.
  Lemma mkRad_sorted : forall m sp k a b, sorted a b -> mkRad m sp k (n a) (n b) (l a) (l b) (j2 a) (j2 b) = KRad m sp k (n a) (n b) (l a) (l b) (j2 a) (j2 b).
  Proof.
    intros m sp k a b S. unfold mkRad. replace (_ || _) with true; [reflexivity|]. symmetry. unfold sorted in S.
    destruct (Z.ltb_spec (n a) (n b)); [reflexivity|]. destruct (Z.eqb_spec (n a) (n b)); [|lia]. destruct (Z.ltb_spec (l a) (l b)); [reflexivity|]. destruct (Z.eqb_spec (l a) (l b)); [|lia]. destruct (Z.leb_spec (j2 a) (j2 b)); [reflexivity|lia].
  Qed.
  Lemma ekey_listed : forall m sp e a b, listed e a b \/ listed e b a -> species a = sp -> ekey m sp e = skey m a b 1.
  Proof.
    intros m sp e a b [((A & B & C) & D & E & F)|((A & B & C) & D & E & F)] <-; unfold ekey, skey; rewrite A, B, C, D, E, F; [reflexivity|apply mkRad_sym].
  Qed.
  Lemma listed_ekey : forall m m' sp e a b kr, ekey m sp e = skey m' a b kr -> kr = 1 /\ sp = species a /\ (listed e a b \/ listed e b a).
  Proof.
    intros m m' sp e a b kr H. unfold ekey, skey, mkRad in H.
    destruct (_ || _) in H; destruct (_ || _) in H; injection H; intros; subst; split; auto; split; auto; unfold listed; (left; repeat split; congruence) || (right; repeat split; congruence).
  Qed.

  (** *** The rows a file leaves *)
  Lemma reduce_other : forall s m kv k, fst kv <> k -> rget (redX s m kv) k = rget m k.
  Proof.
    intros s m [k0 x] k N. cbn [fst] in N. unfold reduce. destruct k0 as [a b c d e f g h i| | | |]; cbn [fst snd]; try reflexivity.
    destruct (mkComS s 1 f g h i) as [k3 g3]. destruct (mkMul 1 f g) as [k4 g4]. cbn [rget].
    destruct (ckey_eqb (KRad a b c d e f g h i) k) eqn:Q; [apply ckey_eqb_eq in Q; congruence|reflexivity].
  Qed.
  Lemma fold_other : forall s kvs m k, (forall k' x, In (k', x) kvs -> k' <> k) -> rget (fold_left (redX s) kvs m) k = rget m k.
  Proof.
    intros s. induction kvs as [|[k0 x] kvs IH]; intros m k N; cbn [fold_left]; [reflexivity|].
    rewrite IH; [apply reduce_other; apply (N k0 x); left; reflexivity|]. intros; eapply N; right; eassumption.
  Qed.
  Lemma fold_ang : forall s kvs m k, is_rad k = false -> rget (fold_left (redX s) kvs m) k = rget m k.
  Proof.
    intros s. induction kvs as [|[k0 x] kvs IH]; intros m k A; cbn [fold_left]; [reflexivity|]. rewrite IH by exact A.
    unfold reduce. destruct k0 as [a b c d e f g h i| | | |]; cbn [fst snd]; try reflexivity.
    destruct (mkComS s 1 f g h i) as [k3 g3]. destruct (mkMul 1 f g) as [k4 g4]. cbn [rget].
    destruct (ckey_eqb (KRad a b c d e f g h i) k) eqn:Q; [apply ckey_eqb_eq in Q; subst k; discriminate A|reflexivity].
  Qed.
  Lemma ang_keys : forall s k l1 l2 j1 jj2, is_rad (fst (mkComS s k l1 l2 j1 jj2)) = false /\ is_rad (fst (mkMul k l1 l2)) = false.
  Proof. intros. unfold mkComS, mkMul. destruct (swapCom l1 l2 j1 jj2), (l1 <=? l2); split; reflexivity. Qed.
  Lemma fold_row : forall s kv1 kv2 m mt sp kp n1 n2 l1 l2 j1 jj2 x,
    (forall k' y, In (k', y) kv2 -> k' <> KRad mt sp kp n1 n2 l1 l2 j1 jj2) ->
    rget (fold_left (redX s) (kv1 ++ (KRad mt sp kp n1 n2 l1 l2 j1 jj2, x) :: kv2) m) (KRad mt sp kp n1 n2 l1 l2 j1 jj2) =
    Some (vdiv x (vmul (vmul (vmul (sgn v1 vopp (snd (mkComS s 1 l1 l2 j1 jj2))) (at_ v0 m (fst (mkComS s 1 l1 l2 j1 jj2)))) (sgn v1 vopp (snd (mkMul 1 l1 l2)))) (at_ v0 m (fst (mkMul 1 l1 l2))))).
  Proof.
    intros s kv1 kv2 m mt sp kp n1 n2 l1 l2 j1 jj2 x N. rewrite fold_left_app. cbn [fold_left]. rewrite fold_other by exact N.
    unfold reduce at 1. cbn [fst snd]. destruct (ang_keys s 1 l1 l2 j1 jj2) as [A3 A4].
    destruct (mkComS s 1 l1 l2 j1 jj2) as [k3 g3]. destruct (mkMul 1 l1 l2) as [k4 g4]. cbn [rget fst snd] in *. rewrite ckey_eqb_refl.
    unfold at_. rewrite !fold_ang by assumption. reflexivity.
  Qed.
  Lemma read_split : forall sp s tk e post pre c c1 kvs, readX sp s c (pre ++ tk :: post) = (c1, Ok kvs) -> parseX tk = Good e ->
    exists kv1 kv2, kvs = kv1 ++ (ekey (method c) sp e, vmul (evalue e) au2um) :: kv2 /\
      (forall k x, In (k, x) kv2 -> exists tk' e', In tk' post /\ parseX tk' = Good e' /\ k = ekey (method c) sp e') /\
      In (fst (mkComS s 1 (el1 e) (el2 e) (ej1 e) (ej2 e))) (missing c1) /\ In (fst (mkMul 1 (el1 e) (el2 e))) (missing c1).
  Proof.
    intros sp s tk e post. induction pre as [|t pre IH]; intros c c1 kvs H P; cbn [read app] in H.
    - rewrite P in H. destruct (use vmul au2um sp s c e) as [c2 kv] eqn:U. destruct (readX sp s c2 post) as [c3 [kvs3| |]] eqn:R; try discriminate. injection H as <- <-.
      unfold use in U. injection U as <- <-. exists [], kvs3. split; [reflexivity|]. split; [exact (@read_keys V vmul stoi stof stod au2um _ _ _ _ _ _ R)|].
      destruct (@read_keeps V v0 vadd vmul vopp stoi stof stod au2um _ _ _ _ _ _ R) as (_ & _ & _ & K).
      split; apply K; apply (@sput_in V v0 vadd vmul vopp); [right; apply (@sput_in V v0 vadd vmul vopp)|]; left; reflexivity.
    - destruct (parseX t) as [e0| | |]; try discriminate.
      + destruct (use vmul au2um sp s c e0) as [c2 kv] eqn:U. destruct (readX sp s c2 (pre ++ tk :: post)) as [c3 [kvs3| |]] eqn:R; try discriminate. injection H as <- <-.
        assert (M : method c2 = method c) by (unfold use in U; injection U as <- <-; reflexivity).
        destruct (IH _ _ _ R P) as (kv1 & kv2 & A & B & C). rewrite M in A, B. exists (kv :: kv1), kv2. split; [rewrite A; reflexivity|]. auto.
      + exact (IH _ _ _ H P).
  Qed.
  Definition sets := @sets V.

  Lemma mkComS_fst : forall s k l1 l2 j1 jj2, fst (mkComS s k l1 l2 j1 jj2) = fst (mkComS s k l2 l1 jj2 j1).
  Proof.
    intros. unfold mkComS, swapCom. destruct (Z.ltb_spec l1 l2), (Z.ltb_spec l2 l1), (Z.eqb_spec l1 l2), (Z.eqb_spec l2 l1), (Z.leb_spec j1 jj2), (Z.leb_spec jj2 j1); cbn [orb andb negb fst]; try lia; try reflexivity; f_equal; lia.
  Qed.
  Lemma mkMul_fst : forall k l1 l2, fst (mkMul k l1 l2) = fst (mkMul k l2 l1).
  Proof. intros. unfold mkMul. destruct (Z.leb_spec l1 l2), (Z.leb_spec l2 l1); cbn [fst]; try lia; try reflexivity; f_equal; lia. Qed.

  (** what loading a line leaves in memory *)
  Lemma load_row : (forall l, Permutation (order l) l) -> forall c pre tk post sp s c' e a b, invA c ->
    loadX c (pre ++ tk :: post) sp = (c', Ok tt) -> species_spin sp = Ok s -> parseX tk = Good e ->
    species a = sp -> sorted a b -> listed e a b \/ listed e b a -> ~ about parseX post a b ->
    exists y z, calcX EmptyString 0 (fst (mkComS s 1 (l a) (l b) (j2 a) (j2 b))) = Ok y /\ calcX EmptyString 0 (fst (mkMul 1 (l a) (l b))) = Ok z /\
    rget (mem c') (skey (method c) a b 1) = Some (vdiv (vmul (evalue e) au2um)
       (vmul (vmul (vmul (sgn v1 vopp (snd (mkComS s 1 (l a) (l b) (j2 a) (j2 b)))) y) (sgn v1 vopp (snd (mkMul 1 (l a) (l b))))) z)) /\
    sets c c' /\ missing c' = [] /\ (usedb c' = true -> open_tx (file c') = None).
  Proof.
    intros OP c pre tk post sp s c' e a b I H Sp P Sa So L NP. unfold loadElectricDipoleDB in H. rewrite Sp in H.
    destruct (readX sp s c (pre ++ tk :: post)) as [c1 r1] eqn:R. destruct (@read_keeps V v0 vadd vmul vopp stoi stof stod au2um _ _ _ _ _ _ R) as (A & B & (C & D & E) & _).
    destruct r1 as [kvs| |]; try discriminate.
    destruct (@read_split _ _ _ _ _ _ _ _ _ R P) as (kv1 & kv2 & Ek & K2 & M3 & M4).
    assert (I1 : invA c1) by (unfold DipoleProofs.invA, inv; rewrite A, B, E; exact I).
    destruct (updateX c1) as [c2 [b2| |]] eqn:U; try discriminate.
    destruct (@update_step V v0 v1 vmul vopp w3j w6j sqrtZ radial order PA PA true (fun k v X => X) _ _ _ U I1 (@good_PA V v0 v1 vmul vopp w3j w6j sqrtZ radial c1)) as ((OM & OF) & G2 & (C2 & D2 & E2) & K).
    destruct (K OP b2 eq_refl) as (Mi & Gk). injection H as <-.
    assert (K3 : fst (mkComS s 1 (el1 e) (el2 e) (ej1 e) (ej2 e)) = fst (mkComS s 1 (l a) (l b) (j2 a) (j2 b)) /\ fst (mkMul 1 (el1 e) (el2 e)) = fst (mkMul 1 (l a) (l b))).
    { destruct L as [((_ & X1 & X2) & _ & X3 & X4)|((_ & X1 & X2) & _ & X3 & X4)]; rewrite X1, X2, X3, X4; split; try reflexivity; [apply mkComS_fst|apply mkMul_fst]. }
    destruct K3 as [K3 K4]. rewrite K3 in M3. rewrite K4 in M4. destruct (Gk _ M3) as (y & Y). destruct (Gk _ M4) as (z & ZZ).
    destruct (ang_keys s 1 (l a) (l b) (j2 a) (j2 b)) as [A3 A4].
    exists y, z. split; [exact (OM _ _ Y A3)|]. split; [exact (OM _ _ ZZ A4)|]. split; [|split; [unfold sets, DipoleProofs.sets; cbn [method ddb usedb]; rewrite C2, D2, E2; auto|split; [exact Mi|]]].
    - cbn [mem]. rewrite Ek. unfold skey. rewrite (ekey_listed (method c) L Sa). unfold skey. rewrite mkRad_sorted by exact So. rewrite fold_row.
      + unfold at_. rewrite Y, ZZ. reflexivity.
      + intros k' x' I2 Q. destruct (K2 _ _ I2) as (tk' & e' & T1 & T2 & T3). apply NP. exists tk', e'. split; [exact T1|]. split; [exact T2|].
        rewrite T3 in Q. rewrite <- (@mkRad_sorted (method c) (species a) 1 a b So) in Q. apply (@listed_ekey (method c) (method c) sp e' a b 1) in Q. apply Q.
    - cbn [usedb file]. clear - U M3. unfold update in U. destruct (missing c1) as [|k0 ms0] eqn:Em; [destruct M3|]. rewrite <- Em in U. clear Em M3.
      destruct (if usedb c1 then load (file c1) (mem c1) (missing c1) else (mem c1, missing c1)) as [m1 ms1].
      destruct (if usedb c1 then open_tx (file c1) else None); [discriminate|].
      destruct (fill _ _ _ _ _ _ _ _ _ _ _ _ m1 _) as [[d1 m2] [[]| |]]; try discriminate.
      destruct (fill _ _ _ _ _ _ _ _ _ _ _ _ m2 _) as [[d2 m3] [[]| |]]; try discriminate.
      injection U as <- _. cbn [usedb file]. intros X. rewrite X. destruct (open_tx d2) eqn:O; [reflexivity|exact O].
  Qed.

  (** rows stay until the process ends or a file with a line about them is loaded *)
  Lemma load_keeps : forall c lines sp k v, invA c -> rget (mem c) k = Some v ->
    (forall tk e, In tk lines -> parseX tk = Good e -> ekey (method c) sp e <> k) -> rget (mem (fst (loadX c lines sp))) k = Some v.
  Proof.
    intros c lines sp k v I G N. unfold loadElectricDipoleDB. destruct (species_spin sp) as [s| |]; [|exact G|exact G].
    destruct (readX sp s c lines) as [c1 r1] eqn:R. destruct (@read_keeps V v0 vadd vmul vopp stoi stof stod au2um _ _ _ _ _ _ R) as (A & B & (C & D & E) & _).
    assert (G1 : rget (mem c1) k = Some v) by (rewrite A; exact G). assert (I1 : invA c1) by (unfold DipoleProofs.invA, inv; rewrite A, B, E; exact I).
    destruct r1 as [kvs| |]; [|exact G1|exact G1].
    destruct (updateX c1) as [c2 r2] eqn:U.
    destruct (@update_step V v0 v1 vmul vopp w3j w6j sqrtZ radial order PA PA true (fun k v X => X) _ _ _ U I1 (@good_PA V v0 v1 vmul vopp w3j w6j sqrtZ radial c1)) as (_ & G2 & _ & _).
    destruct r2 as [b2| |]; cbn [fst mem]; [|exact (G2 _ _ G1)|exact (G2 _ _ G1)].
    rewrite fold_other; [exact (G2 _ _ G1)|]. intros k' x Ik Q. destruct (@read_keys V vmul stoi stof stod au2um _ _ _ _ _ _ R k' x Ik) as (tk & e & T1 & T2 & T3). apply (N tk e T1 T2). unfold ekey. rewrite <- T3. exact Q.
  Qed.
  Definition fine (h : list (call V)) : Prop := forall new, In (Call (EExtern new)) h -> okrows PA new.
  Lemma run_keeps : forall m a b v h c, invA c -> fine h -> ~ In (Call (ERestart V)) h -> (forall x, In x h -> ~ mentions parseX x a b) ->
    rget (mem c) (skey m a b 1) = Some v -> invA (runDX c h) /\ rget (mem (runDX c h)) (skey m a b 1) = Some v.
  Proof.
    intros m a b v. induction h as [|x h IH]; intros c I F NR NM G; cbn [runD]; [auto|].
    assert (F1 : forall new, x = Call (EExtern new) -> okrows PA new) by (intros new ->; apply F; left; reflexivity).
    assert (I1 : invA (fst (stepDX c x))) by (apply stepD_A; assumption).
    apply IH; [exact I1|intros new J; apply F; right; exact J|intros J; apply NR; right; exact J|intros y J; apply NM; right; exact J|].
    destruct x as [e|lines sp]; cbn [stepD].
    - cbn [fst]. eapply (proj2 (@stepE_A V v0 v1 vadd vmul vopp w3j w6j sqrtZ radial order rehashed e_charge minus_muB gL gS sqrtSpin sqrtL c e I (fun new Q => F1 new (f_equal (@Call V) Q)))); [|exact G].
      intros ->. apply NR. left. reflexivity.
    - apply load_keeps; [exact I|exact G|]. intros tk e T1 T2 Q. apply listed_ekey in Q. destruct Q as (_ & -> & L). apply (NM (Load V lines (species a))); [left; reflexivity|].
      exists lines. split; [reflexivity|]. exists tk, e. auto.
  Qed.

  (** an element whose radial part is in memory *)
  Lemma multipole_mem : (forall l, Permutation (order l) l) -> forall c a b kr ka r, invA c -> rget (mem c) (skey (method c) a b kr) = Some r ->
    let q := getElectricMultipole v0 v1 vmul vopp w3j w6j sqrtZ radial order e_charge c a b kr ka in
    let (k2, g2) := mkAng ka (j2 a) (j2 b) (m2 a) (m2 b) in
    let (k3, g3) := mkComS (s2 a) ka (l a) (l b) (j2 a) (j2 b) in
    let (k4, g4) := mkMul ka (l a) (l b) in
    (forall v, snd q = Ok v -> exists x y z, calcX EmptyString 0 k2 = Ok x /\ calcX EmptyString 0 k3 = Ok y /\ calcX EmptyString 0 k4 = Ok z /\
      v = vmul (vmul (vmul (vmul (vmul (vmul (vmul e_charge r) (sgn v1 vopp g2)) x) (sgn v1 vopp g3)) y) (sgn v1 vopp g4)) z) /\
    (artificial_or_mixed a b = false -> missing c = [] -> (usedb c = true -> open_tx (file c) = None) -> exists v, snd q = Ok v).
  Proof.
    intros OP c a b kr ka r I G q. unfold getElectricMultipole in q. unfold skey in G.
    assert (A2 : is_rad (fst (mkAng ka (j2 a) (j2 b) (m2 a) (m2 b))) = false) by (unfold mkAng; destruct (_ || _); reflexivity).
    destruct (ang_keys (s2 a) ka (l a) (l b) (j2 a) (j2 b)) as [A3 A4].
    destruct (mkAng ka (j2 a) (j2 b) (m2 a) (m2 b)) as [k2 g2]. destruct (mkComS (s2 a) ka (l a) (l b) (j2 a) (j2 b)) as [k3 g3]. destruct (mkMul ka (l a) (l b)) as [k4 g4]. cbn [fst] in A2, A3, A4.
    unfold q; clear q. destruct (artificial_or_mixed a b); [split; [intros v H; discriminate H|intros Q; discriminate Q]|].
    set (k1 := mkRad _ _ _ _ _ _ _ _ _) in *. change (note (note (note (note c k1) k2) k3) k4) with (notes c [k1; k2; k3; k4]).
    destruct (updateX (notes c [k1; k2; k3; k4])) as [c' rr] eqn:U.
    destruct (@request_step V v0 v1 vadd vmul vopp w3j w6j sqrtZ radial order PA PA true (fun k v X => X) _ _ _ _ U I (@good_PA V v0 v1 vmul vopp w3j w6j sqrtZ radial c)) as ((OM & _) & Gr & _ & K).
    assert (Done : forall b0, rr = Ok b0 -> exists x y z, rget (mem c') k1 = Some r /\ rget (mem c') k2 = Some x /\ rget (mem c') k3 = Some y /\ rget (mem c') k4 = Some z /\ calcX EmptyString 0 k2 = Ok x /\ calcX EmptyString 0 k3 = Ok y /\ calcX EmptyString 0 k4 = Ok z).
    { intros b0 Q. specialize (K OP b0 Q). destruct (K k2) as (x & X); [right; left; reflexivity|]. destruct (K k3) as (y & Y); [right; right; left; reflexivity|]. destruct (K k4) as (z & ZZ); [right; right; right; left; reflexivity|].
      exists x, y, z. split; [apply Gr; exact G|]. split; [exact X|]. split; [exact Y|]. split; [exact ZZ|]. split; [exact (OM _ _ X A2)|]. split; [exact (OM _ _ Y A3)|exact (OM _ _ ZZ A4)]. }
    split.
    - destruct rr as [b0| |]; cbn [snd]; try (intros v H; discriminate H). destruct (Done b0 eq_refl) as (x & y & z & E1 & E2 & E3 & E4 & C2 & C3 & C4). intros v H. exists x, y, z. split; [exact C2|]. split; [exact C3|]. split; [exact C4|].
      unfold deref in H. rewrite E1, E2, E3, E4 in H. cbn [bind] in H. injection H as <-. reflexivity.
    - intros _ Mi Cl.
      assert (X : exists b0, rr = Ok b0).
      { clear Done K Gr OM. destruct (@notes_fields V [k1; k2; k3; k4] c) as (Q1 & Q2 & Q3 & Q4 & Q5).
        assert (NR : forall k, In k (missing (notes c [k1; k2; k3; k4])) -> is_rad k = false).
        { intros k J. cbn [notes fold_left] in J. revert J.
          assert (Nn : forall (cc : cache V) kk, (forall k, In k (missing cc) -> is_rad k = false) -> (is_rad kk = false \/ has (mem cc) kk = true) -> (forall k, In k (missing (note cc kk)) -> is_rad k = false) /\ mem (note cc kk) = mem cc).
          { intros cc kk HH HK. unfold note. destruct (has (mem cc) kk) eqn:Hh; [auto|]. split; [|reflexivity]. intros k' J. cbn [missing] in J. apply (@sput_in V v0 vadd vmul vopp) in J. destruct J as [->|J]; [destruct HK; congruence|auto]. }
          destruct (Nn c k1) as [N1 E1]; [rewrite Mi; intros k' []|right; unfold has; rewrite G; reflexivity|].
          destruct (Nn (note c k1) k2) as [N2 E2]; [exact N1|auto|]. destruct (Nn (note (note c k1) k2) k3) as [N3 E3]; [exact N2|auto|]. destruct (Nn (note (note (note c k1) k2) k3) k4) as [N4 E4]; [exact N3|auto|]. apply N4. }
        unfold update in U. destruct (missing (notes c [k1; k2; k3; k4])) as [|k0 ms0] eqn:Em; [injection U as _ <-; eauto|]. rewrite <- Em in *. clear Em.
        rewrite Q4, Q5 in U.
        assert (LM : forall (d : dbfile V) ms m, (forall k, In k ms -> is_rad k = false) -> forall k, In k (snd (load d m ms)) -> is_rad k = false).
        { intros d. induction ms as [|k9 ms IH]; intros m HH k J; cbn [load] in J; [destruct J|]. destruct (dbget d k9); [apply (IH _ (fun k Jk => HH k (or_intror Jk)) k J)|].
          destruct (load d m ms) as [m9 l9] eqn:L9. cbn [snd] in J. destruct J as [<-|J]; [apply HH; left; reflexivity|]. apply (IH m (fun k Jk => HH k (or_intror Jk)) k). rewrite L9. exact J. }
        assert (FA : forall dn mth u ms (d : dbfile V) m, (forall k, In k ms -> is_rad k = false) -> exists d' m', fill v0 v1 vmul vopp w3j w6j sqrtZ radial dn mth u d m ms = (d', m', Ok tt)).
        { intros dn mth u. induction ms as [|k9 ms IH]; intros d m HH; cbn [fill]; [eauto|]. assert (A9 : is_rad k9 = false) by (apply HH; left; reflexivity).
          destruct k9; try discriminate A9; cbn [calc]; apply IH; intros; apply HH; right; assumption. }
        pose proof (LM (file c) (missing (notes c [k1; k2; k3; k4])) (mem (notes c [k1; k2; k3; k4])) NR) as L1.
        set (ld := if usedb c then load (file c) (mem (notes c [k1; k2; k3; k4])) (missing (notes c [k1; k2; k3; k4])) else (mem (notes c [k1; k2; k3; k4]), missing (notes c [k1; k2; k3; k4]))) in U.
        assert (L2 : forall k, In k (snd ld) -> is_rad k = false) by (unfold ld; destruct (usedb c); [exact L1|exact NR]).
        clearbody ld. destruct ld as [m1 ms1]. cbn [snd] in L2.
        assert (O0 : (if usedb c then open_tx (file c) else None) = None) by (destruct (usedb c); [apply Cl; reflexivity|reflexivity]). rewrite O0 in U.
        destruct (FA (ddb (notes c [k1; k2; k3; k4])) (method (notes c [k1; k2; k3; k4])) (usedb c) (order (filter is_rad ms1)) (if usedb c then Dbf (committed (file c)) (Some []) else file c) m1) as (d1 & mm1 & F1).
        { intros k J. apply (Permutation_in k (OP _)) in J. apply filter_In in J. apply L2, J. }
        rewrite F1 in U.
        destruct (FA (ddb (notes c [k1; k2; k3; k4])) (method (notes c [k1; k2; k3; k4])) (usedb c) (order (filter (fun k => negb (is_rad k)) ms1)) d1 mm1) as (d2 & mm2 & F2).
        { intros k J. apply (Permutation_in k (OP _)) in J. apply filter_In in J. apply L2, J. }
        rewrite F2 in U. injection U as _ <-. eauto. }
      destruct X as (b0 & ->). destruct (Done b0 eq_refl) as (x & y & z & E1 & E2 & E3 & E4 & _). cbn [snd]. unfold deref. rewrite E1, E2, E3, E4. cbn [bind]. eauto.
  Qed.
End P.
