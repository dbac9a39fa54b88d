(** Proofs about the matrix element cache over an arbitrary value type. *)
From Verif Require Import Base StateModel MEModel Racah MESpec.
From Coq Require Import ZArith Lia Bool String Ascii List Permutation.
Local Open Scope list_scope.
Local Open Scope Z_scope.
Set Implicit Arguments.

Lemma ckey_eqb_eq : forall a b, ckey_eqb a b = true <-> a = b.
Proof.
  intros a b. destruct a, b; cbn [ckey_eqb]; split; intro H; try discriminate;
    rewrite ?andb_true_iff, ?Z.eqb_eq, ?String.eqb_eq in *.
  all: try (inversion H; subst; intuition congruence).
  all: try (intuition congruence).
  all: inversion H; subst; repeat split; reflexivity.
Qed.
Lemma ckey_eqb_refl : forall a, ckey_eqb a a = true.
Proof. intros a. now apply ckey_eqb_eq. Qed.

Section Values.
  Variable V : Type.
  Variables (v0 v1 : V) (vadd vmul : V -> V -> V) (vopp : V -> V).
  Variables (w3j w6j : Z -> Z -> Z -> Z -> Z -> Z -> V).
  Variable sqrtZ : Z -> V.
  Variable radial : string -> Z -> string -> Z -> Z -> Z -> Z -> Z -> Z -> Z -> res V.
  Variable order : list ckey -> list ckey.
  Variable rehashed : rows V -> rows V -> bool.
  Variables (e_charge minus_muB gL gS : V).
  Variable sqrtSpin sqrtL : Z -> V.
  Hypothesis order_perm : forall l, Permutation (order l) l.

  Notation calc := (calc v0 v1 vmul vopp w3j w6j sqrtZ radial).
  Notation fill := (fill v0 v1 vmul vopp w3j w6j sqrtZ radial).
  Notation update := (update v0 v1 vmul vopp w3j w6j sqrtZ radial order).
  Notation gem := (getElectricMultipole v0 v1 vmul vopp w3j w6j sqrtZ radial order e_charge).
  Notation gmd := (getMagneticDipole v0 v1 vadd vmul vopp w3j w6j sqrtZ radial order minus_muB gL gS sqrtSpin sqrtL).
  Notation grd := (getRadial v0 v1 vmul vopp w3j w6j sqrtZ radial order rehashed).
  Notation stepE := (stepE v0 v1 vadd vmul vopp w3j w6j sqrtZ radial order rehashed e_charge minus_muB gL gS sqrtSpin sqrtL).
  Notation runE := (runE v0 v1 vadd vmul vopp w3j w6j sqrtZ radial order rehashed e_charge minus_muB gL gS sqrtSpin sqrtL).

  Definition goodrows (dn : string) (r : rows V) : Prop :=
    forall k v, rget r k = Some v -> forall d, calc dn (kmeth d k) k = Ok v.

  Lemma rget_rput : forall (r : rows V) k v k',
    rget (rput r k v) k' = if ckey_eqb k k' then match rget r k with Some x => Some x | None => Some v end
                           else rget r k'.
  Proof.
    intros r k v k'. unfold rput. destruct (ckey_eqb k k') eqn:E.
    - apply ckey_eqb_eq in E. subst k'. destruct (rget r k) eqn:G; cbn [rget]; [exact G|].
      now rewrite ckey_eqb_refl.
    - destruct (rget r k) eqn:G; cbn [rget]; [reflexivity|now rewrite E].
  Qed.
  Lemma good_rput : forall dn r k v, goodrows dn r -> (forall d, calc dn (kmeth d k) k = Ok v) ->
    goodrows dn (rput r k v).
  Proof.
    intros dn r k v G H k' v' E. rewrite rget_rput in E. destruct (ckey_eqb k k') eqn:Q.
    - apply ckey_eqb_eq in Q. subst k'. destruct (rget r k) eqn:G'.
      + inversion E; subst. now apply G.
      + inversion E; subst. exact H.
    - now apply G.
  Qed.
  Lemma rput_keeps : forall (r : rows V) k v k' x, rget r k' = Some x -> rget (rput r k v) k' = Some x.
  Proof.
    intros r k v k' x H. rewrite rget_rput. destruct (ckey_eqb k k') eqn:Q; [|exact H].
    apply ckey_eqb_eq in Q. subst. now rewrite H.
  Qed.
  Lemma rput_has : forall (r : rows V) k v, exists x, rget (rput r k v) k = Some x.
  Proof. intros r k v. rewrite rget_rput, ckey_eqb_refl. destruct (rget r k); eauto. Qed.
  Lemma rget_app : forall (r : rows V) r' k, rget (r ++ r') k = match rget r k with Some v => Some v | None => rget r' k end.
  Proof.
    induction r as [|[k0 v'] r IH]; intros r' k; cbn [rget app]; [reflexivity|].
    destruct (ckey_eqb k0 k); [reflexivity|apply IH].
  Qed.

  Definition goodfile (f : dbfile V) : Prop :=
    goodrows EmptyString (committed f) /\
    forall t, open_tx f = Some t -> goodrows EmptyString t.
  Definition pend_ok (c : cache V) : Prop := forall k, In k (missing c) -> kmeth (method c) k = method c.

  Record Inv (c : cache V) : Prop := {
    I_mem : goodrows (ddb c) (mem c);
    I_db : usedb c = true -> ddb c = EmptyString;
    I_file : goodfile (file c);
    I_pend : pend_ok c }.

  Lemma kmeth_any : forall d k, kmeth d k = d -> forall dn d', calc dn (kmeth d' k) k = calc dn d k.
  Proof. intros d k H dn d'. destruct k; cbn [kmeth MEModel.calc] in *; subst; reflexivity. Qed.

  Lemma dbget_good : forall f k v, goodfile f -> dbget f k = Some v ->
    forall d, calc EmptyString (kmeth d k) k = Ok v.
  Proof.
    intros f k v [G1 G2] H. unfold dbget in H. destruct (open_tx f) as [t|] eqn:E.
    - destruct (rget t k) eqn:R; [inversion H; subst; exact (G2 t eq_refl _ _ R)|exact (G1 _ _ H)].
    - exact (G1 _ _ H).
  Qed.

  Lemma load_spec : forall (f : dbfile V) ms m m' left, load f m ms = (m', left) ->
    (forall k, In k left -> In k ms) /\
    (forall k x, rget m k = Some x -> rget m' k = Some x) /\
    (forall k, In k ms -> In k left \/ exists x, rget m' k = Some x) /\
    (goodfile f -> goodrows EmptyString m -> goodrows EmptyString m').
  Proof.
    intros f. induction ms as [|k ms IH]; intros m m' left H; cbn [load] in H.
    - inversion H; subst. repeat split; auto; intros k [].
    - destruct (dbget f k) as [v|] eqn:D.
      + apply IH in H. destruct H as (A & B & C & G). repeat split.
        * intros k' Hk. right. now apply A.
        * intros k' x Hx. apply B. now apply rput_keeps.
        * intros k' [->|Hk]; [|now apply C]. right. destruct (rput_has m k' v) as [x Hx].
          exists x. now apply B.
        * intros Gf Gm. apply G; [exact Gf|]. apply good_rput; [exact Gm|]. eapply dbget_good; eassumption.
      + destruct (load f m ms) as [m1 l1] eqn:L. apply IH in L. inversion H; subst.
        destruct L as (A & B & C & G). repeat split.
        * intros k' [->|Hk]; [now left|right; now apply A].
        * exact B.
        * intros k' [->|Hk]; [left; now left|]. destruct (C k' Hk); [left; now right|now right].
        * exact G.
  Qed.

  Lemma good_txput : forall u f k v, goodfile f -> (u = true -> forall d, calc EmptyString (kmeth d k) k = Ok v) ->
    goodfile (txput u f k v).
  Proof.
    intros u f k v [G1 G2] H. unfold txput. destruct u; [|now split].
    destruct (open_tx f) as [t|] eqn:E; [|split; [exact G1|rewrite E; discriminate]].
    split; cbn [committed open_tx]; [exact G1|].
    intros t' Ht. inversion Ht; subst. destruct (rget (committed f) k); [now apply G2|].
    apply good_rput; [now apply G2|auto].
  Qed.
  Lemma txput_committed : forall u (f : dbfile V) k v, committed (txput u f k v) = committed f.
  Proof. intros [|] f k v; cbn; [|reflexivity]. destruct (open_tx f); reflexivity. Qed.
  Lemma txput_closed : forall (f : dbfile V) k v, txput false f k v = f.
  Proof. reflexivity. Qed.

  Lemma fill_spec : forall dn mth u ms f m f' m' r,
    fill dn mth u f m ms = (f', m', r) ->
    (u = true -> dn = EmptyString) ->
    (forall k, In k ms -> kmeth mth k = mth) ->
    goodfile f -> goodrows dn m ->
    goodfile f' /\ goodrows dn m' /\ committed f' = committed f /\
    (u = false -> f' = f) /\
    (forall k x, rget m k = Some x -> rget m' k = Some x) /\
    (r = Ok tt -> forall k, In k ms -> exists x, rget m' k = Some x) /\
    (r <> Ok tt -> exists k, In k ms /\ forall v, calc dn mth k <> Ok v) /\
    (u = true -> (exists t, open_tx f = Some t) -> exists t, open_tx f' = Some t).
  Proof.
    intros dn mth u. induction ms as [|k ms IH]; intros f m f' m' r H U K Gf Gm; cbn [MEModel.fill] in H.
    - inversion H; subst. split; [exact Gf|]. split; [exact Gm|]. repeat split; auto; [intros _ k []|intros N; now destruct N].
    - destruct (calc dn mth k) as [v| |] eqn:E.
      + assert (KV : forall d, calc dn (kmeth d k) k = Ok v).
        { intros d. rewrite kmeth_any with (d := mth); [exact E|]. apply K. now left. }
        apply IH in H; auto.
        * destruct H as (A & B & C & D & F & G & X & Y). split; [exact A|]. split; [exact B|]. repeat split; auto.
          -- rewrite C. apply txput_committed.
          -- intros ->. rewrite D by reflexivity. reflexivity.
          -- intros k' x Hx. apply F. now apply rput_keeps.
          -- intros R k' [->|Hk]; [|now apply G]. destruct (rput_has m k' v) as [x Hx]. exists x. now apply F.
          -- intros R. destruct (X R) as (k' & Hk & N). exists k'. split; [now right|exact N].
          -- intros Hu [t Ht]. apply Y; [exact Hu|]. subst u. unfold txput. rewrite Ht. cbn. eauto.
        * intros k' Hk. apply K. now right.
        * apply good_txput; [exact Gf|]. intros Hu. rewrite <- (U Hu). exact KV.
        * now apply good_rput.
      + inversion H; subst. split; [exact Gf|]. split; [exact Gm|]. repeat split; auto; try congruence.
        intros _. exists k. split; [now left|]. intros v. rewrite E. discriminate.
      + inversion H; subst. split; [exact Gf|]. split; [exact Gm|]. repeat split; auto; try congruence.
        intros _. exists k. split; [now left|]. intros v. rewrite E. discriminate.
  Qed.

  Definition radial_total : Prop := forall dn m sp k n1 n2 l1 l2 j1 j2', exists v,
    radial dn m sp k n1 n2 l1 l2 j1 j2' = Ok v.
  Lemma calc_total : radial_total -> forall dn m k, exists v, calc dn m k = Ok v.
  Proof. intros T dn m k. destruct k; cbn [MEModel.calc]; eauto. Qed.

  Lemma good_open : forall f, goodfile f -> goodfile (Dbf (committed f) (Some [])).
  Proof. intros f [G1 G2]. split; cbn; [exact G1|]. intros t E. inversion E; subst. intros k v H. discriminate. Qed.
  Lemma good_app : forall dn a b, goodrows dn a -> goodrows dn b -> goodrows dn (a ++ b).
  Proof. intros dn a b A B k v H. rewrite rget_app in H. destruct (rget a k) eqn:E; [inversion H; subst; now apply A|now apply B]. Qed.

  (** What update() guarantees. *)
  Record updated (c c' : cache V) (r : res bool) : Prop := {
    U_inv : Inv c';
    U_method : method c' = method c;
    U_ddb : ddb c' = ddb c;
    U_usedb : usedb c' = usedb c;
    U_keep : forall k x, rget (mem c) k = Some x -> rget (mem c') k = Some x;
    U_ok : forall b, r = Ok b -> missing c' = [] /\ forall k, In k (missing c) -> exists x, rget (mem c') k = Some x;
    U_idle : missing c = [] -> c' = c /\ r = Ok false;
    U_total : radial_total -> (usedb c = true -> open_tx (file c) = None) ->
              (exists b, r = Ok b) /\ (usedb c' = true -> open_tx (file c') = None);
    U_fail : (forall b, r <> Ok b) -> (usedb c = true -> open_tx (file c) = None) ->
             exists k, In k (missing c) /\ forall v, calc (ddb c) (method c) k <> Ok v }.

  Lemma in_order : forall f ms k, In k (order (filter f ms)) -> In k ms.
  Proof.
    intros f ms k H. apply (Permutation_in _ (order_perm _)) in H. apply filter_In in H. tauto.
  Qed.

  Lemma update_spec : forall c, Inv c -> let (c', r) := update c in updated c c' r.
  Proof.
    intros c [Gm Gd Gf Gp]. unfold MEModel.update.
    destruct (missing c) as [|k0 ms0] eqn:M.
    { constructor; auto; try congruence.
      - constructor; auto.
      - intros b _. rewrite M. split; [reflexivity|]. intros k [].
      - intros _ O. split; [now exists false|exact O].
      - intros N. exfalso. now apply (N false). }
    rewrite <- M.
    set (L := if usedb c then load (file c) (mem c) (missing c) else (mem c, missing c)).
    destruct L as [m1 ms1] eqn:EL. subst L.
    assert (HL : (forall k, In k ms1 -> In k (missing c)) /\
                 (forall k x, rget (mem c) k = Some x -> rget m1 k = Some x) /\
                 (forall k, In k (missing c) -> In k ms1 \/ exists x, rget m1 k = Some x) /\
                 goodrows (ddb c) m1).
    { destruct (usedb c) eqn:U.
      - apply load_spec in EL. destruct EL as (A & B & C & G). repeat split; auto.
        rewrite Gd by reflexivity. apply G; [exact Gf|]. rewrite <- Gd by reflexivity. exact Gm.
      - inversion EL; subst. repeat split; auto. }
    destruct HL as (A & B & C & G1).
    assert (P1 : forall k, In k ms1 -> kmeth (method c) k = method c) by (intros k Hk; apply Gp; auto).
    destruct (if usedb c then open_tx (file c) else None) as [t|] eqn:EO.
    { (* begin fails *)
      destruct (usedb c) eqn:U; [|discriminate].
      constructor; cbn [method ddb usedb mem missing file]; auto; try congruence.
      - constructor; cbn [method ddb usedb mem missing file]; auto.
      - intros _ O. now rewrite O in EO.
      - intros _ O. now rewrite O in EO. }
    set (d0 := if usedb c then Dbf (committed (file c)) (Some []) else file c).
    assert (Gd0 : goodfile d0) by (unfold d0; destruct (usedb c); [now apply good_open|exact Gf]).
    destruct (fill (ddb c) (method c) (usedb c) d0 m1 (order (filter is_rad ms1))) as [[d1 mm2] r1] eqn:F1.
    assert (Q := F1). apply fill_spec in Q; [|exact Gd|intros k Hk; apply P1; eapply in_order; exact Hk|exact Gd0|exact G1].
    destruct Q as (A1 & B1 & C1 & D1 & E1 & H1 & X1 & Y1).
    assert (Bad : r1 <> Ok tt -> exists k, In k (missing c) /\ forall v, calc (ddb c) (method c) k <> Ok v).
    { intros N. destruct (X1 N) as (k & Hk & N'). exists k. split; [apply A; eapply in_order; exact Hk|exact N']. }
    assert (O0 : usedb c = true -> exists t, open_tx d0 = Some t).
    { intros U. unfold d0. rewrite U. cbn. eauto. }
    destruct r1 as [[]| |].
    - destruct (fill (ddb c) (method c) (usedb c) d1 mm2 (order (filter (fun k => negb (is_rad k)) ms1))) as [[d2 m3] r2] eqn:F2.
      assert (Q := F2). apply fill_spec in Q; [|exact Gd|intros k Hk; apply P1; eapply in_order; exact Hk|exact A1|exact B1].
    destruct Q as (A2 & B2 & C2 & D2 & E2 & H2 & X2 & Y2).
      assert (O2 : usedb c = true -> exists t, open_tx d2 = Some t) by (intros U; auto).
      destruct r2 as [[]| |].
      + set (d3 := if usedb c then match open_tx d2 with Some t => Dbf (t ++ committed d2) None | None => d2 end else d2).
        assert (Gd3 : goodfile d3).
        { unfold d3. destruct (usedb c); [|exact A2]. destruct (open_tx d2) as [t|] eqn:T; [|exact A2].
          split; cbn; [|discriminate]. apply good_app; [now apply (proj2 A2)|exact (proj1 A2)]. }
        constructor; cbn [method ddb usedb mem missing file]; auto; try congruence.
        * constructor; cbn [method ddb usedb mem missing file]; auto. intros k [].
        * intros b _. split; [reflexivity|]. intros k Hk. destruct (C k Hk) as [L|[x Hx]].
          -- destruct (is_rad k) eqn:R.
             ++ destruct (H1 eq_refl k) as [x Hx].
                { apply (Permutation_in _ (Permutation_sym (order_perm _))). apply filter_In. auto. }
                exists x. auto.
             ++ destruct (H2 eq_refl k) as [x Hx].
                { apply (Permutation_in _ (Permutation_sym (order_perm _))). apply filter_In. now rewrite R. }
                exists x. auto.
          -- exists x. auto.
        * intros _ _. split; [eauto|]. intros U. unfold d3. rewrite U.
          destruct (O2 U) as [t T]. rewrite T. reflexivity.
        * intros N. exfalso. now apply (N true).
      + assert (Bad2 : exists k, In k (missing c) /\ forall v, calc (ddb c) (method c) k <> Ok v).
        { destruct X2 as (k & Hk & N'); [discriminate|]. exists k. split; [apply A; eapply in_order; exact Hk|exact N']. }
        constructor; cbn [method ddb usedb mem missing file]; auto; try congruence.
        * constructor; cbn [method ddb usedb mem missing file]; auto.
          intros k Hk. apply filter_In in Hk. now apply P1.
        * intros T. destruct Bad2 as (k & _ & N). destruct (calc_total T (ddb c) (method c) k) as [v Hv].
          now apply N in Hv.
      + assert (Bad2 : exists k, In k (missing c) /\ forall v, calc (ddb c) (method c) k <> Ok v).
        { destruct X2 as (k & Hk & N'); [discriminate|]. exists k. split; [apply A; eapply in_order; exact Hk|exact N']. }
        constructor; cbn [method ddb usedb mem missing file]; auto; try congruence.
        * constructor; cbn [method ddb usedb mem missing file]; auto.
          intros k Hk. apply filter_In in Hk. now apply P1.
        * intros T. destruct Bad2 as (k & _ & N). destruct (calc_total T (ddb c) (method c) k) as [v Hv].
          now apply N in Hv.
    - destruct Bad as (kb & Hkb & N); [discriminate|].
      constructor; cbn [method ddb usedb mem missing file]; auto; try congruence.
      + constructor; cbn [method ddb usedb mem missing file]; auto.
      + intros T. destruct (calc_total T (ddb c) (method c) kb) as [v Hv]. now apply N in Hv.
      + intros _ _. exists kb. auto.
    - destruct Bad as (kb & Hkb & N); [discriminate|].
      constructor; cbn [method ddb usedb mem missing file]; auto; try congruence.
      + constructor; cbn [method ddb usedb mem missing file]; auto.
      + intros T. destruct (calc_total T (ddb c) (method c) kb) as [v Hv]. now apply N in Hv.
      + intros _ _. exists kb. auto.
  Qed.

  (** Noting keys. *)
  Lemma sput_in : forall ms k k', In k' (sput ms k) <-> k' = k \/ In k' ms.
  Proof.
    intros ms k k'. unfold sput. destruct (existsb (ckey_eqb k) ms) eqn:E.
    - apply existsb_exists in E. destruct E as (x & Hx & Q). apply ckey_eqb_eq in Q. subst x.
      split; [auto|]. intros [->|H]; auto.
    - cbn [In]. intuition congruence.
  Qed.
  Lemma note_fields : forall (c : cache V) k, mem (note c k) = mem c /\ method (note c k) = method c /\
    ddb (note c k) = ddb c /\ usedb (note c k) = usedb c /\ file (note c k) = file c.
  Proof. intros c k. unfold note. destruct (has (mem c) k); cbn; auto. Qed.
  Lemma note_missing : forall (c : cache V) k k', In k' (missing (note c k)) -> k' = k \/ In k' (missing c).
  Proof. intros c k k' H. unfold note in H. destruct (has (mem c) k); [auto|]. cbn in H. now apply sput_in in H. Qed.
  Lemma note_either : forall (c : cache V) k, (exists x, rget (mem c) k = Some x) \/ In k (missing (note c k)).
  Proof.
    intros c k. unfold note, has. destruct (rget (mem c) k) as [x|] eqn:E; [left; eauto|].
    right. cbn. apply sput_in. now left.
  Qed.
  Lemma note_keeps : forall (c : cache V) k k', In k' (missing c) -> In k' (missing (note c k)).
  Proof. intros c k k' H. unfold note. destruct (has (mem c) k); [exact H|]. cbn. apply sput_in. now right. Qed.
  Lemma note_Inv : forall c k, Inv c -> kmeth (method c) k = method c -> Inv (note c k).
  Proof.
    intros c k [A B C D] K. destruct (note_fields c k) as (N1 & N2 & N3 & N4 & N5).
    constructor; rewrite ?N1, ?N3, ?N4, ?N5; auto.
    intros k' Hk. rewrite N2. apply note_missing in Hk. destruct Hk as [->|Hk]; auto.
  Qed.

  (** Noting a list of keys and updating: either all of them are available, or a failure. *)
  Definition notes (c : cache V) (ks : list ckey) : cache V := fold_left (fun c k => note c k) ks c.
  Lemma notes_fields : forall ks c, mem (notes c ks) = mem c /\ method (notes c ks) = method c /\
    ddb (notes c ks) = ddb c /\ usedb (notes c ks) = usedb c /\ file (notes c ks) = file c.
  Proof.
    induction ks as [|k ks IH]; intros c; cbn [notes fold_left]; [auto|].
    destruct (IH (note c k)) as (A & B & C & D & E). fold (notes (note c k) ks). 
    destruct (note_fields c k) as (N1 & N2 & N3 & N4 & N5). repeat split; congruence.
  Qed.
  Lemma notes_Inv : forall ks c, Inv c -> (forall k, In k ks -> kmeth (method c) k = method c) -> Inv (notes c ks).
  Proof.
    induction ks as [|k ks IH]; intros c I K; cbn [notes fold_left]; [exact I|].
    apply IH.
    - apply note_Inv; [exact I|]. apply K. now left.
    - intros k' Hk. destruct (note_fields c k) as (_ & -> & _). apply K. now right.
  Qed.
  Lemma notes_keeps : forall ks c k, In k (missing c) -> In k (missing (notes c ks)).
  Proof. induction ks as [|k0 ks IH]; intros c k H; cbn [notes fold_left]; [exact H|]. apply IH. now apply note_keeps. Qed.
  Lemma notes_either : forall ks c k, In k ks -> (exists x, rget (mem c) k = Some x) \/ In k (missing (notes c ks)).
  Proof.
    induction ks as [|k0 ks IH]; intros c k H; [destruct H|]. cbn [notes fold_left].
    destruct H as [->|H].
    - destruct (note_either c k) as [L|R]; [now left|]. right. now apply notes_keeps.
    - destruct (IH (note c k0) k H) as [L|R]; [|now right]. left.
      now destruct (note_fields c k0) as (<- & _).
  Qed.
  Lemma notes_missing : forall ks c k, In k (missing (notes c ks)) -> In k ks \/ In k (missing c).
  Proof.
    induction ks as [|k0 ks IH]; intros c k H; cbn [notes fold_left] in H; [now right|].
    apply IH in H. destruct H as [H|H]; [left; now right|]. apply note_missing in H.
    destruct H as [->|H]; [left; now left|now right].
  Qed.

  Lemma request : forall c ks, Inv c -> (forall k, In k ks -> kmeth (method c) k = method c) ->
    let (c', r) := update (notes c ks) in
    updated (notes c ks) c' r /\
    (forall b, r = Ok b -> forall k, In k ks -> exists v, rget (mem c') k = Some v /\ calc (ddb c) (method c) k = Ok v).
  Proof.
    intros c ks I K. pose proof (notes_Inv _ I K) as I'. pose proof (update_spec I') as U.
    destruct (update (notes c ks)) as [c' r]. split; [exact U|].
    intros b Hb k Hk. destruct (notes_fields ks c) as (N1 & N2 & N3 & _).
    assert (E : exists x, rget (mem c') k = Some x).
    { destruct (@notes_either ks c k Hk) as [[x Hx]|M].
      - exists x. apply (U_keep U). now rewrite N1.
      - exact (proj2 (U_ok U Hb) k M). }
    destruct E as [x Hx]. exists x. split; [exact Hx|].
    pose proof (I_mem (U_inv U) _ Hx (method c)) as G. rewrite (U_ddb U), N3, (K k Hk) in G. exact G.
  Qed.

  (** ** Requests *)
  Definition closed (c : cache V) : Prop := usedb c = true -> open_tx (file c) = None.

  (** What a request computes, with every constituent calculated on the spot. *)
  Definition dir_multipole (dn : string) (mth : Z) (a b : state1) (kr ka : Z) : res V :=
    if artificial_or_mixed a b then Throw else
    let key1 := mkRad mth (species a) kr (n a) (n b) (l a) (l b) (j2 a) (j2 b) in
    let (key2, g2) := mkAng ka (j2 a) (j2 b) (m2 a) (m2 b) in
    let (key3, g3) := mkComS (s2 a) ka (l a) (l b) (j2 a) (j2 b) in
    let (key4, g4) := mkMul ka (l a) (l b) in
    do! r <- calc dn mth key1 ; do! x <- calc dn mth key2 ;
    do! y <- calc dn mth key3 ; do! z <- calc dn mth key4 ;
    Ok (vmul (vmul (vmul (vmul (vmul (vmul (vmul e_charge r) (sgn v1 vopp g2)) x) (sgn v1 vopp g3)) y) (sgn v1 vopp g4)) z).
  Definition dir_magnetic (dn : string) (mth : Z) (a b : state1) : res V :=
    if artificial_or_mixed a b then Throw else
    let key1 := mkRad mth (species a) 0 (n a) (n b) (l a) (l b) (j2 a) (j2 b) in
    let (key2, g2) := mkAng 1 (j2 a) (j2 b) (m2 a) (m2 b) in
    let (key3, g3) := mkComS (s2 a) 1 (l a) (l b) (j2 a) (j2 b) in
    let (key4, g4) := mkComL (s2 a) 1 (l a) (l b) (j2 a) (j2 b) in
    do! r <- calc dn mth key1 ; do! x <- calc dn mth key2 ;
    do! y <- calc dn mth key3 ; do! z <- calc dn mth key4 ;
    Ok (vmul (vmul (vmul (vmul minus_muB r) (sgn v1 vopp g2)) x)
         (vadd (vmul (vmul (vmul gL (sgn v1 vopp g3)) y) (sqrtL (l a)))
               (vmul (vmul (vmul gS (sgn v1 vopp g4)) z) (sqrtSpin (s2 a))))).
  Definition dir_radial (dn : string) (mth : Z) (a b : state1) (k : Z) : res V :=
    if artificial_or_mixed a b then Throw else
    calc dn mth (mkRad mth (species a) k (n a) (n b) (l a) (l b) (j2 a) (j2 b)).

  Record answered (c c' : cache V) (r dir : res V) : Prop := {
    A_inv : Inv c';
    A_method : method c' = method c;
    A_ddb : ddb c' = ddb c;
    A_usedb : usedb c' = usedb c;
    A_sound : forall v, r = Ok v -> dir = Ok v /\ (missing c' = []);
    A_total : radial_total -> closed c -> closed c' /\ (forall v, dir = Ok v -> r = Ok v);
    A_alone : missing c = [] -> closed c -> forall v, dir = Ok v -> r = Ok v }.

  Lemma kmeth_mkRad : forall m sp k n1 n2 l1 l2 j1 j2' d, kmeth d (mkRad m sp k n1 n2 l1 l2 j1 j2') = m.
  Proof. intros. unfold mkRad. destruct (_ || _); reflexivity. Qed.
  Lemma kmeth_mkAng : forall k j1 j2' a b d key g, mkAng k j1 j2' a b = (key, g) -> kmeth d key = d.
  Proof. intros k j1 j2' a b d key g H. unfold mkAng in H. destruct (_ || _); inversion H; reflexivity. Qed.
  Lemma kmeth_mkComS : forall s k a b j1 j2' d key g, mkComS s k a b j1 j2' = (key, g) -> kmeth d key = d.
  Proof. intros s k a b j1 j2' d key g H. unfold mkComS in H. destruct (swapCom _ _ _ _); inversion H; reflexivity. Qed.
  Lemma kmeth_mkComL : forall s k a b j1 j2' d key g, mkComL s k a b j1 j2' = (key, g) -> kmeth d key = d.
  Proof. intros s k a b j1 j2' d key g H. unfold mkComL in H. destruct (swapCom _ _ _ _); inversion H; reflexivity. Qed.
  Lemma kmeth_mkMul : forall k a b d key g, mkMul k a b = (key, g) -> kmeth d key = d.
  Proof. intros k a b d key g H. unfold mkMul in H. destruct (_ <=? _); inversion H; reflexivity. Qed.

  Lemma deref_get : forall (m : rows V) k v, rget m k = Some v -> deref m k = Ok v.
  Proof. intros m k v H. unfold deref. now rewrite H. Qed.

  (** All four keys calculable: the update after a quiet start cannot fail. *)
  Lemma alone_ok : forall c ks c' r, missing c = [] -> closed c ->
    (forall k, In k ks -> exists v, calc (ddb c) (method c) k = Ok v) ->
    updated (notes c ks) c' r -> exists b, r = Ok b.
  Proof.
    intros c ks c' r M O K U. destruct (notes_fields ks c) as (N1 & N2 & N3 & N4 & N5).
    destruct r as [b| |]; [eauto| |].
    all: exfalso; destruct (U_fail U) as (k & Hk & N); [discriminate| rewrite N4, N5; exact O|].
    all: rewrite N2, N3 in N; apply notes_missing in Hk; rewrite M in Hk; destruct Hk as [Hk|[]].
    all: destruct (K k Hk) as [v Hv]; exact (N v Hv).
  Qed.

  Lemma gem_answer : forall c a b kr ka, Inv c ->
    let (c', r) := gem c a b kr ka in answered c c' r (dir_multipole (ddb c) (method c) a b kr ka).
  Proof.
    intros c a b kr ka I. unfold getElectricMultipole, dir_multipole.
    destruct (artificial_or_mixed a b) eqn:AM.
    { constructor; auto; try (intros; discriminate). }
    set (key1 := mkRad _ _ _ _ _ _ _ _ _).
    destruct (mkAng ka (j2 a) (j2 b) (m2 a) (m2 b)) as [key2 g2] eqn:E2.
    destruct (mkComS (s2 a) ka (l a) (l b) (j2 a) (j2 b)) as [key3 g3] eqn:E3.
    destruct (mkMul ka (l a) (l b)) as [key4 g4] eqn:E4.
    change (note (note (note (note c key1) key2) key3) key4) with (notes c [key1; key2; key3; key4]).
    assert (K : forall k, In k [key1; key2; key3; key4] -> kmeth (method c) k = method c).
    { intros k [<-|[<-|[<-|[<-|[]]]]]; [apply kmeth_mkRad|eapply kmeth_mkAng|eapply kmeth_mkComS|eapply kmeth_mkMul]; eassumption. }
    pose proof (request _ I K) as R.
    destruct (update (notes c [key1; key2; key3; key4])) as [c' r] eqn:EU. destruct R as [U R].
    destruct (notes_fields [key1; key2; key3; key4] c) as (N1 & N2 & N3 & N4 & N5).
    assert (T2 : exists v, calc (ddb c) (method c) key2 = Ok v).
    { unfold mkAng in E2. destruct (_ || _); inversion E2; subst; cbn; eauto. }
    assert (T3 : exists v, calc (ddb c) (method c) key3 = Ok v).
    { unfold mkComS in E3. destruct (swapCom _ _ _ _); inversion E3; subst; cbn; eauto. }
    assert (T4 : exists v, calc (ddb c) (method c) key4 = Ok v).
    { unfold mkMul in E4. destruct (_ <=? _); inversion E4; subst; cbn; eauto. }
    assert (OKcase : forall bb, r = Ok bb -> exists v1' v2 v3 v4,
       (rget (mem c') key1 = Some v1' /\ calc (ddb c) (method c) key1 = Ok v1') /\
       (rget (mem c') key2 = Some v2 /\ calc (ddb c) (method c) key2 = Ok v2) /\
       (rget (mem c') key3 = Some v3 /\ calc (ddb c) (method c) key3 = Ok v3) /\
       (rget (mem c') key4 = Some v4 /\ calc (ddb c) (method c) key4 = Ok v4)).
    { intros bb Hb. destruct (R bb Hb key1) as [x1 H1]; [cbn; auto|]. destruct (R bb Hb key2) as [x2 H2]; [cbn; auto|].
      destruct (R bb Hb key3) as [x3 H3]; [cbn; auto|]. destruct (R bb Hb key4) as [x4 H4]; [cbn; auto|].
      exists x1, x2, x3, x4. auto. }
    assert (DIR : forall v, (do! r <- calc (ddb c) (method c) key1 ; do! x <- calc (ddb c) (method c) key2 ;
      do! y <- calc (ddb c) (method c) key3 ; do! z <- calc (ddb c) (method c) key4 ;
      Ok (vmul (vmul (vmul (vmul (vmul (vmul (vmul e_charge r) (sgn v1 vopp g2)) x) (sgn v1 vopp g3)) y) (sgn v1 vopp g4)) z)) = Ok v
      -> exists w, calc (ddb c) (method c) key1 = Ok w).
    { intros v H. destruct (calc (ddb c) (method c) key1); [eauto|discriminate|discriminate]. }
    destruct r as [bb| |]; constructor; try exact (U_inv U); try congruence;
      rewrite ?(U_method U), ?(U_ddb U), ?(U_usedb U), ?N2, ?N3, ?N4; auto.
    - destruct (OKcase bb eq_refl) as (x1 & x2 & x3 & x4 & [G1 C1] & [G2 C2] & [G3 C3] & [G4 C4]).
      rewrite (deref_get _ _ G1), (deref_get _ _ G2), (deref_get _ _ G3), (deref_get _ _ G4), C1, C2, C3, C4. cbn.
      intros v H. split; [exact H|]. exact (proj1 (U_ok U eq_refl)).
    - intros T O. split.
      + unfold closed. apply (U_total U); [exact T|]. rewrite N4, N5. exact O.
      + destruct (OKcase bb eq_refl) as (x1 & x2 & x3 & x4 & [G1 C1] & [G2 C2] & [G3 C3] & [G4 C4]).
        rewrite (deref_get _ _ G1), (deref_get _ _ G2), (deref_get _ _ G3), (deref_get _ _ G4), C1, C2, C3, C4. auto.
    - intros _ _. destruct (OKcase bb eq_refl) as (x1 & x2 & x3 & x4 & [G1 C1] & [G2 C2] & [G3 C3] & [G4 C4]).
      rewrite (deref_get _ _ G1), (deref_get _ _ G2), (deref_get _ _ G3), (deref_get _ _ G4), C1, C2, C3, C4. auto.
    - intros T O. exfalso. destruct (U_total U T) as [[b' Hb] _]; [rewrite N4, N5; exact O|discriminate].
    - intros M O v H. exfalso. destruct (DIR v H) as [w Hw].
      destruct (@alone_ok c [key1; key2; key3; key4] c' Throw M O) as [b' Hb]; [|exact U|discriminate].
      intros k [<-|[<-|[<-|[<-|[]]]]]; eauto.
    - intros T O. exfalso. destruct (U_total U T) as [[b' Hb] _]; [rewrite N4, N5; exact O|discriminate].
    - intros M O v H. exfalso. destruct (DIR v H) as [w Hw].
      destruct (@alone_ok c [key1; key2; key3; key4] c' UB M O) as [b' Hb]; [|exact U|discriminate].
      intros k [<-|[<-|[<-|[<-|[]]]]]; eauto.
  Qed.

  Lemma gmd_answer : forall c a b, Inv c ->
    let (c', r) := gmd c a b in answered c c' r (dir_magnetic (ddb c) (method c) a b).
  Proof.
    intros c a b I. unfold getMagneticDipole, dir_magnetic.
    destruct (artificial_or_mixed a b) eqn:AM.
    { constructor; auto; try (intros; discriminate). }
    set (key1 := mkRad _ _ _ _ _ _ _ _ _).
    destruct (mkAng 1 (j2 a) (j2 b) (m2 a) (m2 b)) as [key2 g2] eqn:E2.
    destruct (mkComS (s2 a) 1 (l a) (l b) (j2 a) (j2 b)) as [key3 g3] eqn:E3.
    destruct (mkComL (s2 a) 1 (l a) (l b) (j2 a) (j2 b)) as [key4 g4] eqn:E4.
    change (note (note (note (note c key1) key2) key3) key4) with (notes c [key1; key2; key3; key4]).
    assert (K : forall k, In k [key1; key2; key3; key4] -> kmeth (method c) k = method c).
    { intros k [<-|[<-|[<-|[<-|[]]]]]; [apply kmeth_mkRad|eapply kmeth_mkAng|eapply kmeth_mkComS|eapply kmeth_mkComL]; eassumption. }
    pose proof (request _ I K) as R.
    destruct (update (notes c [key1; key2; key3; key4])) as [c' r] eqn:EU. destruct R as [U R].
    destruct (notes_fields [key1; key2; key3; key4] c) as (N1 & N2 & N3 & N4 & N5).
    assert (T2 : exists v, calc (ddb c) (method c) key2 = Ok v).
    { unfold mkAng in E2. destruct (_ || _); inversion E2; subst; cbn; eauto. }
    assert (T3 : exists v, calc (ddb c) (method c) key3 = Ok v).
    { unfold mkComS in E3. destruct (swapCom _ _ _ _); inversion E3; subst; cbn; eauto. }
    assert (T4 : exists v, calc (ddb c) (method c) key4 = Ok v).
    { unfold mkComL in E4. destruct (swapCom _ _ _ _); inversion E4; subst; cbn; eauto. }
    assert (OKcase : forall bb, r = Ok bb -> exists v1' v2 v3 v4,
       (rget (mem c') key1 = Some v1' /\ calc (ddb c) (method c) key1 = Ok v1') /\
       (rget (mem c') key2 = Some v2 /\ calc (ddb c) (method c) key2 = Ok v2) /\
       (rget (mem c') key3 = Some v3 /\ calc (ddb c) (method c) key3 = Ok v3) /\
       (rget (mem c') key4 = Some v4 /\ calc (ddb c) (method c) key4 = Ok v4)).
    { intros bb Hb. destruct (R bb Hb key1) as [x1 H1]; [cbn; auto|]. destruct (R bb Hb key2) as [x2 H2]; [cbn; auto|].
      destruct (R bb Hb key3) as [x3 H3]; [cbn; auto|]. destruct (R bb Hb key4) as [x4 H4]; [cbn; auto|].
      exists x1, x2, x3, x4. auto. }
    match goal with |- context [answered c _ _ (bind ?f ?g)] => idtac | _ => idtac end.
    assert (DIR : forall (g : V -> res V) v, (do! r <- calc (ddb c) (method c) key1 ; g r) = Ok v
      -> exists w, calc (ddb c) (method c) key1 = Ok w).
    { intros g v H. destruct (calc (ddb c) (method c) key1); [eauto|discriminate|discriminate]. }
    destruct r as [bb| |]; constructor; try exact (U_inv U); try congruence;
      rewrite ?(U_method U), ?(U_ddb U), ?(U_usedb U), ?N2, ?N3, ?N4; auto.
    - destruct (OKcase bb eq_refl) as (x1 & x2 & x3 & x4 & [G1 C1] & [G2 C2] & [G3 C3] & [G4 C4]).
      rewrite (deref_get _ _ G1), (deref_get _ _ G2), (deref_get _ _ G3), (deref_get _ _ G4), C1, C2, C3, C4. cbn.
      intros v H. split; [exact H|]. exact (proj1 (U_ok U eq_refl)).
    - intros T O. split.
      + unfold closed. apply (U_total U); [exact T|]. rewrite N4, N5. exact O.
      + destruct (OKcase bb eq_refl) as (x1 & x2 & x3 & x4 & [G1 C1] & [G2 C2] & [G3 C3] & [G4 C4]).
        rewrite (deref_get _ _ G1), (deref_get _ _ G2), (deref_get _ _ G3), (deref_get _ _ G4), C1, C2, C3, C4. auto.
    - intros _ _. destruct (OKcase bb eq_refl) as (x1 & x2 & x3 & x4 & [G1 C1] & [G2 C2] & [G3 C3] & [G4 C4]).
      rewrite (deref_get _ _ G1), (deref_get _ _ G2), (deref_get _ _ G3), (deref_get _ _ G4), C1, C2, C3, C4. auto.
    - intros T O. exfalso. destruct (U_total U T) as [[b' Hb] _]; [rewrite N4, N5; exact O|discriminate].
    - intros M O v H. exfalso. destruct (DIR _ v H) as [w Hw].
      destruct (@alone_ok c [key1; key2; key3; key4] c' Throw M O) as [b' Hb]; [|exact U|discriminate].
      intros k [<-|[<-|[<-|[<-|[]]]]]; eauto.
    - intros T O. exfalso. destruct (U_total U T) as [[b' Hb] _]; [rewrite N4, N5; exact O|discriminate].
    - intros M O v H. exfalso. destruct (DIR _ v H) as [w Hw].
      destruct (@alone_ok c [key1; key2; key3; key4] c' UB M O) as [b' Hb]; [|exact U|discriminate].
      intros k [<-|[<-|[<-|[<-|[]]]]]; eauto.
  Qed.

  (** The radial request: sound, but its iterator may dangle. *)
  Record answered_rad (c c' : cache V) (r dir : res V) : Prop := {
    R_inv : Inv c';
    R_method : method c' = method c;
    R_ddb : ddb c' = ddb c;
    R_usedb : usedb c' = usedb c;
    R_sound : forall v, r = Ok v -> dir = Ok v /\ (missing c' = []);
    R_total : radial_total -> closed c -> closed c';
    R_alone : (forall m, rehashed m m = false) -> missing c = [] -> closed c -> forall v, dir = Ok v -> r = Ok v }.

  Lemma grd_answer : forall c a b k, Inv c ->
    let (c', r) := grd c a b k in answered_rad c c' r (dir_radial (ddb c) (method c) a b k).
  Proof.
    intros c a b k I. unfold getRadial, dir_radial.
    destruct (artificial_or_mixed a b) eqn:AM.
    { constructor; auto; intros; discriminate. }
    set (key1 := mkRad _ _ _ _ _ _ _ _ _).
    change (note c key1) with (notes c [key1]).
    assert (K : forall k', In k' [key1] -> kmeth (method c) k' = method c).
    { intros k' [<-|[]]. apply kmeth_mkRad. }
    pose proof (request _ I K) as R.
    destruct (update (notes c [key1])) as [c' r] eqn:EU. destruct R as [U R].
    destruct (notes_fields [key1] c) as (N1 & N2 & N3 & N4 & N5).
    destruct r as [bb| |]; constructor; try exact (U_inv U); try congruence;
      rewrite ?(U_method U), ?(U_ddb U), ?(U_usedb U), ?N2, ?N3, ?N4; auto.
    - intros v H. destruct (R bb eq_refl key1) as (x & G & C); [now left|].
      destruct (has (mem c) key1 && rehashed (mem c) (mem c')); [discriminate|].
      rewrite (deref_get _ _ G) in H. inversion H; subst. split; [exact C|exact (proj1 (U_ok U eq_refl))].
    - intros T O. unfold closed. apply (U_total U); [exact T|]. rewrite N4, N5. exact O.
    - intros Rh M O v H. destruct (R bb eq_refl key1) as (x & G & C); [now left|].
      rewrite (deref_get _ _ G). rewrite C in H. inversion H; subst.
      destruct (has (mem c) key1) eqn:HS; [|reflexivity].
      (* nothing was missing: the map is unchanged *)
      assert (NM : missing (notes c [key1]) = []).
      { cbn [notes fold_left]. unfold note. now rewrite HS. }
      destruct (U_idle U NM) as [-> _]. rewrite N1, Rh. reflexivity.
    - intros T O. unfold closed. apply (U_total U); [exact T|]. rewrite N4, N5. exact O.
    - intros Rh M O v H. exfalso.
      destruct (@alone_ok c [key1] c' Throw M O) as [b' Hb]; [|exact U|discriminate].
      intros k' [<-|[]]. eauto.
    - intros T O. unfold closed. apply (U_total U); [exact T|]. rewrite N4, N5. exact O.
    - intros Rh M O v H. exfalso.
      destruct (@alone_ok c [key1] c' UB M O) as [b' Hb]; [|exact U|discriminate].
      intros k' [<-|[]]. eauto.
  Qed.

  (** ** Histories *)
  Definition lifeInv (p : life) (c : cache V) : Prop :=
    match p with Virgin => mem c = [] /\ missing c = [] | Settled => missing c = [] | Pending => True end.

  Lemma rows_good : forall r, rows_correct calc r -> goodrows EmptyString r.
  Proof.
    intros r H k v G. apply H. clear H. revert G. induction r as [|[k' v'] r IH]; cbn [rget]; [discriminate|].
    destruct (ckey_eqb k' k) eqn:E.
    - apply ckey_eqb_eq in E. subst. intros G. inversion G; subst. now left.
    - intros G. right. now apply IH.
  Qed.

  Lemma pre_kmeth : forall mth sp s ka kr el mag rad a b k,
    In k (pre_keys mth sp s ka kr el mag rad a b) -> kmeth mth k = mth.
  Proof.
    intros mth sp s ka kr el mag rad a b k H. unfold pre_keys in H.
    destruct (negb _); [destruct H|]. rewrite !in_app_iff in H.
    repeat match goal with [H : _ \/ _ |- _] => destruct H as [H|H] end;
    match type of H with In _ (if ?x then _ else _) => destruct x; [|destruct H] end;
    destruct H as [<-|[]].
    - apply kmeth_mkRad.
    - destruct (mkAng _ _ _ _ _) eqn:E. eapply kmeth_mkAng; eassumption.
    - destruct (mkComS _ _ _ _ _ _) eqn:E. eapply kmeth_mkComS; eassumption.
    - destruct (mkComL _ _ _ _ _ _) eqn:E. eapply kmeth_mkComL; eassumption.
    - destruct (mkMul _ _ _) eqn:E. eapply kmeth_mkMul; eassumption.
  Qed.

  Lemma pre_notes : forall c basis ka q kr el mag rad, exists ks,
    precalculate c basis ka q kr el mag rad = notes c ks /\ forall k, In k ks -> kmeth (method c) k = method c.
  Proof.
    intros c basis ka q kr el mag rad. unfold precalculate.
    destruct (filter _ basis) as [|first real] eqn:F; [exists []; split; [reflexivity|intros k []]|].
    eexists. split; [reflexivity|].
    generalize (@nil state1) at 1. generalize (first :: real). intros todo.
    induction todo as [|col todo IH]; intros pre k H; cbn [pre_cols] in H; [destruct H|].
    rewrite in_app_iff, in_flat_map in H. destruct H as [(row & _ & H)|H]; [|exact (IH _ _ H)].
    destruct (match q with Some q' => _ | None => false end); [destruct H|].
    eapply pre_kmeth; exact H.
  Qed.

  Lemma hist_inv : forall h c p, Inv c -> lifeInv p c ->
    (forall new, In (EExtern new) h -> rows_correct calc new) ->
    let (c', rs) := runE c h in
    forall p', track p h rs = Some p' ->
      Inv c' /\ lifeInv p' c' /\ (ddb c', method c') = settings (ddb c) (method c) h /\
      (radial_total -> closed c -> closed c').
  Proof.
    induction h as [|e h IH]; intros c p I L X; cbn [MEModel.runE].
    - intros p' T. inversion T; subst. auto.
    - destruct (stepE c e) as [c1 o] eqn:ES. destruct (runE c1 h) as [c2 rs] eqn:ER.
      assert (X' : forall new, In (EExtern new) h -> rows_correct calc new) by (intros new Hn; apply X; now right).
      destruct e; cbn [MEModel.stepE] in ES.
      + pose proof (gem_answer a b kr ka I) as G. destruct (gem c a b kr ka) as [c1' r]. inversion ES; subst.
        cbn [track settings].
        intros p' T. destruct r as [v| |].
        * assert (LL : lifeInv Settled c1) by exact (proj2 (A_sound G eq_refl)).
          specialize (IH c1 Settled (A_inv G) LL X'). rewrite ER in IH. destruct (IH p' T) as (A & B & C & D).
          rewrite (A_ddb G), (A_method G) in C. split; [exact A|split; [exact B|split; [exact C|]]].
          intros RT O. apply D; [exact RT|]. now apply (A_total G).
        * specialize (IH c1 Pending (A_inv G) Logic.I X'). rewrite ER in IH. destruct (IH p' T) as (A & B & C & D).
          rewrite (A_ddb G), (A_method G) in C. split; [exact A|split; [exact B|split; [exact C|]]].
          intros RT O. apply D; [exact RT|]. now apply (A_total G).
        * specialize (IH c1 Pending (A_inv G) Logic.I X'). rewrite ER in IH. destruct (IH p' T) as (A & B & C & D).
          rewrite (A_ddb G), (A_method G) in C. split; [exact A|split; [exact B|split; [exact C|]]].
          intros RT O. apply D; [exact RT|]. now apply (A_total G).
      + pose proof (gmd_answer a b I) as G. destruct (gmd c a b) as [c1' r]. inversion ES; subst.
        cbn [track settings].
        intros p' T. destruct r as [v| |].
        * assert (LL : lifeInv Settled c1) by exact (proj2 (A_sound G eq_refl)).
          specialize (IH c1 Settled (A_inv G) LL X'). rewrite ER in IH. destruct (IH p' T) as (A & B & C & D).
          rewrite (A_ddb G), (A_method G) in C. split; [exact A|split; [exact B|split; [exact C|]]].
          intros RT O. apply D; [exact RT|]. now apply (A_total G).
        * specialize (IH c1 Pending (A_inv G) Logic.I X'). rewrite ER in IH. destruct (IH p' T) as (A & B & C & D).
          rewrite (A_ddb G), (A_method G) in C. split; [exact A|split; [exact B|split; [exact C|]]].
          intros RT O. apply D; [exact RT|]. now apply (A_total G).
        * specialize (IH c1 Pending (A_inv G) Logic.I X'). rewrite ER in IH. destruct (IH p' T) as (A & B & C & D).
          rewrite (A_ddb G), (A_method G) in C. split; [exact A|split; [exact B|split; [exact C|]]].
          intros RT O. apply D; [exact RT|]. now apply (A_total G).
      + pose proof (grd_answer a b k I) as G. destruct (grd c a b k) as [c1' r]. inversion ES; subst.
        cbn [track settings].
        intros p' T. destruct r as [v| |].
        * assert (LL : lifeInv Settled c1) by exact (proj2 (R_sound G eq_refl)).
          specialize (IH c1 Settled (R_inv G) LL X'). rewrite ER in IH. destruct (IH p' T) as (A & B & C & D).
          rewrite (R_ddb G), (R_method G) in C. split; [exact A|split; [exact B|split; [exact C|]]].
          intros RT O. apply D; [exact RT|]. now apply (R_total G).
        * specialize (IH c1 Pending (R_inv G) Logic.I X'). rewrite ER in IH. destruct (IH p' T) as (A & B & C & D).
          rewrite (R_ddb G), (R_method G) in C. split; [exact A|split; [exact B|split; [exact C|]]].
          intros RT O. apply D; [exact RT|]. now apply (R_total G).
        * specialize (IH c1 Pending (R_inv G) Logic.I X'). rewrite ER in IH. destruct (IH p' T) as (A & B & C & D).
          rewrite (R_ddb G), (R_method G) in C. split; [exact A|split; [exact B|split; [exact C|]]].
          intros RT O. apply D; [exact RT|]. now apply (R_total G).
      + inversion ES; subst. clear ES. cbn [track settings].
        destruct (pre_notes c basis ka q kr el mag rad) as (ks & EP & K). rewrite EP in ER.
        intros p' T. specialize (IH (notes c ks) Pending (notes_Inv _ I K) Logic.I X'). rewrite ER in IH.
        destruct (notes_fields ks c) as (N1 & N2 & N3 & N4 & N5).
        destruct (IH p' T) as (A & B & C & D). rewrite N2, N3 in C. split; [exact A|split; [exact B|split; [exact C|]]].
        intros RT O. apply D; [exact RT|]. unfold closed. rewrite N4, N5. exact O.
      + inversion ES; subst. clear ES. cbn [track settings]. intros p' T.
        assert (NP : missing c = []) by (destruct p; [apply L|exact L|discriminate]).
        assert (I' : Inv (setMethod c m)).
        { destruct I as [A B C D]. constructor; cbn [setMethod mem ddb usedb file method missing]; auto.
          intros k Hk. cbn in Hk. rewrite NP in Hk. destruct Hk. }
        assert (L' : lifeInv p (setMethod c m)) by (destruct p; cbn in *; auto).
        specialize (IH (setMethod c m) p I' L' X'). rewrite ER in IH.
        assert (T2 : track p h rs = Some p') by (destruct p; [exact T|exact T|discriminate]). destruct (IH p' T2) as (A & B & C & D); split; [exact A|split; [exact B|split; [exact C|exact D]]].
      + inversion ES; subst. clear ES. cbn [track settings]. intros p' T.
        destruct p; try discriminate. cbn in L. destruct L as [L1 L2].
        assert (I' : Inv (setDefectDB c path)).
        { destruct I as [A B C D]. constructor; cbn [setDefectDB mem ddb usedb file method missing]; auto.
          - rewrite L1. intros k v H. discriminate.
          - discriminate. }
        assert (L' : lifeInv Virgin (setDefectDB c path)) by (cbn; auto).
        specialize (IH (setDefectDB c path) Virgin I' L' X'). rewrite ER in IH.
        destruct (IH p' T) as (A & B & C & D). split; [exact A|split; [exact B|split; [exact C|]]].
        intros RT O. apply D; [exact RT|]. intros Hu. discriminate.
      + inversion ES; subst. clear ES. cbn [track settings]. intros p' T.
        match type of ER with MEModel.runE _ _ _ _ _ _ _ _ _ _ _ _ _ _ _ _ _ ?x _ = _ => set (cx := x) in ER end.
        assert (I' : Inv cx).
        { destruct I as [A B [C1 C2] D]. constructor; unfold cx; cbn [mem ddb usedb file method missing]; auto.
          split; cbn [committed open_tx]; [|exact C2]. apply good_app; [exact C1|].
          apply rows_good. apply X. now left. }
        assert (L' : lifeInv p cx) by (destruct p; exact L).
        specialize (IH cx p I' L' X'). rewrite ER in IH. destruct (IH p' T) as (A & B & C & D).
        split; [exact A|split; [exact B|split; [exact C|exact D]]].
      + inversion ES; subst. clear ES. cbn [track settings]. intros p' T.
        match type of ER with MEModel.runE _ _ _ _ _ _ _ _ _ _ _ _ _ _ _ _ _ ?x _ = _ => set (cx := x) in ER end.
        assert (I' : Inv cx).
        { destruct I as [A B [C1 C2] D]. constructor; unfold cx; cbn [newCache mem ddb usedb file method missing]; auto.
          - intros k v H. discriminate.
          - split; cbn [committed open_tx]; [exact C1|discriminate].
          - intros k []. }
        specialize (IH cx Virgin I' (conj eq_refl eq_refl) X'). rewrite ER in IH. destruct (IH p' T) as (A & B & C & D).
        split; [exact A|split; [exact B|split; [exact C|]]]. intros RT _. apply D; [exact RT|]. intros _. reflexivity.
  Qed.

  Lemma fresh_Inv : forall dn mth, Inv (fresh V dn mth).
  Proof.
    intros dn mth. constructor; cbn [fresh mem ddb usedb file method missing]; try discriminate.
    - split; cbn; [intros k v H; discriminate|discriminate].
    - intros k [].
  Qed.
  Lemma newCache_Inv : forall u f, rows_correct calc (committed f) -> open_tx f = None -> Inv (newCache u f).
  Proof.
    intros u f H O. constructor; cbn [newCache mem ddb usedb file method missing]; auto.
    - intros k v G. discriminate.
    - split; [now apply rows_good|rewrite O; discriminate].
    - intros k [].
  Qed.

  Lemma gem_fresh : forall dn mth a b kr ka v,
    snd (gem (fresh V dn mth) a b kr ka) = Ok v <-> dir_multipole dn mth a b kr ka = Ok v.
  Proof.
    intros. pose proof (gem_answer a b kr ka (fresh_Inv dn mth)) as G.
    destruct (gem (fresh V dn mth) a b kr ka) as [c' r]. cbn [snd]. split.
    - intros H. exact (proj1 (A_sound G H)).
    - apply (A_alone G); [reflexivity|discriminate].
  Qed.
  Lemma gmd_fresh : forall dn mth a b v,
    snd (gmd (fresh V dn mth) a b) = Ok v <-> dir_magnetic dn mth a b = Ok v.
  Proof.
    intros. pose proof (gmd_answer a b (fresh_Inv dn mth)) as G.
    destruct (gmd (fresh V dn mth) a b) as [c' r]. cbn [snd]. split.
    - intros H. exact (proj1 (A_sound G H)).
    - apply (A_alone G); [reflexivity|discriminate].
  Qed.
  Lemma grd_fresh : (forall m, rehashed m m = false) -> forall dn mth a b k v,
    snd (grd (fresh V dn mth) a b k) = Ok v <-> dir_radial dn mth a b k = Ok v.
  Proof.
    intros Rh dn mth a b k v. pose proof (grd_answer a b k (fresh_Inv dn mth)) as G.
    destruct (grd (fresh V dn mth) a b k) as [c' r]. cbn [snd]. split.
    - intros H. exact (proj1 (R_sound G H)).
    - apply (R_alone G Rh); [reflexivity|discriminate].
  Qed.

  Lemma dir_or_throw : radial_total -> forall dn mth a b kr ka,
    (artificial_or_mixed a b = true /\ dir_multipole dn mth a b kr ka = Throw) \/
    (artificial_or_mixed a b = false /\ exists v, dir_multipole dn mth a b kr ka = Ok v).
  Proof.
    intros T dn mth a b kr ka. unfold dir_multipole. destruct (artificial_or_mixed a b); [now left|right].
    split; [reflexivity|].
    destruct (mkAng _ _ _ _ _), (mkComS _ _ _ _ _ _), (mkMul _ _ _).
    repeat match goal with |- context [bind (calc ?d ?m ?k) _] =>
      let v := fresh "v" in let E := fresh "E" in destruct (calc_total T d m k) as [v E]; rewrite E; cbn [bind] end.
    eauto.
  Qed.
  Lemma dirm_or_throw : radial_total -> forall dn mth a b,
    (artificial_or_mixed a b = true /\ dir_magnetic dn mth a b = Throw) \/
    (artificial_or_mixed a b = false /\ exists v, dir_magnetic dn mth a b = Ok v).
  Proof.
    intros T dn mth a b. unfold dir_magnetic. destruct (artificial_or_mixed a b); [now left|right].
    split; [reflexivity|].
    destruct (mkAng _ _ _ _ _), (mkComS _ _ _ _ _ _), (mkComL _ _ _ _ _ _).
    repeat match goal with |- context [bind (calc ?d ?m ?k) _] =>
      let v := fresh "v" in let E := fresh "E" in destruct (calc_total T d m k) as [v E]; rewrite E; cbn [bind] end.
    eauto.
  Qed.

  (** *** C15 / C16 / C18, assembled *)
  Theorem any_history : forall u f h,
    rows_correct calc (committed f) -> open_tx f = None ->
    (forall new, In (EExtern new) h -> rows_correct calc new) ->
    let (c, rs) := runE (newCache u f) h in
    forall p, track Virgin h rs = Some p ->
    let (dn, mth) := settings EmptyString 0 h in
    (forall a b kr ka v, snd (gem c a b kr ka) = Ok v -> snd (gem (fresh V dn mth) a b kr ka) = Ok v) /\
    (forall a b v, snd (gmd c a b) = Ok v -> snd (gmd (fresh V dn mth) a b) = Ok v) /\
    ((forall m, rehashed m m = false) ->
     forall a b k v, snd (grd c a b k) = Ok v -> snd (grd (fresh V dn mth) a b k) = Ok v).
  Proof.
    intros u f h F O X.
    pose proof (@hist_inv h (newCache u f) Virgin (newCache_Inv u f F O) (conj eq_refl eq_refl) X) as H.
    destruct (runE (newCache u f) h) as [c rs]. intros p T. destruct (H p T) as (I & L & S & D).
    cbn [newCache ddb method] in S. destruct (settings EmptyString 0 h) as [dn mth]. inversion S; subst dn mth. clear S.
    repeat split.
    - intros a b kr ka v Hv. apply gem_fresh. pose proof (gem_answer a b kr ka I) as G.
      destruct (gem c a b kr ka) as [c' r]. exact (proj1 (A_sound G Hv)).
    - intros a b v Hv. apply gmd_fresh. pose proof (gmd_answer a b I) as G.
      destruct (gmd c a b) as [c' r]. exact (proj1 (A_sound G Hv)).
    - intros Rh a b k v Hv. apply grd_fresh; [exact Rh|]. pose proof (grd_answer a b k I) as G.
      destruct (grd c a b k) as [c' r]. exact (proj1 (R_sound G Hv)).
  Qed.

  Theorem any_history_total : radial_total -> forall u f h,
    rows_correct calc (committed f) -> open_tx f = None ->
    (forall new, In (EExtern new) h -> rows_correct calc new) ->
    let (c, rs) := runE (newCache u f) h in
    forall p, track Virgin h rs = Some p ->
    let (dn, mth) := settings EmptyString 0 h in
    (forall a b kr ka, snd (gem c a b kr ka) = snd (gem (fresh V dn mth) a b kr ka)) /\
    (forall a b, snd (gmd c a b) = snd (gmd (fresh V dn mth) a b)) /\
    ((forall m, rehashed m m = false) -> p <> Pending ->
     forall a b k, snd (grd c a b k) = snd (grd (fresh V dn mth) a b k)).
  Proof.
    intros RT u f h F O X.
    pose proof (@hist_inv h (newCache u f) Virgin (newCache_Inv u f F O) (conj eq_refl eq_refl) X) as H.
    destruct (runE (newCache u f) h) as [c rs]. intros p T. destruct (H p T) as (I & L & S & D).
    assert (CL : closed c) by (apply D; [exact RT|]; intros _; exact O).
    cbn [newCache ddb method] in S. destruct (settings EmptyString 0 h) as [dn mth]. inversion S; subst dn mth. clear S.
    repeat split.
    - intros a b kr ka. destruct (dir_or_throw RT (ddb c) (method c) a b kr ka) as [[AM _]|[AM [v Hv]]].
      + unfold getElectricMultipole. now rewrite AM.
      + transitivity (Ok v).
        * pose proof (gem_answer a b kr ka I) as G. destruct (gem c a b kr ka) as [c' r].
          now apply (A_total G).
        * symmetry. now apply gem_fresh.
    - intros a b. destruct (dirm_or_throw RT (ddb c) (method c) a b) as [[AM _]|[AM [v Hv]]].
      + unfold getMagneticDipole. now rewrite AM.
      + transitivity (Ok v).
        * pose proof (gmd_answer a b I) as G. destruct (gmd c a b) as [c' r].
          now apply (A_total G).
        * symmetry. now apply gmd_fresh.
    - intros Rh NP a b k. destruct (artificial_or_mixed a b) eqn:AM.
      + unfold getRadial. now rewrite AM.
      + assert (Hv : exists v, dir_radial (ddb c) (method c) a b k = Ok v).
        { unfold dir_radial. rewrite AM. now apply calc_total. }
        destruct Hv as [v Hv]. transitivity (Ok v).
        * pose proof (grd_answer a b k I) as G. destruct (grd c a b k) as [c' r].
          apply (R_alone G Rh); [destruct p; [apply L|exact L|now destruct NP]|exact CL|exact Hv].
        * symmetry. now apply grd_fresh.
  Qed.

  (** *** C18: what a database file holds, after any permitted history, is correct. *)
  Theorem file_correct : forall u f h,
    rows_correct calc (committed f) -> open_tx f = None ->
    (forall new, In (EExtern new) h -> rows_correct calc new) ->
    let (c, rs) := runE (newCache u f) h in
    forall p, track Virgin h rs = Some p ->
    forall k v, rget (committed (file c)) k = Some v -> forall d, calc EmptyString (kmeth d k) k = Ok v.
  Proof.
    intros u f h F O X.
    pose proof (@hist_inv h (newCache u f) Virgin (newCache_Inv u f F O) (conj eq_refl eq_refl) X) as H.
    destruct (runE (newCache u f) h) as [c rs]. intros p T. destruct (H p T) as (I & _).
    exact (proj1 (I_file I)).
  Qed.

  (** Until the commit the file holds what it held before, wherever in update() the process dies. *)
  Theorem fill_uncommitted : forall dn mth u ms f m f' m' r, fill dn mth u f m ms = (f', m', r) ->
    committed f' = committed f.
  Proof.
    intros dn mth u. induction ms as [|k ms IH]; intros f m f' m' r H; cbn [MEModel.fill] in H.
    - now inversion H.
    - destruct (calc dn mth k); [|now inversion H|now inversion H].
      apply IH in H. rewrite H. apply txput_committed.
  Qed.

  (** *** C16: without a database nothing touches the file. *)
  Lemma fill_nofile : forall dn mth ms f m f' m' r, fill dn mth false f m ms = (f', m', r) -> f' = f.
  Proof.
    intros dn mth. induction ms as [|k ms IH]; intros f m f' m' r H; cbn [MEModel.fill] in H.
    - now inversion H.
    - destruct (calc dn mth k); [|now inversion H|now inversion H]. apply IH in H. exact H.
  Qed.
  Lemma update_nofile : forall c, usedb c = false ->
    file (fst (update c)) = file c /\ usedb (fst (update c)) = false.
  Proof.
    intros c U. unfold MEModel.update. destruct (missing c) as [|k0 ms0]; [auto|]. rewrite U.
    destruct (fill (ddb c) (method c) false (file c) (mem c) (order (filter is_rad (k0 :: ms0)))) as [[d1 mm2] r1] eqn:F1.
    apply fill_nofile in F1. subst d1.
    destruct r1; [|auto|auto].
    destruct (fill (ddb c) (method c) false (file c) mm2 (order (filter (fun k => negb (is_rad k)) (k0 :: ms0)))) as [[d2 m3] r2] eqn:F2.
    apply fill_nofile in F2. subst d2. destruct r2; auto.
  Qed.
  Lemma request_nofile : forall c ks, usedb c = false ->
    file (fst (update (notes c ks))) = file c /\ usedb (fst (update (notes c ks))) = false.
  Proof.
    intros c ks U. destruct (notes_fields ks c) as (_ & _ & _ & N4 & N5). rewrite <- N5. apply update_nofile. congruence.
  Qed.
  Definition outside (e : event V) : bool := match e with EExtern _ | ERestart _ => true | _ => false end.
  Theorem run_nofile : forall h c, usedb c = false -> (forall e, In e h -> outside e = false) ->
    file (fst (runE c h)) = file c.
  Proof.
    induction h as [|e h IH]; intros c U O; cbn [MEModel.runE]; [reflexivity|].
    assert (S : file (fst (stepE c e)) = file c /\ usedb (fst (stepE c e)) = false).
    { pose proof (O e (or_introl eq_refl)) as Oe. destruct e; cbn [MEModel.stepE outside] in *; try discriminate.
      - unfold getElectricMultipole. destruct (artificial_or_mixed a b); [auto|].
        destruct (mkAng _ _ _ _ _) as [k2 g2], (mkComS _ _ _ _ _ _) as [k3 g3], (mkMul _ _ _) as [k4 g4].
        set (k1 := mkRad _ _ _ _ _ _ _ _ _). pose proof (@request_nofile c [k1; k2; k3; k4] U) as R.
        cbn [notes fold_left] in R. destruct (update _) as [c1 [x| |]]; exact R.
      - unfold getMagneticDipole. destruct (artificial_or_mixed a b); [auto|].
        destruct (mkAng _ _ _ _ _) as [k2 g2], (mkComS _ _ _ _ _ _) as [k3 g3], (mkComL _ _ _ _ _ _) as [k4 g4].
        set (k1 := mkRad _ _ _ _ _ _ _ _ _). pose proof (@request_nofile c [k1; k2; k3; k4] U) as R.
        cbn [notes fold_left] in R. destruct (update _) as [c1 [x| |]]; exact R.
      - unfold getRadial. destruct (artificial_or_mixed a b); [auto|].
        set (k1 := mkRad _ _ _ _ _ _ _ _ _). pose proof (@request_nofile c [k1] U) as R.
        cbn [notes fold_left] in R. destruct (update _) as [c1 [x| |]]; exact R.
      - destruct (pre_notes c basis ka q kr el mag rad) as (ks & -> & _).
        destruct (notes_fields ks c) as (_ & _ & _ & N4 & N5). cbn [fst]. split; congruence.
      - auto.
      - auto. }
    destruct (stepE c e) as [c1 o]. destruct S as [S1 S2]. cbn [fst] in *.
    specialize (IH c1 S2 (fun e' He => O e' (or_intror He))). destruct (runE c1 h) as [c2 rs]. cbn [fst] in *. congruence.
  Qed.
End Values.
