(** Proofs about SystemOne::initializeBasis without reflection symmetry (C22). *)
From Verif Require Import Base StateModel StateProofs Matrix LookupModel LookupProofs SystemModel RangeModel RangeProofs.
From Coq Require Import ZArith Lia Bool String Ascii FinFun List.
Import ListNotations.
Set Implicit Arguments.
Local Open Scope Z_scope.

Lemma combine_seq_snoc : forall A (l : list A) x a,
  combine (seq a (length (l ++ [x]))) (l ++ [x]) = combine (seq a (length l)) l ++ [(a + length l, x)%nat].
Proof.
  induction l; intros; simpl. { now rewrite Nat.add_0_r. }
  rewrite IHl. simpl. rewrite Nat.add_succ_r. reflexivity.
Qed.

Lemma map_fst_combine_seq : forall A (l : list A) a, map fst (combine (seq a (length l)) l) = seq a (length l).
Proof. induction l; intros; simpl; auto. f_equal; auto. Qed.
Lemma map_snd_combine_seq : forall A (l : list A) a, map snd (combine (seq a (length l)) l) = l.
Proof. induction l; intros; simpl; auto. f_equal; auto. Qed.

Lemma NoDup_app_ : forall A (l1 l2 : list A), NoDup l1 -> NoDup l2 ->
  (forall x, In x l1 -> ~ In x l2) -> NoDup (l1 ++ l2).
Proof.
  induction l1; intros l2 H1 H2 D; simpl; auto. inversion H1; subst. constructor.
  - rewrite in_app_iff. intros [H|H]; [auto|]. apply (D a); auto. left; auto.
  - apply IHl1; auto. intros x Hx. apply D. right; auto.
Qed.

Lemma NoDup_flat_map : forall A B (f : A -> list B) l,
  NoDup l -> (forall x, In x l -> NoDup (f x)) ->
  (forall x y b, In x l -> In y l -> In b (f x) -> In b (f y) -> x = y) ->
  NoDup (flat_map f l).
Proof.
  induction l; intros Hl Hf Hd; simpl; [constructor|].
  inversion Hl; subst. apply NoDup_app_.
  - apply Hf; left; auto.
  - apply IHl; auto. + intros; apply Hf; right; auto. + intros x y b Hx Hy. apply Hd; right; auto.
  - intros b Hb Hb'. apply in_flat_map in Hb'. destruct Hb' as (y & Hy & Hby).
    assert (a = y) by (eapply Hd; eauto; [left; auto|right; auto]). subst. auto.
Qed.

(** the energy window of restrictEnergy(min, max), None: no bound *)
Definition in_window {K : StarRing} {State : Type} (rq : @request K State) (e : K) : Prop :=
  (forall lo, rq_emin rq = Some lo -> sltre lo e = true) /\ (forall hi, rq_emax rq = Some hi -> sltre e hi = true).
Lemma enValid_window : forall (K : StarRing) (rq : @request K state1) e, enValid rq e = true <-> in_window rq e.
Proof. intros K rq e. unfold enValid, in_window. rewrite andb_true_iff. destruct (rq_emin rq), (rq_emax rq); split; intros [A B]; split; auto; try discriminate; intros; try congruence; auto. Qed.

Section P.
Context {K : StarRing}.
Add Ring Kr2 : (s_ring K).

Lemma tsum_app : forall (l1 l2 : list (nat * nat * K)) i j,
  tsum (l1 ++ l2) i j = sadd (tsum l1 i j) (tsum l2 i j).
Proof.
  induction l1 as [|[[r c] v] l1 IH]; intros; simpl. { ring. }
  rewrite IH. ring.
Qed.

Lemma tsum_diag : forall (v : nat -> K) k i j,
  tsum (map (fun x => (x, x, v x)) (seq 0 k)) i j = if (Nat.eqb i j && Nat.ltb i k)%bool then v i else s0.
Proof.
  induction k; intros. { simpl. rewrite andb_false_r. auto. }
  rewrite seq_S, map_app, tsum_app, IHk. simpl.
  destruct (Nat.eqb_spec i j); subst; simpl.
  - destruct (Nat.ltb_spec j k), (Nat.ltb_spec j (S k)), (Nat.eqb_spec k j); simpl; try lia; subst; try ring.
  - destruct (Nat.eqb_spec k i), (Nat.eqb_spec k j); simpl; try ring. congruence.
Qed.

Variable hs : string -> N.
Variable hi : Z -> N.
Variable hf : Z -> N.
Variable rt : K.
Variable iu : option K.

Notation accK := (@acc K).

(** Accumulator after adding the listed states one by one. *)
Definition accOf (l : list (state1 * K)) : accK :=
  Acc (combine (seq 0 (length l)) (map fst l)) (length l)
      (map (fun i => (i, i, s1)) (seq 0 (length l)))
      (map (fun p => (fst p, fst p, snd p)) (combine (seq 0 (length l)) (map snd l))).

Lemma accOf_tbl_in : forall l i s, In (i, s) (a_tbl (accOf l)) -> In s (map fst l).
Proof.
  intros l i s H. simpl in H. apply in_combine_r in H. exact H.
Qed.

Lemma accOf_snoc : forall l st e, (forall s, In s (map fst l) -> eq1 s st = false) ->
  addSymmetrized hs hi hf rt iu st e NA (accOf l) = (accOf (l ++ [(st, e)]), Ok tt).
Proof.
  intros l st e H. unfold addSymmetrized, addBasisvectors, accOf.
  cbn [a_tbl a_idx a_bt a_ht].
  destruct (tfind eq1 (combine (seq 0 (length l)) (map fst l)) st) eqn:E.
  { apply tfind_some in E. destruct E as (s & Hin & E).
    apply in_combine_r in Hin. rewrite H in E by auto. discriminate. }
  cbn [a_tbl a_idx a_bt a_ht]. f_equal. f_equal.
  - rewrite !combine_length, seq_length, map_length, Nat.min_id.
    rewrite map_app. simpl.
    pose proof (combine_seq_snoc (map fst l) st 0) as C.
    rewrite !app_length, map_length in *. simpl in *. rewrite C. reflexivity.
  - rewrite app_length. simpl. lia.
  - rewrite !combine_length, seq_length, map_length, Nat.min_id.
    rewrite app_length. simpl. rewrite Nat.add_1_r, seq_S, map_app. reflexivity.
  - rewrite map_app. simpl.
    pose proof (combine_seq_snoc (map snd l) e 0) as C.
    rewrite !app_length, map_length in *. simpl in *. rewrite C.
    rewrite map_app. reflexivity.
Qed.

Variable energy : string -> Z -> Z -> Z -> res K.
Variable sp : string.
Variable srot : option (list Z).
Variable rq : @request K state1.

Notation doit := (do_item hs hi hf rt iu sp NA srot rq).
Notation itemsK := (items energy sp srot rq).

Definition st_of (i : item (K:=K)) : res (state1 * K) :=
  match i with
  | IV nn ll jj mm e => match mkOne hs hi hf sp nn ll jj mm with Ok s => Ok (s, e) | Throw => Throw | UB => UB end
  | ITh => Throw | IUB => UB
  end.

Lemma loop_accOf : forall its l l', (forall i, In i its -> exists p, st_of i = Ok p) ->
  map (fun i => st_of i) its = map Ok l' ->
  (forall a b, In a (map fst l) -> In b (map fst l') -> eq1 a b = false) ->
  (ForallOrdPairs (fun a b => eq1 a b = false) (map fst l')) ->
  loop doit its (accOf l) = (accOf (l ++ l'), Ok tt).
Proof.
  induction its as [|i its IH]; intros l l' Hok E D P.
  - destruct l'; [|discriminate]. rewrite app_nil_r. reflexivity.
  - destruct l' as [|[st e] l']; [discriminate|]. simpl in E.
    injection E as E1 E2.
    destruct i as [| |nn ll jj mm e0]; try discriminate. simpl in E1.
    destruct (mkOne hs hi hf sp nn ll jj mm) as [s| |] eqn:Em; try discriminate.
    injection E1 as -> ->.
    assert (Hd : doit (IV nn ll jj mm e) (accOf l) = (accOf (l ++ [(st, e)]), Ok tt)).
    { unfold do_item. rewrite Em. apply accOf_snoc. intros s Hs. apply D; auto. left; auto. }
    cbn [loop]. rewrite Hd.
    simpl in P. inversion P as [|? ? P1 P2]; subst.
    rewrite (IH (l ++ [(st, e)]) l'); auto.
    + rewrite <- app_assoc. reflexivity.
    + intros j Hj. apply Hok. right; auto.
    + intros a b Ha Hb. rewrite map_app in Ha. apply in_app_iff in Ha. destruct Ha as [Ha|Ha].
      * apply D; auto. right; auto.
      * simpl in Ha. destruct Ha as [<-|[]]. rewrite Forall_forall in P1. apply P1; auto.
Qed.

(** Specification: the one-atom states that the documentation promises. *)
Definition wanted (s2 nn ll jj mm : Z) : Prop :=
  0 <= ll < nn /\
  Z.abs (2 * ll - s2) <= jj <= 2 * ll + s2 /\ Z.Even (jj - s2) /\
  - jj <= mm <= jj /\ Z.Even (mm - jj) /\
  In nn (rg_n (rq_rg rq)) /\
  (rg_l (rq_rg rq) = [] \/ In ll (rg_l (rq_rg rq))) /\
  (rg_j (rq_rg rq) = [] \/ In jj (rg_j (rq_rg rq))) /\
  (rg_m (rq_rg rq) = [] \/ In mm (rg_m (rq_rg rq))) /\
  (match srot with None => True | Some ms => In mm ms end) /\
  exists e, energy sp nn ll jj = Ok e /\ in_window rq e.

Definition sets_ok : Prop :=
  NoDup (rg_n (rq_rg rq)) /\ NoDup (rg_l (rq_rg rq)) /\ NoDup (rg_j (rq_rg rq)) /\ NoDup (rg_m (rq_rg rq)) /\
  match srot with None => True | Some ms => NoDup ms end.

Lemma even_mod : forall x, x mod 2 = 0 <-> Z.Even x.
Proof.
  intro x. rewrite <- Z.even_spec. rewrite Zmod_even. destruct (Z.even x); split; intros; auto; discriminate.
Qed.

Lemma allowed_m_in : forall jj mm, In mm (allowed_m srot rq jj) <->
  (rg_m (rq_rg rq) = [] /\ - jj <= mm <= jj /\ Z.Even (mm + jj) \/ In mm (rg_m (rq_rg rq))) /\
  (match srot with None => True | Some ms => In mm ms end).
Proof.
  intros. unfold allowed_m.
  assert (E : In mm (if is_nil (rg_m (rq_rg rq)) then zrange 2 (- jj) jj else rg_m (rq_rg rq)) <->
     (rg_m (rq_rg rq) = [] /\ - jj <= mm <= jj /\ Z.Even (mm + jj) \/ In mm (rg_m (rq_rg rq)))).
  { destruct (rg_m (rq_rg rq)) eqn:Er; simpl.
    - rewrite zrange_in by lia. rewrite even_mod. replace (mm - - jj) with (mm + jj) by ring. intuition.
    - intuition discriminate. }
  destruct srot as [ms|].
  - rewrite filter_In, existsb_Z, E. tauto.
  - rewrite E. tauto.
Qed.

Lemma even_pm : forall a b, Z.Even (a + b) <-> Z.Even (a - b).
Proof.
  intros. rewrite <- !Z.even_spec, Z.even_add, Z.even_sub. tauto.
Qed.

Lemma items_wanted : forall s2, 0 <= s2 ->
  (forall j, In j (rg_j (rq_rg rq)) -> Z.Even (j - s2)) ->
  (forall m, In m (rg_m (rq_rg rq)) -> Z.Even (m - s2)) ->
  (rg_j (rq_rg rq) = [] \/ s2 <= 1) ->
  forall nn ll jj mm,
  (exists e, In (IV nn ll jj mm e) (itemsK s2)) <-> wanted s2 nn ll jj mm.
Proof.
  intros s2 Hs Pj Pm Hr nn ll jj mm. split.
  - intros (e & H). apply items_in in H.
    destruct H as (Hn & Hl & Hl2 & Hj & Hj2 & Hj3 & He & Hv & Hm & Hm2).
    apply allowed_m_in in Hm. destruct Hm as [Hm Hms].
    assert (Ej : Z.Even (jj - s2)).
    { destruct Hj as [(_ & _ & Hj)|(_ & Hj)]; [|auto].
      apply even_mod in Hj. destruct Hj as [k Hk].
      destruct (Z.abs_spec (2*ll - s2)) as [[? Ea]|[? Ea]]; rewrite Ea in Hk.
      - exists (k + ll - s2). lia.
      - exists (k - ll). lia. }
    assert (Tj : Z.abs (2 * ll - s2) <= jj <= 2 * ll + s2).
    { destruct Hj as [(_ & Hj & _)|(Hne & Hj)]; auto.
      destruct Hr as [Hr|Hr]; [congruence|]. assert (s2 = 0 \/ s2 = 1) as [-> | ->] by lia; [lia|].
      destruct Ej as [k Hk]. lia. }
    unfold wanted. split; [lia|]. split; [exact Tj|]. split; [exact Ej|]. split; [lia|].
    split. { destruct Hm as [(_ & _ & Hm)|Hm]; [apply (proj1 (even_pm mm jj)); exact Hm|].
      apply Pm in Hm. destruct Hm as [a Ha], Ej as [b Hb]. exists (a - b). lia. }
    split; [exact Hn|]. split; [exact Hl2|]. split. { destruct Hj; tauto. }
    split. { destruct Hm; tauto. } split; [exact Hms|]. exists e. split; [exact He|apply enValid_window; exact Hv].
  - intros (Hl & Tj & Ej & Hm & Em & Hn & Hl2 & Hj & Hm2 & Hms & e & He & Hv).
    apply enValid_window in Hv. exists e. apply items_in. split; [exact Hn|]. split; [lia|]. split; [exact Hl2|].
    split. { destruct Hj as [Hj|Hj].
      - left. split; auto. split; auto. apply even_mod. destruct Ej as [k Hk].
        destruct (Z.abs_spec (2*ll - s2)) as [[? Ea]|[? Ea]]; rewrite Ea.
        + exists (k - ll + s2). lia.
        + exists (k + ll). lia.
      - right. split; auto. intro Ec. rewrite Ec in Hj. inversion Hj. }
    split; [lia|]. split; [lia|]. split; [exact He|]. split; [exact Hv|].
    split; [|lia]. apply allowed_m_in. split; [|exact Hms].
    destruct Hm2 as [Hm2|Hm2]; [left|right; auto]. split; auto. split; [lia|].
    apply (proj2 (even_pm mm jj)). exact Em.
Qed.

(** *** No duplicates *)
Definition noEx (s2 : Z) : Prop := ~ In ITh (itemsK s2) /\ ~ In IUB (itemsK s2).

Lemma allowed_m_nodup : sets_ok -> forall jj, NoDup (allowed_m srot rq jj).
Proof.
  intros (_&_&_&Hm&Hr) jj. unfold allowed_m.
  assert (NoDup (if is_nil (rg_m (rq_rg rq)) then zrange 2 (- jj) jj else rg_m (rq_rg rq))).
  { destruct (is_nil _); auto. apply zrange_nodup; lia. }
  destruct srot; auto. apply NoDup_filter; auto.
Qed.

Definition keyof (i : item (K:=K)) : Z * Z * Z * Z :=
  match i with IV a b c d _ => (a,b,c,d) | _ => (0,0,0,0) end.

Lemma items_m_key : forall nn ll jj e i, In i (items_m srot rq nn ll jj e) ->
  exists mm, i = IV nn ll jj mm e.
Proof. intros. unfold items_m in H. apply in_map_iff in H. destruct H as (m & <- & _). eauto. Qed.

Lemma items_nodup : sets_ok -> forall s2, noEx s2 -> NoDup (map keyof (itemsK s2)).
Proof.
  intros S s2 HE. pose proof S as (Hn&Hl&Hj&Hm&Hr).
  assert (G : NoDup (itemsK s2) /\ forall i, In i (itemsK s2) -> exists a b c d e, i = IV a b c d e).
  { split.
    - assert (HTh : forall x y, In x (rg_n (rq_rg rq)) ->
        In y (if is_nil (rg_l (rq_rg rq)) then zrange 1 0 (x - 1) else rg_l (rq_rg rq)) ->
        ((x - 1 <? y) || (y <? 0) = false) -> forall i, In i (items_j energy sp srot rq s2 x y) -> i <> ITh /\ i <> IUB).
      { intros x y Hx Hy Hb i Hi. destruct HE as [H1 H2].
        assert (In i (itemsK s2)).
        { unfold items. apply in_flat_map. exists x. split; auto. unfold items_l. apply in_flat_map.
          exists y. split; auto. rewrite Hb. auto. }
        split; intros ->; auto. }
      assert (HJ : forall x y i, In x (rg_n (rq_rg rq)) ->
        In y (if is_nil (rg_l (rq_rg rq)) then zrange 1 0 (x - 1) else rg_l (rq_rg rq)) ->
        ((x - 1 <? y) || (y <? 0) = false) -> In i (items_j energy sp srot rq s2 x y) ->
        exists jj mm e, i = IV x y jj mm e).
      { intros x y i Hx Hy Hb Hi. destruct (HTh x y Hx Hy Hb i Hi) as [N1 N2].
        unfold items_j in Hi. apply in_flat_map in Hi. destruct Hi as (jj & _ & Hi).
        destruct ((s2 <? Z.abs (jj - 2 * y)) || (jj <? 0)); [inversion Hi|].
        destruct (energy sp x y jj).
        - destruct (enValid rq a); [|inversion Hi]. apply items_m_key in Hi. destruct Hi as [m ->]. eauto.
        - destruct Hi as [<-|[]]. congruence.
        - destruct Hi as [<-|[]]. congruence. }
      unfold items. apply NoDup_flat_map; auto.
      + intros x Hx. unfold items_l. apply NoDup_flat_map.
        * match goal with |- NoDup (if ?b then _ else _) => destruct b; auto end. apply zrange_nodup; lia.
        * intros y Hy. destruct ((x - 1 <? y) || (y <? 0)) eqn:Eb; [constructor|].
          unfold items_j. apply NoDup_flat_map.
          -- match goal with |- NoDup (if ?b then _ else _) => destruct b; auto end. apply zrange_nodup; lia.
          -- intros z Hz. destruct ((s2 <? Z.abs (z - 2 * y)) || (z <? 0)); [constructor|]. destruct (energy sp x y z); try (constructor; [intros []|constructor]).
             destruct (enValid rq a); [|constructor]. unfold items_m.
             apply Injective_map_NoDup. { intros p q E; congruence. }
             apply NoDup_filter. apply allowed_m_nodup; auto.
          -- intros j j' b Hj1 Hj2 B1 B2.
             assert (I1 : In b (items_j energy sp srot rq s2 x y)) by (unfold items_j; apply in_flat_map; exists j; auto).
             destruct (HJ x y b Hx Hy Eb I1) as (jj & mm & e & ->).
             destruct ((s2 <? Z.abs (j - 2 * y)) || (j <? 0)); [inversion B1|]. destruct ((s2 <? Z.abs (j' - 2 * y)) || (j' <? 0)); [inversion B2|].
             destruct (energy sp x y j); [|destruct B1 as [B1|[]]; discriminate|destruct B1 as [B1|[]]; discriminate].
             destruct (energy sp x y j'); [|destruct B2 as [B2|[]]; discriminate|destruct B2 as [B2|[]]; discriminate].
             destruct (enValid rq a); [|inversion B1]. destruct (enValid rq a0); [|inversion B2].
             apply items_m_key in B1, B2. destruct B1 as [? E1], B2 as [? E2]. congruence.
        * intros y y' b Hy Hy' B1 B2.
          destruct ((x - 1 <? y) || (y <? 0)) eqn:Eb; [inversion B1|].
          destruct ((x - 1 <? y') || (y' <? 0)) eqn:Eb'; [inversion B2|].
          destruct (HJ x y b Hx Hy Eb B1) as (? & ? & ? & E1).
          destruct (HJ x y' b Hx Hy' Eb' B2) as (? & ? & ? & E2). congruence.
      + intros x x' b Hx Hx' B1 B2. unfold items_l in B1, B2. apply in_flat_map in B1, B2.
        destruct B1 as (y & Hy & B1), B2 as (y' & Hy' & B2).
        destruct ((x - 1 <? y) || (y <? 0)) eqn:Eb; [inversion B1|].
        destruct ((x' - 1 <? y') || (y' <? 0)) eqn:Eb'; [inversion B2|].
        destruct (HJ x y b Hx Hy Eb B1) as (? & ? & ? & E1).
        destruct (HJ x' y' b Hx' Hy' Eb' B2) as (? & ? & ? & E2). congruence.
    - intros i Hi. destruct HE as [H1 H2]. destruct i; try contradiction. repeat eexists. }
  destruct G as [G1 G2].
  assert (Inj : forall i i', In i (itemsK s2) -> In i' (itemsK s2) -> keyof i = keyof i' -> i = i').
  { intros i i' Hi Hi' E. destruct (G2 i Hi) as (a&b&c&d&e&->), (G2 i' Hi') as (a'&b'&c'&d'&e'&->).
    simpl in E. apply pair_equal_spec in E. destruct E as [E <-].
    apply pair_equal_spec in E. destruct E as [E <-]. apply pair_equal_spec in E. destruct E as [<- <-].
    apply items_in in Hi, Hi'. destruct Hi as (_&_&_&_&_&_&A&_), Hi' as (_&_&_&_&_&_&A'&_). congruence. }
  revert G1 Inj. generalize (itemsK s2). induction l as [|i l IH]; intros; simpl; [constructor|].
  inversion G1; subst. constructor.
  - intro H. apply in_map_iff in H. destruct H as (i' & E & Hi').
    apply H1. replace i with i'; auto. apply Inj; auto; [right; auto|left; auto].
  - apply IH; auto. intros; apply Inj; auto; right; auto.
Qed.


(** *** The complete result *)
Definition built (s2 : Z) : list (state1 * K) :=
  flat_map (fun i => match st_of i with Ok p => [p] | _ => [] end) (itemsK s2).

Definition passes (st : state1) : bool :=
  isArtificial st || match srot with None => true | Some ms => existsb (Z.eqb (m2 st)) ms end.

Definition added_energy (st : state1) : K :=
  if isArtificial st then s0
  else match energy (species st) (n st) (l st) (j2 st) with Ok e => e | _ => s0 end.

Definition distinct (l : list state1) : Prop := ForallOrdPairs (fun a b => eq1 a b = false) l.

Lemma spin2_analyze : forall s2, spin2 sp = Ok s2 -> exists el, analyzeSpecies sp = Ok (el, s2).
Proof.
  intros s2 H. unfold spin2 in H. unfold analyzeSpecies. destruct (str_last sp); [|discriminate].
  destruct (is_digit a).
  - injection H as <-. eauto.
  - injection H as <-. eauto.
Qed.

Lemma items_shape : forall s2 i, In i (itemsK s2) -> i <> ITh -> i <> IUB ->
  exists a b c d e, i = IV a b c d e.
Proof. intros. destruct i; try congruence. repeat eexists. Qed.

Lemma noEx_of_energy : forall s2,
  (forall nn ll jj, In nn (rg_n (rq_rg rq)) -> 0 <= ll < nn -> exists e, energy sp nn ll jj = Ok e) ->
  noEx s2.
Proof.
  intros s2 He.
  assert (G : forall i, In i (itemsK s2) -> exists a b c d e, i = IV a b c d e).
  { intros i H. unfold items in H. apply in_flat_map in H. destruct H as (x & Hx & H).
    unfold items_l in H. apply in_flat_map in H. destruct H as (y & Hy & H).
    destruct ((x - 1 <? y) || (y <? 0)) eqn:Eb; [inversion H|].
    apply orb_false_iff in Eb. rewrite !Z.ltb_ge in Eb.
    unfold items_j in H. apply in_flat_map in H. destruct H as (z & Hz & H).
    destruct ((s2 <? Z.abs (z - 2 * y)) || (z <? 0)); [inversion H|].
    destruct (He x y z Hx) as [e E]; [lia|]. rewrite E in H.
    destruct (enValid rq e); [|inversion H]. apply items_m_key in H. destruct H as [m ->].
    repeat eexists. }
  split; intro H; destruct (G _ H) as (?&?&?&?&?&E); discriminate.
Qed.

Lemma items_n_pos : forall s2 a b c d e, In (IV a b c d e) (itemsK s2) -> a <> 0.
Proof. intros. apply items_in in H. destruct H as (_ & H & _). lia. Qed.

Lemma built_map : forall s2, spin2 sp = Ok s2 -> noEx s2 ->
  map st_of (itemsK s2) = map Ok (built s2).
Proof.
  intros s2 Hs [N1 N2]. destruct (spin2_analyze Hs) as [el Ha]. unfold built.
  assert (G : forall i, In i (itemsK s2) -> exists p, st_of i = Ok p).
  { intros i Hi. destruct (@items_shape s2 i Hi) as (a&b&c&d&e&->); try congruence.
    simpl. destruct (@mkOne_ok hs hi hf sp a b c d _ (@items_n_pos _ _ _ _ _ _ Hi) Ha) as [st ->]. eauto. }
  revert G. generalize (itemsK s2). induction l as [|i l IH]; intro G; simpl; auto.
  destruct (G i) as [p E]; [left; auto|]. rewrite E. simpl. f_equal.
  apply IH. intros; apply G; right; auto.
Qed.

Lemma built_in : forall s2, noEx s2 -> forall st e, In (st, e) (built s2) <->
  exists nn ll jj mm, In (IV nn ll jj mm e) (itemsK s2) /\ mkOne hs hi hf sp nn ll jj mm = Ok st.
Proof.
  intros s2 [N1 N2] st e. unfold built. rewrite in_flat_map. split.
  - intros (i & Hi & H). destruct (@items_shape s2 i Hi) as (a&b&c&d&e'&->); try congruence.
    simpl in H. destruct (mkOne hs hi hf sp a b c d) eqn:Em; try contradiction.
    destruct H as [H|[]]. injection H as <- <-. exists a,b,c,d. auto.
  - intros (a&b&c&d&Hi&Em). exists (IV a b c d e). split; auto. simpl. rewrite Em. left; auto.
Qed.

Lemma built_distinct : sets_ok -> forall s2, spin2 sp = Ok s2 -> noEx s2 -> distinct (map fst (built s2)).
Proof.
  intros S s2 Hs HE. pose proof (items_nodup S HE) as ND. pose proof HE as [N1 N2].
  destruct (spin2_analyze Hs) as [el Ha].
  unfold built. revert ND.
  assert (G : forall i, In i (itemsK s2) -> exists a b c d e, i = IV a b c d e /\ a <> 0).
  { intros i Hi. destruct (@items_shape s2 i Hi) as (a&b&c&d&e&->); try congruence.
    exists a,b,c,d,e. split; auto. eapply items_n_pos; eauto. }
  revert G. generalize (itemsK s2). induction l as [|i l IH]; intros G ND; simpl; [constructor|].
  simpl in ND. inversion ND; subst.
  destruct (G i) as (a&b&c&d&e&->&Hz); [left; auto|]. simpl.
  destruct (@mkOne_ok hs hi hf sp a b c d _ Hz Ha) as [st Est]. rewrite Est. simpl.
  constructor.
  - apply Forall_forall. intros st' Hin. apply in_map_iff in Hin. destruct Hin as ([st2 e2] & <- & Hin).
    apply in_flat_map in Hin. destruct Hin as (i' & Hi' & Hin).
    destruct (G i') as (a'&b'&c'&d'&e'&->&Hz'); [right; auto|]. simpl in Hin.
    destruct (mkOne hs hi hf sp a' b' c' d') as [st3| |] eqn:Em; try contradiction.
    destruct Hin as [E|[]]. injection E as <- <-. simpl.
    apply not_true_iff_false. intro C. apply eq1_iff in C. destruct C as (_&C1&C2&C3&C4).
    apply mkOne_inv in Est, Em. destruct Est as (_&_&A1&A2&A3&A4&_), Em as (_&_&B1&B2&B3&B4&_).
    apply H1. apply in_map_iff. exists (IV a' b' c' d' e'). split; auto. simpl.
    rewrite <- A1, <- A2, <- A3, <- A4, <- B1, <- B2, <- B3, <- B4. congruence.
  - apply IH; auto. intros; apply G; right; auto.
Qed.

Lemma loop_check : forall l (a : accK),
  (forall st, In st l -> tfind eq1 (a_tbl a) st = None /\
     (isArtificial st = true \/ species st = sp)) ->
  loop (check_added sp) l a = (a, Ok tt).
Proof.
  induction l as [|st l IH]; intros a H; simpl; auto.
  unfold check_added at 1. destruct (H st) as [-> H2]; [left; auto|].
  assert (E : negb (isArtificial st) && negb (String.eqb (species st) sp) = false).
  { destruct H2 as [-> | ->]; auto. rewrite String.eqb_refl. apply andb_false_r. }
  rewrite E. apply IH. intros; apply H; right; auto.
Qed.

Lemma loop_check_throw : forall l (a : accK) st0, In st0 l ->
  (tfind eq1 (a_tbl a) st0 <> None \/ (isArtificial st0 = false /\ species st0 <> sp)) ->
  loop (check_added sp) l a = (a, Throw).
Proof.
  induction l as [|st l IH]; intros a st0 Hin H; [inversion Hin|]. simpl.
  destruct (check_added sp st a) as [a1 r] eqn:E.
  assert (a1 = a /\ (r = Ok tt \/ r = Throw)) as [-> [-> | ->]].
  { unfold check_added in E. destruct (tfind eq1 (a_tbl a) st); [inversion E; subst; auto|].
    destruct (negb (isArtificial st) && negb (String.eqb (species st) sp)); inversion E; subst; auto. }
  - destruct Hin as [->|Hin].
    + unfold check_added in E. destruct H as [H|[H1 H2]].
      * destruct (tfind eq1 (a_tbl a) st0); [discriminate|congruence].
      * destruct (tfind eq1 (a_tbl a) st0); [discriminate|]. rewrite H1 in E. simpl in E.
        apply String.eqb_neq in H2. rewrite H2 in E. discriminate.
    + eapply IH; eauto.
  - reflexivity.
Qed.

Lemma loop_add : forall ll0 l0,
  (forall st, In st ll0 -> isArtificial st = true \/
     exists e, energy (species st) (n st) (l st) (j2 st) = Ok e) ->
  distinct ll0 ->
  (forall a b, In a (map fst l0) -> In b ll0 -> eq1 a b = false) ->
  loop (add_one hs hi hf rt iu energy NA srot rq) ll0 (accOf l0) =
  (accOf (l0 ++ map (fun st => (st, added_energy st)) (filter passes ll0)), Ok tt).
Proof.
  induction ll0 as [|st ll0 IH]; intros l0 He D Dl; simpl.
  { rewrite app_nil_r; auto. }
  inversion D as [|? ? D1 D2]; subst. rewrite Forall_forall in D1.
  assert (E : add_one hs hi hf rt iu energy NA srot rq st (accOf l0) =
     (accOf (l0 ++ if passes st then [(st, added_energy st)] else []), Ok tt)).
  { unfold add_one, passes, added_energy.
    assert (Hn : forall s, In s (map fst l0) -> eq1 s st = false) by (intros; apply Dl; auto; left; auto).
    destruct (isArtificial st) eqn:Ea; simpl.
    - apply accOf_snoc; auto.
    - destruct (He st) as [C|[e Ee]]; [left; auto|congruence|]. rewrite Ee.
      destruct srot as [ms|]; simpl.
      + destruct (existsb (Z.eqb (m2 st)) ms); simpl; [apply accOf_snoc; auto|].
        rewrite app_nil_r. reflexivity.
      + apply accOf_snoc; auto. }
  rewrite E. rewrite IH; auto.
  - rewrite <- app_assoc. destruct (passes st); reflexivity.
  - intros; apply He; right; auto.
  - intros a b Ha Hb. rewrite map_app in Ha. apply in_app_iff in Ha. destruct Ha as [Ha|Ha].
    + apply Dl; auto. right; auto.
    + destruct (passes st); simpl in Ha; [|contradiction]. destruct Ha as [<-|[]]. auto.
Qed.

Lemma init_result : forall s2, spin2 sp = Ok s2 -> sets_ok -> rg_n (rq_rg rq) <> [] ->
  (forall nn ll jj, In nn (rg_n (rq_rg rq)) -> 0 <= ll < nn -> exists e, energy sp nn ll jj = Ok e) ->
  distinct (rq_add rq) ->
  (forall st, In st (rq_add rq) -> (isArtificial st = true \/ species st = sp) /\
     (forall s, In s (map fst (built s2)) -> eq1 s st = false) /\
     (isArtificial st = true \/ exists e, energy (species st) (n st) (l st) (j2 st) = Ok e)) ->
  let fin := built s2 ++ map (fun st => (st, added_energy st)) (filter passes (rq_add rq)) in
  initBasis1 hs hi hf rt iu energy sp NA srot rq =
    (a_tbl (accOf fin), Ok (mtrip (length (a_tbl (accOf fin))) (length fin) (a_bt (accOf fin)),
                            mtrip (length fin) (length fin) (a_ht (accOf fin)))) /\
  distinct (map fst fin).
Proof.
  intros s2 Hs S Hn He Da Hadd fin.
  pose proof (noEx_of_energy s2 He) as HE.
  assert (B : distinct (map fst (built s2))) by (apply built_distinct; auto).
  split.
  - unfold initBasis1. destruct (rg_n (rq_rg rq)) eqn:En; [congruence|]. cbn [is_nil].
    rewrite Hs, loop_n_items.
    change (Acc [] 0 [] []) with (accOf []).
    rewrite (loop_accOf (itemsK s2) [] (built s2)); auto.
    + rewrite loop_check.
      * simpl app. rewrite loop_add; auto.
        -- intros st Hst. apply Hadd; auto.
        -- intros a b Ha Hb. apply Hadd; auto.
      * intros st Hst. split.
        -- destruct (tfind eq1 (a_tbl (accOf ([] ++ built s2))) st) eqn:E; auto. apply tfind_some in E. destruct E as (x & Hin & E).
           apply accOf_tbl_in in Hin. simpl in Hin.
           destruct (Hadd st Hst) as (_ & H & _). rewrite H in E by auto. discriminate.
        -- apply Hadd; auto.
    + intros i Hi. pose proof (built_map Hs HE) as M.
      assert (In (st_of i) (map Ok (built s2))) by (rewrite <- M; apply in_map; auto).
      apply in_map_iff in H. destruct H as (p & <- & _). eauto.
    + apply built_map; auto.
    + intros a b [].
  - unfold fin. rewrite map_app, map_map, map_id.
    assert (Ds : forall a b, In a (map fst (built s2)) -> In b (filter passes (rq_add rq)) -> eq1 a b = false).
    { intros a b Ha Hb. apply filter_In in Hb. destruct Hb as [Hb _]. apply Hadd; auto. }
    assert (Df : distinct (filter passes (rq_add rq))).
    { clear - Da. induction Da; simpl; [constructor|]. destruct (passes a); auto. constructor; auto.
      rewrite Forall_forall in *. intros x Hx. apply filter_In in Hx. apply H. tauto. }
    revert B Ds. generalize (map fst (built s2)). induction l; intros; simpl; auto.
    inversion B; subst. constructor.
    + apply Forall_forall. intros x Hx. apply in_app_iff in Hx. destruct Hx.
      * rewrite Forall_forall in H1. auto.
      * apply Ds; auto. left; auto.
    + apply IHl; auto. intros; apply Ds; auto. right; auto.
Qed.

Lemma mtrip_id : forall (l : list (state1 * K)),
  meq (mtrip (length (a_tbl (accOf l))) (length l) (a_bt (accOf l))) (mid (length (a_tbl (accOf l)))).
Proof.
  intro l. assert (length (a_tbl (accOf l)) = length l) as E.
  { simpl. rewrite combine_length, seq_length, map_length, Nat.min_id. auto. }
  rewrite E. repeat split; auto. intros i j Hi Hj. cbn [at_ mtrip mid nr nc] in *.
  unfold accOf. cbn [a_bt]. rewrite (tsum_diag (fun _ => s1)). unfold delta.
  destruct (Nat.eqb_spec i j); simpl; auto. destruct (Nat.ltb_spec i (length l)); auto. lia.
Qed.

Lemma tsum_ht_off : forall (l : list K) k i j, i <> j \/ (i < k)%nat ->
  tsum (map (fun p => (fst p, fst p, snd p)) (combine (seq k (length l)) l)) i j = s0.
Proof.
  induction l as [|v l IH]; intros k i j H; cbn [tsum map combine seq length fst snd]; auto.
  rewrite IH by lia. destruct (Nat.eqb_spec k i), (Nat.eqb_spec k j); cbn [andb]; try ring. lia.
Qed.

Lemma tsum_ht : forall (l : list K) k i, (k <= i)%nat ->
  tsum (map (fun p => (fst p, fst p, snd p)) (combine (seq k (length l)) l)) i i = nth (i - k) l s0.
Proof.
  induction l as [|v l IH]; intros k i H; cbn [tsum map combine seq length fst snd].
  { destruct (i - k)%nat; auto. }
  destruct (Nat.eqb_spec k i); cbn [andb].
  - subst. rewrite tsum_ht_off by lia. rewrite Nat.sub_diag. cbn [nth]. ring.
  - rewrite IH by lia. replace (i - k)%nat with (S (i - S k)) by lia. cbn [nth]. ring.
Qed.

Lemma mtrip_ham : forall (l : list (state1 * K)) i j, (i < length l)%nat -> (j < length l)%nat ->
  at_ (mtrip (length l) (length l) (a_ht (accOf l))) i j =
  if Nat.eqb i j then nth i (map snd l) s0 else s0.
Proof.
  intros. simpl. destruct (Nat.eqb_spec i j).
  - subst j. pose proof (@tsum_ht (map snd l) 0 i (Nat.le_0_l i)) as T. rewrite map_length in T. rewrite T.
    rewrite Nat.sub_0_r. auto.
  - pose proof (@tsum_ht_off (map snd l) 0 i j) as T. rewrite map_length in T. apply T. auto.
Qed.

Theorem init_exact : forall s2, spin2 sp = Ok s2 -> 0 <= s2 -> sets_ok -> rg_n (rq_rg rq) <> [] ->
  (forall j, In j (rg_j (rq_rg rq)) -> Z.Even (j - s2)) ->
  (forall m, In m (rg_m (rq_rg rq)) -> Z.Even (m - s2)) ->
  (rg_j (rq_rg rq) = [] \/ s2 <= 1) ->
  (forall nn ll jj, In nn (rg_n (rq_rg rq)) -> 0 <= ll < nn -> exists e, energy sp nn ll jj = Ok e) ->
  distinct (rq_add rq) ->
  (forall st, In st (rq_add rq) -> (isArtificial st = true \/ species st = sp) /\
     (forall nn ll jj mm s, wanted s2 nn ll jj mm -> mkOne hs hi hf sp nn ll jj mm = Ok s -> eq1 s st = false) /\
     (isArtificial st = true \/ exists e, energy (species st) (n st) (l st) (j2 st) = Ok e)) ->
  exists tbl b h, initBasis1 hs hi hf rt iu energy sp NA srot rq = (tbl, Ok (b, h)) /\
    map fst tbl = seq 0 (length tbl) /\
    (forall st, In st (map snd tbl) <->
       (exists nn ll jj mm, wanted s2 nn ll jj mm /\ mkOne hs hi hf sp nn ll jj mm = Ok st) \/
       (In st (rq_add rq) /\ passes st = true)) /\
    distinct (map snd tbl) /\
    meq b (mid (length tbl)) /\
    nr h = length tbl /\ nc h = length tbl /\ diagonal h /\
    (forall i st, nth_error (map snd tbl) i = Some st ->
       if isArtificial st then at_ h i i = s0
       else energy (species st) (n st) (l st) (j2 st) = Ok (at_ h i i)).
Proof.
  intros s2 Hs Hs0 S Hn Pj Pm Hr He Da Hadd.
  pose proof (noEx_of_energy s2 He) as HE.
  assert (W : forall st, In st (map fst (built s2)) <->
     exists nn ll jj mm, wanted s2 nn ll jj mm /\ mkOne hs hi hf sp nn ll jj mm = Ok st).
  { intro st. rewrite in_map_iff. split.
    - intros ([st' e] & E & Hin). simpl in E. subst st'. apply built_in in Hin; auto.
      destruct Hin as (a&b&c&d&Hi&Em). exists a,b,c,d. split; auto. apply items_wanted; auto. eauto.
    - intros (a&b&c&d&Hw&Em). apply items_wanted in Hw; auto. destruct Hw as [e Hi].
      exists (st, e). split; auto. apply built_in; auto. exists a,b,c,d. auto. }
  destruct (@init_result s2 Hs S Hn He Da) as [R D].
  { intros st Hst. destruct (Hadd st Hst) as (A & B & C). split; [exact A|]. split; [|exact C].
    intros s Hin. apply W in Hin. destruct Hin as (a&b&c&d&Hw&Em). eapply B; eauto. }
  set (fin := built s2 ++ map (fun st => (st, added_energy st)) (filter passes (rq_add rq))) in *.
  assert (L : length (a_tbl (accOf fin)) = length fin).
  { simpl. rewrite combine_length, seq_length, map_length, Nat.min_id. auto. }
  assert (M : map snd (a_tbl (accOf fin)) = map fst fin).
  { pose proof (map_snd_combine_seq (map fst fin) 0) as T. rewrite map_length in T. exact T. }
  eexists _, _, _. split; [exact R|].
  split. { rewrite L. pose proof (map_fst_combine_seq (map fst fin) 0) as T. rewrite map_length in T. exact T. }
  split. { intro st. rewrite M. unfold fin. rewrite map_app, in_app_iff, map_map, map_id, filter_In, W. reflexivity. }
  split. { rewrite M. exact D. }
  split. { apply mtrip_id. }
  rewrite L. split; [reflexivity|]. split; [reflexivity|].
  split.
  { intros i j Hi Hj Hij. rewrite mtrip_ham by auto. destruct (Nat.eqb_spec i j); congruence. }
  intros i st Hi. rewrite M in Hi. rewrite nth_error_map in Hi.
  destruct (nth_error fin i) as [[st' e]|] eqn:Ef; [|discriminate]. simpl in Hi. injection Hi as ->.
  assert (i < length fin)%nat by (apply nth_error_Some; congruence).
  rewrite mtrip_ham by auto. rewrite Nat.eqb_refl.
  rewrite (nth_error_nth (map snd fin) i s0 (x := e)) by (rewrite nth_error_map, Ef; auto).
  apply nth_error_In in Ef. unfold fin in Ef. apply in_app_iff in Ef. destruct Ef as [Ef|Ef].
  - apply built_in in Ef; auto. destruct Ef as (a&b&c&d&Hi&Em).
    pose proof (@items_n_pos _ _ _ _ _ _ Hi) as Hz.
    apply items_in in Hi. destruct Hi as (_&_&_&_&_&_&Hen&_).
    apply mkOne_inv in Em. destruct Em as (_&E1&E2&E3&E4&_).
    unfold isArtificial. rewrite E2. apply Z.eqb_neq in Hz. rewrite Hz, E1, E3, E4. exact Hen.
  - apply in_map_iff in Ef. destruct Ef as (st'' & E & Hin). injection E as -> <-.
    apply filter_In in Hin. destruct Hin as [Hin _]. unfold added_energy.
    destruct (isArtificial st) eqn:Ea; auto.
    destruct (Hadd st Hin) as (_&_&[C|[e' Ee]]); [congruence|]. rewrite Ee. auto.
Qed.

(** An added state that is already there (or of another species) makes the call throw. *)
Theorem init_dup_throws : forall s2, spin2 sp = Ok s2 -> sets_ok -> rg_n (rq_rg rq) <> [] ->
  (forall nn ll jj, In nn (rg_n (rq_rg rq)) -> 0 <= ll < nn -> exists e, energy sp nn ll jj = Ok e) ->
  forall st, In st (rq_add rq) ->
  ((exists s, In s (map fst (built s2)) /\ eq1 s st = true) \/ (isArtificial st = false /\ species st <> sp)) ->
  initBasis1 hs hi hf rt iu energy sp NA srot rq = (a_tbl (accOf (built s2)), Throw).
Proof.
  intros s2 Hs S Hn He st Hin Hbad.
  pose proof (noEx_of_energy s2 He) as HE.
  unfold initBasis1. destruct (rg_n (rq_rg rq)) eqn:En; [congruence|]. cbn [is_nil].
  rewrite Hs, loop_n_items. change (Acc [] 0 [] []) with (accOf []).
  rewrite (loop_accOf (itemsK s2) [] (built s2)); auto.
  - simpl app. rewrite (@loop_check_throw (rq_add rq) (accOf (built s2)) st); auto.
    destruct Hbad as [(s & Hs1 & Hs2)|Hbad]; [left|right; auto].
    destruct (tfind eq1 (a_tbl (accOf (built s2))) st) eqn:E; [discriminate|].
    exfalso. assert (exists i, In (i, s) (a_tbl (accOf (built s2)))) as [i Hi].
    { pose proof (map_snd_combine_seq (map fst (built s2)) 0) as T. rewrite map_length in T.
      assert (In s (map snd (a_tbl (accOf (built s2))))) by (simpl; rewrite T; auto).
      apply in_map_iff in H. destruct H as ([i s'] & E' & H). simpl in E'. subst. eauto. }
    rewrite (@tfind_none _ eq1 _ _ E i s Hi) in Hs2. discriminate.
  - intros i Hi. pose proof (built_map Hs HE) as M.
    assert (In (st_of i) (map Ok (built s2))) by (rewrite <- M; apply in_map; auto).
    apply in_map_iff in H. destruct H as (p & <- & _). eauto.
  - apply built_map; auto.
  - intros a b [].
  - apply built_distinct; auto.
Qed.

End P.
