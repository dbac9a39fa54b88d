From Verif Require Import Base QDModel.
From Coq Require Import ZArith Lia Bool String Ascii List.
Local Open Scope string_scope.
Local Open Scope list_scope.
Local Open Scope Z_scope.
Set Implicit Arguments.

(** m is the largest element of xs (specification of SQL MAX on a non-empty column). *)
Definition is_max (xs : list Z) (m : Z) : Prop := In m xs /\ forall x, In x xs -> x <= m.

Lemma fold_max_spec : forall xs x, is_max (x :: xs) (fold_left Z.max xs x).
Proof.
  induction xs as [|y xs IH]; intro x; cbn [fold_left].
  - split; [left; reflexivity|]. intros z [<-|[]]. lia.
  - destruct (IH (Z.max x y)) as [H1 H2]. split.
    + destruct H1 as [H1|H1]; [|right; right; exact H1].
      rewrite <- H1. destruct (Z.max_spec x y) as [[_ ->]|[_ ->]]; cbn; auto.
    + intros z [<-|[<-|Hz]].
      * specialize (H2 (Z.max x y) (or_introl eq_refl)). lia.
      * specialize (H2 (Z.max x y) (or_introl eq_refl)). lia.
      * apply H2. right. exact Hz.
Qed.

Lemma maxz_spec : forall xs, xs <> [] -> is_max xs (maxz xs).
Proof. intros [|x xs] H; [congruence|]. apply fold_max_spec. Qed.

Section P.
  Variables (PD RD E : Type) (formula : Z -> PD -> RD -> E).
  Notation db := (db PD RD).
  Notation state := (state PD RD E).

  Lemma key_eqb_iff : forall a b, key_eqb a b = true <-> a = b.
  Proof.
    intros [s1 n1 l1 j1] [s2 n2 l2 j2]. unfold key_eqb. cbn.
    rewrite !andb_true_iff, !Z.eqb_eq, String.eqb_eq. split; [intros (((-> & ->) & ->) & ->); reflexivity|].
    intro H. injection H as -> -> -> ->. auto.
  Qed.

  (** ** C12 *)
  Definition tab_pL (ps : list (prow PD)) (sp : string) : list Z :=
    map (@pL PD) (filter (fun r => String.eqb (pel r) sp) ps).
  Definition tab_rL (rs : list (rrow RD)) (sp : string) : list Z :=
    map (@rL RD) (filter (fun r => String.eqb (rel r) sp) rs).
  Definition tab_rJ (rs : list (rrow RD)) (sp : string) (L : Z) : list Z :=
    map (@rJ2 RD) (filter (fun r => String.eqb (rel r) sp && (rL r =? L)) rs).

  Lemma in_tab_pL : forall ps sp L, In L (tab_pL ps sp) <-> exists p : prow PD, In p ps /\ pel p = sp /\ pL p = L.
  Proof.
    intros ps sp L. unfold tab_pL. rewrite in_map_iff. split.
    - intros (p & <- & H). apply filter_In in H. destruct H as [H1 H2]. apply String.eqb_eq in H2. eauto.
    - intros (p & H1 & H2 & H3). exists p. split; [exact H3|]. apply filter_In.
      split; [exact H1|]. now apply String.eqb_eq.
  Qed.
  Lemma in_tab_rL : forall rs sp L, In L (tab_rL rs sp) <-> exists r : rrow RD, In r rs /\ rel r = sp /\ rL r = L.
  Proof.
    intros ps sp L. unfold tab_rL. rewrite in_map_iff. split.
    - intros (p & <- & H). apply filter_In in H. destruct H as [H1 H2]. apply String.eqb_eq in H2. eauto.
    - intros (p & H1 & H2 & H3). exists p. split; [exact H3|]. apply filter_In.
      split; [exact H1|]. now apply String.eqb_eq.
  Qed.
  Lemma in_tab_rJ : forall rs sp L J, In J (tab_rJ rs sp L) <->
    exists r : rrow RD, In r rs /\ rel r = sp /\ rL r = L /\ rJ2 r = J.
  Proof.
    intros ps sp L J. unfold tab_rJ. rewrite in_map_iff. split.
    - intros (p & <- & H). apply filter_In in H. destruct H as [H1 H2]. apply andb_true_iff in H2.
      rewrite String.eqb_eq, Z.eqb_eq in H2. destruct H2. eauto 6.
    - intros (p & H1 & H2 & H3 & H4). exists p. split; [exact H4|]. apply filter_In.
      split; [exact H1|]. apply andb_true_iff. now rewrite String.eqb_eq, Z.eqb_eq.
  Qed.

  Lemma find_pot_iff : forall ps sp L (p : prow PD), find_pot ps sp L = Some p ->
    In p ps /\ pel p = sp /\ pL p = L.
  Proof.
    intros ps sp L p H. apply find_some in H. rewrite andb_true_iff, String.eqb_eq, Z.eqb_eq in H. tauto.
  Qed.
  Lemma find_ryd_iff : forall rs sp L J (r : rrow RD), find_ryd rs sp L J = Some r ->
    In r rs /\ rel r = sp /\ rL r = L /\ rJ2 r = J.
  Proof.
    intros ps sp L J p H. apply find_some in H.
    rewrite !andb_true_iff, String.eqb_eq, !Z.eqb_eq in H. tauto.
  Qed.

  Lemma nonempty_in : forall A (x : A) l, In x l -> l <> [].
  Proof. intros A x [|y l] H; [contradiction|discriminate]. Qed.

  Lemma qd_fallback : forall ps rs k e, compute formula (Db (Some ps) (Some rs)) k = Ok e ->
    exists p r Lp Lr Jr, In p ps /\ In r rs /\
      pel p = kspecies k /\ is_max (tab_pL ps (kspecies k)) Lp /\ pL p = Z.min (kl k) Lp /\
      rel r = kspecies k /\ is_max (tab_rL rs (kspecies k)) Lr /\ rL r = Z.min (kl k) Lr /\
      is_max (tab_rJ rs (kspecies k) (rL r)) Jr /\ rJ2 r = Z.min (kj2 k) Jr /\
      e = formula (kn k) (pdat p) (rdat r).
  Proof.
    intros ps rs k e H. unfold compute in H. cbn in H.
    destruct (find_pot ps (kspecies k) (pot_l ps k)) as [p|] eqn:F1; [|discriminate].
    destruct (find_ryd rs (kspecies k) (ryd_l rs k) (ryd_j2 rs k)) as [r|] eqn:F2; [|discriminate].
    injection H as <-. apply find_pot_iff in F1. apply find_ryd_iff in F2.
    destruct F1 as (P1 & P2 & P3). destruct F2 as (R1 & R2 & R3 & R4).
    exists p, r, (maxz (tab_pL ps (kspecies k))), (maxz (tab_rL rs (kspecies k))),
      (maxz (tab_rJ rs (kspecies k) (rL r))).
    repeat (split; [first [assumption | apply maxz_spec; eapply nonempty_in;
      first [apply in_tab_pL; eauto; fail | apply in_tab_rL; eauto; fail | apply in_tab_rJ; eauto; fail] ]|]).
    split; [|reflexivity]. rewrite R4. unfold ryd_j2. rewrite R3. reflexivity.
  Qed.

  (** If the row for (l,j) itself is tabulated (once), it is the one used. *)
  Lemma qd_exact : forall ps rs k r,
    In r rs -> rel r = kspecies k -> rL r = kl k -> rJ2 r = kj2 k ->
    (forall r', In r' rs -> rel r' = kspecies k -> rL r' = kl k -> rJ2 r' = kj2 k -> r' = r) ->
    (forall Lp, is_max (tab_pL ps (kspecies k)) Lp ->
       exists p, In p ps /\ pel p = kspecies k /\ pL p = Z.min (kl k) Lp) ->
    tab_pL ps (kspecies k) <> [] ->
    exists p, In p ps /\ pel p = kspecies k /\
      compute formula (Db (Some ps) (Some rs)) k = Ok (formula (kn k) (pdat p) (rdat r)).
  Proof.
    intros ps rs k r R1 R2 R3 R4 U HP NE.
    assert (M1 : is_max (tab_rL rs (kspecies k)) (maxz (tab_rL rs (kspecies k)))).
    { apply maxz_spec. eapply nonempty_in. apply in_tab_rL. eauto. }
    assert (L1 : ryd_l rs k = kl k).
    { unfold ryd_l. fold (tab_rL rs (kspecies k)). destruct M1 as [_ M1].
      assert (In (kl k) (tab_rL rs (kspecies k))) by (apply in_tab_rL; eauto).
      specialize (M1 _ H). lia. }
    assert (J1 : ryd_j2 rs k = kj2 k).
    { unfold ryd_j2. rewrite L1. fold (tab_rJ rs (kspecies k) (kl k)).
      assert (M2 : is_max (tab_rJ rs (kspecies k) (kl k)) (maxz (tab_rJ rs (kspecies k) (kl k)))).
      { apply maxz_spec. eapply nonempty_in. apply in_tab_rJ. eauto 6. }
      destruct M2 as [_ M2].
      assert (In (kj2 k) (tab_rJ rs (kspecies k) (kl k))) by (apply in_tab_rJ; eauto 6).
      specialize (M2 _ H). lia. }
    unfold compute. cbn. rewrite L1, J1.
    destruct (HP _ (maxz_spec NE)) as (p0 & Q1 & Q2 & Q3).
    destruct (find_pot ps (kspecies k) (pot_l ps k)) as [p|] eqn:F1.
    - exists p. apply find_pot_iff in F1. destruct F1 as (P1 & P2 & _).
      destruct (find_ryd rs (kspecies k) (kl k) (kj2 k)) as [r'|] eqn:F2.
      + apply find_ryd_iff in F2. destruct F2 as (S1 & S2 & S3 & S4).
        rewrite (U r' S1 S2 S3 S4). auto.
      + exfalso. unfold find_ryd in F2. apply (find_none _ _ F2) in R1.
        rewrite R2, R3, R4, String.eqb_refl, !Z.eqb_refl in R1. discriminate.
    - exfalso. unfold find_pot in F1. apply (find_none _ _ F1) in Q1.
      rewrite Q2, Q3, String.eqb_refl in Q1. cbn in Q1. apply Z.eqb_neq in Q1. apply Q1. reflexivity.
  Qed.

  (** ** C10 *)
  Variable embedded : db.

  (** Every file that is used replaces the whole contents of the database, whatever was there. *)
  Definition files_ok (fs : files PD RD) (content : string -> db) : Prop :=
    forall nm d, nm <> EmptyString -> fs nm d = (content nm, true).
  Definition content_of (content : string -> db) (nm : string) : db :=
    if String.eqb nm EmptyString then embedded else content nm.

  Definition memo_ok (content : string -> db) (s : state) : Prop :=
    forall k e, mlookup (memo s) k = Some e -> compute formula (content_of content (used s)) k = Ok e.

  Lemma setup_ok : forall content s nm k,
    memo_ok content s ->
    snd (setup formula s (content_of content nm) nm k) = compute formula (content_of content nm) k /\
    memo_ok content (fst (setup formula s (content_of content nm) nm k)).
  Proof.
    intros content s nm k M. unfold setup.
    set (s1 := if String.eqb (used s) nm then s else St [] nm (memdb s)).
    assert (U : used s1 = nm).
    { unfold s1. destruct (String.eqb (used s) nm) eqn:Q; [now apply String.eqb_eq|reflexivity]. }
    assert (M1 : memo_ok content s1).
    { unfold s1. destruct (String.eqb (used s) nm) eqn:Q; [exact M|]. intros k' e'. cbn. discriminate. }
    clearbody s1. destruct (mlookup (memo s1) k) as [e|] eqn:L.
    - cbn. split; [|exact M1]. apply M1 in L. now rewrite U in L.
    - destruct (compute formula (content_of content nm) k) as [e| |] eqn:C; cbn; (split; [reflexivity|]); try exact M1.
      intros k' e'. cbn. destruct (key_eqb k k') eqn:Q.
      + apply key_eqb_iff in Q. subst k'. intro H. injection H as <-. now rewrite U.
      + apply M1.
  Qed.

  Lemma construct_ok : forall fs content s nm k, files_ok fs content -> memo_ok content s ->
    snd (construct formula embedded fs s nm k) = compute formula (content_of content nm) k /\
    memo_ok content (fst (construct formula embedded fs s nm k)).
  Proof.
    intros fs content s nm k F M. unfold construct. destruct (String.eqb nm EmptyString) eqn:Q.
    - pose proof (setup_ok nm k M) as H. unfold content_of in H at 1 2 3. rewrite Q in H.
      unfold content_of at 1. rewrite Q. exact H.
    - rewrite F by (now apply String.eqb_neq). cbn.
      assert (M' : memo_ok content (St (memo s) (used s) (content nm))) by exact M.
      pose proof (setup_ok nm k M') as H. unfold content_of in H at 1 2 3. rewrite Q in H.
      unfold content_of at 1. rewrite Q. exact H.
  Qed.

  Lemma init_ok : forall content, memo_ok content (init PD RD E).
  Proof. intros content k e H. discriminate. Qed.

  Fixpoint reqs (h : list (event PD RD)) : list (string * key) :=
    match h with
    | [] => []
    | Construct _ _ nm k :: h' => (nm, k) :: reqs h'
    | Rewrite _ _ :: h' => reqs h'
    end.
  Definition no_rewrite (h : list (event PD RD)) : Prop := forall nm sc, ~ In (Rewrite nm sc) h.

  Lemma run_ok : forall h fs content s, files_ok fs content -> memo_ok content s -> no_rewrite h ->
    snd (run formula embedded fs s h) =
      map (fun q => compute formula (content_of content (fst q)) (snd q)) (reqs h).
  Proof.
    induction h as [|e h IH]; intros fs content s F M N; [reflexivity|].
    assert (N' : no_rewrite h) by (intros nm sc H; apply (N nm sc); right; exact H).
    destruct e as [nm k|nm sc].
    - cbn. destruct (construct_ok nm k F M) as [C1 C2].
      destruct (construct formula embedded fs s nm k) as [s' r]. cbn in *.
      specialize (IH fs content s' F C2 N').
      destruct (run formula embedded fs s' h) as [[fs2 s2] rs]. cbn in *. congruence.
    - exfalso. apply (N nm sc). left. reflexivity.
  Qed.

  Lemma qd_sequential : forall fs h, (exists content, files_ok fs content) -> no_rewrite h ->
    snd (run formula embedded fs (init PD RD E) h) =
      map (fun q => fresh formula embedded fs (fst q) (snd q)) (reqs h).
  Proof.
    intros fs h [content F] N. rewrite (run_ok F (@init_ok content) N).
    apply map_ext. intros [nm k]. unfold fresh. cbn [fst snd].
    symmetry. exact (proj1 (construct_ok nm k F (@init_ok content))).
  Qed.
End P.

(** Refutations of the unrestricted C10: a path that cannot be opened after a good one, and a
    file changed on disk between two constructions. *)
Definition one_db (x : Z) : db Z Z := Db (Some [PRow "Rb" 0 x]) (Some [RRow "Rb" 0 1 x]).
Definition cfun (n p r : Z) : Z := n + p + r.
Definition kRb : key := Key "Rb" 60 0 1.

Lemma qd_missing_file : exists fs h, no_rewrite h /\
  snd (run cfun (one_db 0) fs (init Z Z Z) h) <>
    map (fun q => fresh cfun (one_db 0) fs (fst q) (snd q)) (reqs h).
Proof.
  exists (fun nm => if String.eqb nm "a.sql" then (fun _ => (one_db 7, true)) else missing_file).
  exists [Construct Z Z "a.sql" kRb; Construct Z Z "b.sql" kRb]. split.
  - intros nm sc [H|[H|[]]]; discriminate.
  - vm_compute. discriminate.
Qed.

Lemma qd_modified_file : exists (fs : files Z Z) h nm k,
  let '(fs', _, rs) := run cfun (one_db 0) fs (init Z Z Z) h in
  (forall nm' d, exists c, fs' nm' d = (c, true)) /\
  nth_error (reqs h) 1 = Some (nm, k) /\ nth_error rs 1 <> Some (fresh cfun (one_db 0) fs' nm k).
Proof.
  exists (fun nm => fun _ => (one_db 7, true)).
  exists [Construct Z Z "a.sql" kRb; Rewrite "a.sql" (fun _ => (one_db 9, true)); Construct Z Z "a.sql" kRb].
  exists "a.sql", kRb. cbn. split; [|split].
  - intros nm' d. destruct (String.eqb nm' "a.sql"); eexists; reflexivity.
  - reflexivity.
  - vm_compute. discriminate.
Qed.

(** ** C11 *)
Section C.
  Variables (K E : Type) (keqb : K -> K -> bool) (val : string -> K -> res E).
  Hypothesis keqb_spec : forall a b, keqb a b = true <-> a = b.

  Lemma tupd_same : forall A (l : list A) i x y, nth_error l i = Some y -> nth_error (tupd l i x) i = Some x.
  Proof. induction l as [|z l IH]; intros [|i] x y H; cbn in *; try discriminate; eauto. Qed.
  Lemma tupd_other : forall A (l : list A) i j x, i <> j -> nth_error (tupd l i x) j = nth_error l j.
  Proof. induction l as [|z l IH]; intros [|i] [|j] x H; cbn; auto; try congruence. Qed.

  (** All requests name the embedded database. *)
  Definition same_db (progs : list (list (string * K))) : Prop :=
    forall p nm k, In p progs -> In (nm, k) p -> nm = EmptyString.

  (** A logged result is the one of a sequential run, or an exception, and then another
      thread's program contains the same request. *)
  Definition entry_ok (progs : list (list (string * K))) (e : nat * (string * K) * res E) : Prop :=
    let '(i, (nm, k), r) := e in
    r = val nm k \/
    (r = Throw /\ exists j p, j <> i /\ nth_error progs j = Some p /\ In (nm, k) p).

  Definition pc_ok (progs : list (list (string * K))) (c : config K E) (i : nat) (t : thread K E) : Prop :=
    match at_pc t with
    | Compare | Look => True
    | Assign | ClearIt => False
    | SaveIt e => exists nm k os, todo t = (nm, k) :: os /\ val nm k = Ok e /\
        (clook keqb (cmem c) k = None \/
         exists j p, j <> i /\ nth_error progs j = Some p /\ In (nm, k) p)
    end.

  Definition Inv (progs : list (list (string * K))) (c : config K E) : Prop :=
    cused c = EmptyString /\
    (forall k e, clook keqb (cmem c) k = Some e -> val EmptyString k = Ok e) /\
    (forall i t, nth_error (ths c) i = Some t ->
       (exists p d, nth_error progs i = Some p /\ p = d ++ todo t) /\ pc_ok progs c i t) /\
    (forall e, In e (clog c) -> entry_ok progs e).

  Lemma cinit_inv : forall progs, Inv progs (cinit E progs).
  Proof.
    intro progs. split; [reflexivity|]. split; [discriminate|]. split; [|intros e []].
    intros i t H. cbn in H. rewrite nth_error_map in H. destruct (nth_error progs i) as [p|] eqn:Q; [|discriminate].
    injection H as <-. split; [exists p, []; auto|exact I].
  Qed.

  Lemma pc_ok_same_mem : forall progs c c' i t, cmem c' = cmem c -> pc_ok progs c i t -> pc_ok progs c' i t.
  Proof. intros progs c c' i t H. unfold pc_ok. now rewrite H. Qed.

  Ltac tc H E0 :=
    match type of H with nth_error (tupd _ ?i _) ?j = _ =>
      destruct (Nat.eq_dec i j) as [<-|NE];
      [rewrite (tupd_same _ _ _ E0) in H; injection H as <- | rewrite (tupd_other _ _ NE) in H]
    end.

  Lemma tstep_inv : forall progs c i c', same_db progs -> Inv progs c ->
    tstep keqb val c i = Some c' -> Inv progs c'.
  Proof.
    intros progs c i c' SD (U & M & T & L) H. unfold tstep in H.
    destruct (nth_error (ths c) i) as [t|] eqn:Et; [|discriminate].
    destruct (T _ _ Et) as [(p & d & Hp & Hd) PC].
    destruct (todo t) as [|[nm k] os] eqn:Q; [discriminate|].
    assert (NM : nm = EmptyString).
    { apply (SD p nm k); [now apply nth_error_In in Hp|]. rewrite Hd. apply in_or_app. right. left. reflexivity. }
    assert (REST : exists p' d', nth_error progs i = Some p' /\ p' = d' ++ os).
    { exists p, (d ++ [(nm, k)]). split; [exact Hp|]. rewrite Hd, <- app_assoc. reflexivity. }
    unfold pc_ok in PC. destruct (at_pc t) as [| | | |e] eqn:P; try contradiction.
    - rewrite U, NM in H. cbn in H. injection H as <-. split; [reflexivity|]. split; [exact M|]. split; [|exact L].
      intros j t' H. cbn in H. tc H Et; [|destruct (T _ _ H) as [H1 H2]; split; [exact H1|exact H2]].
      cbn. split; [exists p, d; subst nm; auto|exact I].
    - destruct (clook keqb (cmem c) k) as [e|] eqn:F.
      + injection H as <-. split; [exact U|]. split; [exact M|]. split.
        * intros j t' H. cbn in H. tc H Et; [|exact (T _ _ H)]. cbn. split; [exact REST|exact I].
        * intros x Hx. cbn in Hx. apply in_app_or in Hx. destruct Hx as [Hx|[<-|[]]]; [auto|].
          left. apply M in F. now rewrite NM.
      + destruct (val nm k) as [e| |] eqn:V; injection H as <-.
        * split; [exact U|]. split; [exact M|]. split; [|exact L].
          intros j t' H. cbn in H. tc H Et; [|exact (T _ _ H)]. cbn. split; [exists p, d; auto|].
          exists nm, k, os. auto.
        * split; [exact U|]. split; [exact M|]. split.
          -- intros j t' H. cbn in H. tc H Et; [|exact (T _ _ H)]. cbn. split; [exact REST|exact I].
          -- intros x Hx. cbn in Hx. apply in_app_or in Hx. destruct Hx as [Hx|[<-|[]]]; [auto|]. now left.
        * split; [exact U|]. split; [exact M|]. split.
          -- intros j t' H. cbn in H. tc H Et; [|exact (T _ _ H)]. cbn. split; [exact REST|exact I].
          -- intros x Hx. cbn in Hx. apply in_app_or in Hx. destruct Hx as [Hx|[<-|[]]]; [auto|]. now left.
    - destruct PC as (nm' & k' & os' & Q' & V & W). rewrite Q in Q'. injection Q' as <- <- <-.
      destruct (clook keqb (cmem c) k) as [e'|] eqn:F; injection H as <-.
      + split; [exact U|]. split; [exact M|]. split.
        * intros j t' H. cbn in H. tc H Et; [|exact (T _ _ H)]. cbn. split; [exact REST|exact I].
        * intros x Hx. cbn in Hx. apply in_app_or in Hx. destruct Hx as [Hx|[<-|[]]]; [auto|].
          destruct W as [W|W]; [discriminate|]. right. auto.
      + split; [exact U|]. split; [|split].
        * intros k' e'. cbn. destruct (keqb k k') eqn:EQ; [|apply M].
          apply keqb_spec in EQ. subst k'. intro Z. injection Z as <-. now rewrite <- NM.
        * intros j t' H. cbn in H. tc H Et.
          -- cbn. split; [exact REST|exact I].
          -- destruct (T _ _ H) as [H1 H2]. split; [exact H1|]. unfold pc_ok in *. cbn.
             destruct (at_pc t') as [| | | |e'']; auto.
             destruct H2 as (nm2 & k2 & os2 & A1 & A2 & A3). exists nm2, k2, os2.
             split; [exact A1|]. split; [exact A2|].
             destruct (keqb k k2) eqn:EQ; [|exact A3].
             right. apply keqb_spec in EQ. subst k2. exists i, p. split; [exact NE|]. split; [exact Hp|].
             destruct H1 as (p2 & d2 & B1 & B2).
             assert (nm2 = EmptyString).
             { apply (SD p2 nm2 k); [now apply nth_error_In in B1|]. rewrite B2, A1. apply in_or_app. right. left. reflexivity. }
             rewrite Hd. apply in_or_app. right. left. congruence.
        * intros x Hx. cbn in Hx. apply in_app_or in Hx. destruct Hx as [Hx|[<-|[]]]; [auto|].
          left. now rewrite V.
  Qed.

  Lemma qd_same_db : forall progs s, same_db progs ->
    forall e, In e (clog (sched keqb val (cinit E progs) s)) -> entry_ok progs e.
  Proof.
    intros progs s SD.
    assert (H : forall s c, Inv progs c -> Inv progs (sched keqb val c s)).
    { clear s. induction s as [|i s IH]; intros c I; [exact I|]. cbn. apply IH.
      destruct (tstep keqb val c i) as [c'|] eqn:Q; [|exact I]. eapply tstep_inv; eassumption. }
    apply (H s _ (cinit_inv progs)).
  Qed.
End C.

(** Schedules that break C11. *)
Lemma qd_smash : exists s, In (1%nat, (EmptyString, 0%nat), Throw)
  (clog (sched Nat.eqb (fun _ _ => Ok 5) (cinit Z [[(EmptyString, 0%nat)]; [(EmptyString, 0%nat)]]) s)).
Proof. exists [0;1;0;1;0;1]%nat. vm_compute. auto. Qed.

Lemma qd_wrong_db : exists s, In (1%nat, ("b", 0%nat), Ok 1)
  (clog (sched Nat.eqb (fun nm _ => if String.eqb nm "a" then Ok 1 else Ok 2)
     (cinit Z [[("a", 0%nat)]; [("b", 0%nat)]]) s)).
Proof. exists [0;0;0;0; 1;1;1; 0; 1]%nat. vm_compute. auto. Qed.
