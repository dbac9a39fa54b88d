(** C21, C22: restrictions and the one-atom basis. *)
From Verif Require Import Base StateModel StateProofs Matrix LookupModel SystemModel RangeModel RangeProofs BasisProofs.
From Coq Require Import ZArith Lia Bool String Ascii List.
Import ListNotations.
Set Implicit Arguments.
Local Open Scope string_scope.
Local Open Scope Z_scope.

(** *** C21 *)

(** Specification: the quantum number [q] is admissible for a restriction given
    as a set, where the empty set means "not restricted". *)
Definition admissible (q : Z) (r : list Z) : Prop := r = [] \/ In q r.

(** The set variants of restrictN/L/J/M: a state is kept iff it is artificial or each
    restricted quantum number is in its set. *)
Theorem C21_sets : forall g st,
  qvalid1 g st = true <->
  isArtificial st = true \/
  (admissible (n st) (rg_n g) /\ admissible (l st) (rg_l g) /\
   admissible (j2 st) (rg_j g) /\ admissible (m2 st) (rg_m g)).
Proof.
  intros. unfold qvalid1, admissible.
  rewrite orb_true_iff, !andb_true_iff, !qnumValid_iff. tauto.
Qed.

Theorem C21_sets_two : forall g st,
  qvalid2 g st = true <-> qvalid1 g (fst1 st) = true /\ qvalid1 g (snd1 st) = true.
Proof. intros. unfold qvalid2. apply andb_true_iff. Qed.

(** The (min,max) variants.  Missing for the full claim: min > max, and half-integer
    values of j, m that differ from min by a non-integer (both refuted below). *)
Theorem C21_intervals_partial : forall nlo nhi llo lhi jlo jhi mlo mhi st,
  nlo <= nhi -> llo <= lhi -> jlo <= jhi -> mlo <= mhi ->
  Z.Even (j2 st - jlo) -> Z.Even (m2 st - mlo) ->
  (qvalid1 (restrictN nlo nhi (restrictL llo lhi (restrictJ jlo jhi (restrictM mlo mhi no_ranges)))) st = true <->
   isArtificial st = true \/
   (nlo <= n st <= nhi /\ llo <= l st <= lhi /\ jlo <= j2 st <= jhi /\ mlo <= m2 st <= mhi)).
Proof.
  intros. unfold qvalid1, restrictN, restrictL, restrictJ, restrictM. cbn [rg_n rg_l rg_j rg_m].
  apply even_mod in H3, H4.
  rewrite orb_true_iff, !andb_true_iff, !qnumValid_range; try lia; try apply Z.mod_1_r; try assumption.
  tauto.
Qed.

(** restrictN(5,4) keeps every state instead of none. *)
Theorem C21_inverted_refuted :
  ~ (forall lo hi st, isArtificial st = false ->
       qvalid1 (restrictN lo hi no_ranges) st = true -> lo <= n st <= hi).
Proof.
  intro H. specialize (H 5 4 (St1 "Rb" "Rb" 60 0 1 1 1 0) eq_refl eq_refl). simpl in H. lia.
Qed.

(** restrictJ(0,2) removes the state with j = 1/2. *)
Theorem C21_half_integer_refuted :
  ~ (forall lo hi st, lo <= j2 st <= hi -> qvalid1 (restrictJ lo hi no_ranges) st = true).
Proof.
  intro H. specialize (H 0 4 (St1 "Rb" "Rb" 60 0 1 1 1 0)). simpl in H.
  assert (X : qvalid1 (restrictJ 0 4 no_ranges) (St1 "Rb" "Rb" 60 0 1 1 1 0) = true) by (apply H; lia).
  vm_compute in X. discriminate.
Qed.

Example C21_intervals_nonvacuous :
  let st := St1 "Rb" "Rb" 60 1 3 (-1) 1 0 in
  Z.Even (j2 st - 1) /\ Z.Even (m2 st - (-3)) /\
  qvalid1 (restrictN 59 61 (restrictL 0 2 (restrictJ 1 3 (restrictM (-3) 3 no_ranges)))) st = true /\
  qvalid1 (restrictN 61 62 (restrictL 0 2 (restrictJ 1 3 (restrictM (-3) 3 no_ranges)))) st = false.
Proof. repeat split; try reflexivity; [exists 1|exists 1]; reflexivity. Qed.

(** *** C22 *)

(** [wanted energy species srot rq s2 n l j m] (BasisProofs.v) lists the
    documented conditions: 0 <= l < n, |l-s| <= j <= l+s, -j <= m <= j in integer steps,
    the restrictions, the energy window and the momentum symmetry (j, m, s doubled).
    Missing for the full claim: restrictions on j, m of the wrong parity and
    restrictions on j for spin above 1/2 (refuted below); reflection symmetry is
    treated in C59. *)
Theorem C22_exact_partial : forall (K : StarRing) hs hi hf (rt : K) iu energy sp srot rq s2,
  spin2 sp = Ok s2 -> 0 <= s2 ->
  sets_ok srot rq -> rg_n (rq_rg rq) <> [] ->
  (forall j, In j (rg_j (rq_rg rq)) -> Z.Even (j - s2)) ->
  (forall m, In m (rg_m (rq_rg rq)) -> Z.Even (m - s2)) ->
  (rg_j (rq_rg rq) = [] \/ s2 <= 1) ->
  (forall nn ll jj, In nn (rg_n (rq_rg rq)) -> 0 <= ll < nn -> exists e, energy sp nn ll jj = Ok e) ->
  distinct (rq_add rq) ->
  (forall st, In st (rq_add rq) -> (isArtificial st = true \/ species st = sp) /\
     (forall nn ll jj mm s, wanted energy sp srot rq s2 nn ll jj mm ->
        mkOne hs hi hf sp nn ll jj mm = Ok s -> eq1 s st = false) /\
     (isArtificial st = true \/ exists e, energy (species st) (n st) (l st) (j2 st) = Ok e)) ->
  exists tbl b h, initBasis1 hs hi hf rt iu energy sp NA srot rq = (tbl, Ok (b, h)) /\
    map fst tbl = seq 0 (List.length tbl) /\
    (forall st, In st (map snd tbl) <->
       (exists nn ll jj mm, wanted energy sp srot rq s2 nn ll jj mm /\
                            mkOne hs hi hf sp nn ll jj mm = Ok st) \/
       (In st (rq_add rq) /\ passes srot st = true)) /\
    distinct (map snd tbl) /\
    meq b (mid (List.length tbl)) /\
    nr h = List.length tbl /\ nc h = List.length tbl /\ diagonal h /\
    (forall i st, nth_error (map snd tbl) i = Some st ->
       if isArtificial st then at_ h i i = s0
       else energy (species st) (n st) (l st) (j2 st) = Ok (at_ h i i)).
Proof. intros. eapply init_exact; eauto. Qed.

(** Adding a state that the restrictions already produce is reported. *)
Theorem C22_duplicate_throws : forall (K : StarRing) hs hi hf (rt : K) iu energy sp srot rq s2,
  spin2 sp = Ok s2 -> sets_ok srot rq -> rg_n (rq_rg rq) <> [] ->
  (forall nn ll jj, In nn (rg_n (rq_rg rq)) -> 0 <= ll < nn -> exists e, energy sp nn ll jj = Ok e) ->
  forall st, In st (rq_add rq) ->
  ((exists s, In s (map fst (built hs hi hf energy sp srot rq s2)) /\ eq1 s st = true) \/
   (isArtificial st = false /\ species st <> sp)) ->
  exists tbl, initBasis1 hs hi hf rt iu energy sp NA srot rq = (tbl, Throw).
Proof. intros. eexists. eapply init_dup_throws; eauto. Qed.

Definition e0 : string -> Z -> Z -> Z -> res ZR := fun _ _ _ _ => Ok 0.
Definition h0 {A} : A -> N := fun _ => 0%N.
Definition init0 sp srot rq := initBasis1 (K:=ZR) h0 h0 h0 1 None e0 sp NA srot rq.
Definition rq0 rn rl rj rm := Request (K:=ZR) (State:=state1) (Ranges rn rl rj rm) None None [].

(** A state is physical if j is reachable from l and s, and m from j. *)
Definition physical (st : state1) : Prop :=
  Z.abs (2 * l st - s2 st) <= j2 st <= 2 * l st + s2 st /\ Z.Even (j2 st - s2 st) /\
  - j2 st <= m2 st <= j2 st /\ Z.Even (m2 st - j2 st).

(** Integer j for a spin-1/2 atom: restrictJ(0,2) produces "j=1" states. *)
Theorem C22_parity_refuted :
  ~ (forall sp srot rq st, In st (map snd (fst (init0 sp srot rq))) -> physical st).
Proof.
  intro H. specialize (H "Rb" None (rq0 [2] [1] [0;2;4] []) (St1 "Rb" "Rb" 2 1 2 0 1
     (hashv (match mkOne h0 h0 h0 "Rb" 2 1 2 0 with Ok s => s | _ => St1 "" "" 0 0 0 0 0 0 end)))).
  assert (P : physical (St1 "Rb" "Rb" 2 1 2 0 1
     (hashv (match mkOne h0 h0 h0 "Rb" 2 1 2 0 with Ok s => s | _ => St1 "" "" 0 0 0 0 0 0 end)))).
  { apply H. vm_compute. tauto. }
  destruct P as (_ & [k Hk] & _). change (2 - 1 = 2 * k) in Hk. lia.
Qed.

(** Integer m for half-integer j: restrictM(-1,1) produces m = 0. *)
Theorem C22_parity_m_refuted :
  ~ (forall sp srot rq st, In st (map snd (fst (init0 sp srot rq))) -> rg_j (rq_rg rq) = [] -> physical st).
Proof.
  intro H. specialize (H "Rb" None (rq0 [1] [0] [] [-2;0;2]) (St1 "Rb" "Rb" 1 0 1 0 1
     (hashv (match mkOne h0 h0 h0 "Rb" 1 0 1 0 with Ok s => s | _ => St1 "" "" 0 0 0 0 0 0 end)))).
  assert (P : physical (St1 "Rb" "Rb" 1 0 1 0 1
     (hashv (match mkOne h0 h0 h0 "Rb" 1 0 1 0 with Ok s => s | _ => St1 "" "" 0 0 0 0 0 0 end)))).
  { apply H; [|reflexivity]. vm_compute. tauto. }
  destruct P as (_ & _ & _ & [k Hk]). change (0 - 1 = 2 * k) in Hk. lia.
Qed.

(** Triplet species: restrictJ(0,1) produces an S state with j = 0 although s = 1. *)
Theorem C22_triplet_refuted :
  ~ (forall sp srot rq st, In st (map snd (fst (init0 sp srot rq))) ->
       (forall j, In j (rg_j (rq_rg rq)) -> Z.Even (j - s2 st)) ->
       (forall m, In m (rg_m (rq_rg rq)) -> Z.Even (m - s2 st)) -> physical st).
Proof.
  intro H. specialize (H "Sr3" None (rq0 [5] [0] [0;2] []) (St1 "Sr3" "Sr" 5 0 0 0 2
     (hashv (match mkOne h0 h0 h0 "Sr3" 5 0 0 0 with Ok s => s | _ => St1 "" "" 0 0 0 0 0 0 end)))).
  assert (P : physical (St1 "Sr3" "Sr" 5 0 0 0 2
     (hashv (match mkOne h0 h0 h0 "Sr3" 5 0 0 0 with Ok s => s | _ => St1 "" "" 0 0 0 0 0 0 end)))).
  { apply H.
    - vm_compute. tauto.
    - intros j [<-|[<-|[]]]; [exists (-1)|exists 0]; reflexivity.
    - intros m []. }
  destruct P as (P & _). change (2 <= 0 <= 2) in P. lia.
Qed.

Example C22_nonvacuous : let rq := rq0 [2;3] [] [] [] in
  spin2 "Rb" = Ok 1 /\ sets_ok (K:=ZR) None rq /\ rg_n (rq_rg rq) <> [] /\
  List.length (fst (init0 "Rb" None rq)) = 26%nat /\
  wanted (K:=ZR) e0 "Rb" None rq 1 3 2 5 (-3).
Proof.
  cbn zeta. split; [reflexivity|]. split.
  { repeat split; cbn; repeat constructor; cbn; intuition lia. }
  split; [discriminate|]. split; [vm_compute; reflexivity|].
  unfold wanted. cbn. repeat split; try lia; auto.
  - exists 2; reflexivity.
  - exists (-4); reflexivity.
  - exists 0. split; [reflexivity|split; intros ? ?; discriminate].
Qed.

Print Assumptions C21_sets. Print Assumptions C21_sets_two. Print Assumptions C21_intervals_partial.
Print Assumptions C21_inverted_refuted. Print Assumptions C21_half_integer_refuted.
Print Assumptions C22_exact_partial. Print Assumptions C22_duplicate_throws.
Print Assumptions C22_parity_refuted. Print Assumptions C22_parity_m_refuted. Print Assumptions C22_triplet_refuted.
