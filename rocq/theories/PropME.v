(** Properties C13 - C18: matrix elements and their cache.  Vocabulary: MESpec.v and Racah.v. *)
From Verif Require Import Base StateModel MEModel Racah MESpec MEProofs MEReal.
From Coq Require Import ZArith Reals Lra Lia Bool String Ascii List Permutation.
Local Open Scope list_scope.
Local Open Scope Z_scope.
Set Implicit Arguments.

(** *** C13.  Forbidden electric transitions have matrix element zero, for every pair of physical
    states, every multipole order and every radial function; the rules are symmetric; the form with
    q is the form without q restricted to m1 - m2 = q. *)
Theorem C13_multipole_forbidden : forall radial e_charge dn mth a b kr ka v,
  physical a -> physical b -> same_atom a b ->
  selMultipole a b ka = Ok false -> multipole radial e_charge dn mth a b kr ka = Ok v -> v = 0%R.
Proof. exact multipole_forbidden. Qed.
Print Assumptions C13_multipole_forbidden.

Theorem C13_rules_symmetric : forall a b k,
  selMultipole a b k = selMultipole b a k /\ selMomentum a b = selMomentum b a.
Proof. exact sel_sym. Qed.
Print Assumptions C13_rules_symmetric.

Theorem C13_rules_q : forall a b k q, 0 <= k ->
  (selMultipoleQ a b k q = Ok true <-> selMultipole a b k = Ok true /\ m2 a - m2 b = 2 * q) /\
  (selMomentumQ a b q = Ok true <-> selMomentum a b = Ok true /\ m2 a - m2 b = 2 * q).
Proof. exact sel_q. Qed.
Print Assumptions C13_rules_q.

(** Magnetic transitions: proved for equal l.  Missing: different l, where it is false. *)
Theorem C13_magnetic_forbidden_partial : forall radial minus_muB gL gS dn mth a b v,
  physical a -> physical b -> same_atom a b -> l a = l b ->
  selMomentum a b = Ok false -> magnetic radial minus_muB gL gS dn mth a b = Ok v -> v = 0%R.
Proof. exact magnetic_forbidden. Qed.
Print Assumptions C13_magnetic_forbidden_partial.

(** getMagneticDipole of an S and a P state is not zero although the rule forbids it. *)
Theorem C13_magnetic_refuted : exists a b, physical a /\ physical b /\ same_atom a b /\
  selMomentum a b = Ok false /\
  exists v, magnetic radial1 (-1) 1 2 EmptyString 0 a b = Ok v /\ v <> 0%R.
Proof. exact magnetic_not_zero. Qed.
Print Assumptions C13_magnetic_refuted.

Example C13_nonvacuous :
  physical (sRb 60 0 1 1) /\ physical (sRb 61 2 3 1) /\ same_atom (sRb 60 0 1 1) (sRb 61 2 3 1) /\
  selMultipole (sRb 60 0 1 1) (sRb 61 2 3 1) 1 = Ok false /\
  selMultipole (sRb 60 0 1 1) (sRb 61 2 3 1) 2 = Ok true.
Proof. unfold physical. cbn. repeat split; try lia. Qed.

(** *** C14.  Whatever order the states are given in, the element is the textbook one for that order,
    and exchanging the states gives the adjoint: the factor (-1)^(m1 - m2). *)
Theorem C14_multipole_value : forall radial e_charge dn mth a b kr ka,
  physical a -> physical b -> same_atom a b -> forall v,
  multipole radial e_charge dn mth a b kr ka = Ok v <->
  multipole_textbook radial e_charge dn mth a b kr ka = Ok v.
Proof. exact multipole_ok. Qed.
Print Assumptions C14_multipole_value.

Theorem C14_magnetic_value : forall radial minus_muB gL gS dn mth a b,
  physical a -> physical b -> same_atom a b -> l a = l b -> forall v,
  magnetic radial minus_muB gL gS dn mth a b = Ok v <->
  magnetic_textbook radial minus_muB gL gS dn mth a b = Ok v.
Proof. exact magnetic_ok. Qed.
Print Assumptions C14_magnetic_value.

Theorem C14_multipole_adjoint : forall radial e_charge dn mth a b kr ka v,
  physical a -> physical b -> same_atom a b ->
  multipole radial e_charge dn mth a b kr ka = Ok v ->
  multipole radial e_charge dn mth b a kr ka = Ok (phase (m2 a - m2 b) * v)%R.
Proof. exact multipole_adjoint. Qed.
Print Assumptions C14_multipole_adjoint.

Theorem C14_magnetic_adjoint : forall radial minus_muB gL gS dn mth a b v,
  physical a -> physical b -> same_atom a b -> l a = l b ->
  magnetic radial minus_muB gL gS dn mth a b = Ok v ->
  magnetic radial minus_muB gL gS dn mth b a = Ok (phase (m2 a - m2 b) * v)%R.
Proof. exact magnetic_adjoint. Qed.
Print Assumptions C14_magnetic_adjoint.

Example C14_nonvacuous : exists v,
  multipole radial1 1 EmptyString 0 (sRb 60 1 3 1) (sRb 59 0 1 (-1)) 1 1 = Ok v /\
  physical (sRb 60 1 3 1) /\ physical (sRb 59 0 1 (-1)).
Proof.
  eexists. split; [|unfold physical; cbn; repeat split; lia].
  apply multipole_ok; [unfold physical; cbn; repeat split; lia|unfold physical; cbn; repeat split; lia|split; reflexivity|].
  unfold multipole_textbook, radial_of. cbn [sRb n l j2 m2 species Z.ltb Z.eqb Z.compare Pos.compare Pos.compare_cont orb andb radial1 bind].
  reflexivity.
Qed.

(** *** C15.  In any history of requests, precalculations, method changes and restarts, with other
    processes writing to the same file, a request that returns a value returns the one an unused
    object with the same settings returns.  [track] excludes setMethod while precalculated or failed
    work is pending, and setDefectDB after first use. *)
Section Hist.
  Variables (V : Type) (v0 v1 : V) (vadd vmul : V -> V -> V) (vopp : V -> V).
  Variables (w3j w6j : Z -> Z -> Z -> Z -> Z -> Z -> V) (sqrtZ : Z -> V).
  Variable radial : string -> Z -> string -> Z -> Z -> Z -> Z -> Z -> Z -> Z -> res V.
  Variable order : list ckey -> list ckey.
  Variable rehashed : rows V -> rows V -> bool.
  Variables (e_charge minus_muB gL gS : V) (sqrtSpin sqrtL : Z -> V).
  Let calc := calc v0 v1 vmul vopp w3j w6j sqrtZ radial.
  Let multi := getElectricMultipole v0 v1 vmul vopp w3j w6j sqrtZ radial order e_charge.
  Let magn := getMagneticDipole v0 v1 vadd vmul vopp w3j w6j sqrtZ radial order minus_muB gL gS sqrtSpin sqrtL.
  Let rad := getRadial v0 v1 vmul vopp w3j w6j sqrtZ radial order rehashed.
  Let run := runE v0 v1 vadd vmul vopp w3j w6j sqrtZ radial order rehashed e_charge minus_muB gL gS sqrtSpin sqrtL.

  Theorem C15_sound_partial : (forall l, Permutation (order l) l) -> forall usedb f h,
    rows_correct calc (committed f) -> open_tx f = None ->
    (forall new, In (EExtern new) h -> rows_correct calc new) ->
    let (c, rs) := run (newCache usedb f) h in
    forall p, track Virgin h rs = Some p ->
    let (dn, mth) := settings EmptyString 0 h in
    (forall a b kr ka v, snd (multi c a b kr ka) = Ok v -> snd (multi (fresh V dn mth) a b kr ka) = Ok v) /\
    (forall a b v, snd (magn c a b) = Ok v -> snd (magn (fresh V dn mth) a b) = Ok v) /\
    ((forall m, rehashed m m = false) ->
     forall a b k v, snd (rad c a b k) = Ok v -> snd (rad (fresh V dn mth) a b k) = Ok v).
  Proof. exact (@any_history V v0 v1 vadd vmul vopp w3j w6j sqrtZ radial order rehashed e_charge minus_muB gL gS sqrtSpin sqrtL). Qed.

  (** If the radial integrals can always be computed, requests also never fail where an unused
      object would answer; getRadial only when nothing is pending (see the refutation). *)
  Theorem C15_complete_partial : (forall l, Permutation (order l) l) -> radial_total radial -> forall usedb f h,
    rows_correct calc (committed f) -> open_tx f = None ->
    (forall new, In (EExtern new) h -> rows_correct calc new) ->
    let (c, rs) := run (newCache usedb f) h in
    forall p, track Virgin h rs = Some p ->
    let (dn, mth) := settings EmptyString 0 h in
    (forall a b kr ka, snd (multi c a b kr ka) = snd (multi (fresh V dn mth) a b kr ka)) /\
    (forall a b, snd (magn c a b) = snd (magn (fresh V dn mth) a b)) /\
    ((forall m, rehashed m m = false) -> p <> Pending ->
     forall a b k, snd (rad c a b k) = snd (rad (fresh V dn mth) a b k)).
  Proof. exact (@any_history_total V v0 v1 vadd vmul vopp w3j w6j sqrtZ radial order rehashed e_charge minus_muB gL gS sqrtSpin sqrtL). Qed.

  (** *** C18.  After any such history, including restarts at any point between steps, what the file
      holds is correct; within one update the committed rows do not change before the commit.
      Missing: the commit itself is taken to be atomic, which the PRAGMAs
      journal_mode=MEMORY and synchronous=OFF (lines 90-93) do not provide across a crash. *)
  Theorem C18_file_correct_partial : (forall l, Permutation (order l) l) -> forall usedb f h,
    rows_correct calc (committed f) -> open_tx f = None ->
    (forall new, In (EExtern new) h -> rows_correct calc new) ->
    let (c, rs) := run (newCache usedb f) h in
    forall p, track Virgin h rs = Some p ->
    forall k v, rget (committed (file c)) k = Some v -> forall d, calc EmptyString (kmeth d k) k = Ok v.
  Proof. exact (@file_correct V v0 v1 vadd vmul vopp w3j w6j sqrtZ radial order rehashed e_charge minus_muB gL gS sqrtSpin sqrtL). Qed.

  Theorem C18_nothing_before_commit_partial : forall dn mth u ms f m f' m' r,
    fill v0 v1 vmul vopp w3j w6j sqrtZ radial dn mth u f m ms = (f', m', r) -> committed f' = committed f.
  Proof. exact (@fill_uncommitted V v0 v1 vmul vopp w3j w6j sqrtZ radial). Qed.

  (** A commit that is not atomic: the process dies while the rows of an update are written, and any part [left] of the rows that the
      file would hold after the update has reached the disk (old and new rows alike).  A later process that opens this file gets correct
      values, in every history of its own, and what the file holds afterwards is correct.  Missing: damage of the structure of the file
      (pages of SQLite), which the PRAGMAs journal_mode=MEMORY and synchronous=OFF permit. *)
  Theorem C18_torn_commit_partial : (forall l, Permutation (order l) l) -> forall usedb f h,
    rows_correct calc (committed f) -> open_tx f = None ->
    (forall new, In (EExtern new) h -> rows_correct calc new) ->
    let (c, rs) := run (newCache usedb f) h in
    forall p, track Virgin h rs = Some p ->
    forall left, (forall k v, In (k, v) left -> rget (committed (file c)) k = Some v) ->
    forall h', (forall new, In (EExtern new) h' -> rows_correct calc new) ->
    let (c', rs') := run (newCache true (Dbf left None)) h' in
    forall p', track Virgin h' rs' = Some p' ->
    let (dn, mth) := settings EmptyString 0 h' in
    (forall k v, rget (committed (file c')) k = Some v -> forall d, calc EmptyString (kmeth d k) k = Ok v) /\
    (forall a b kr ka v, snd (multi c' a b kr ka) = Ok v -> snd (multi (fresh V dn mth) a b kr ka) = Ok v) /\
    (forall a b v, snd (magn c' a b) = Ok v -> snd (magn (fresh V dn mth) a b) = Ok v).
  Proof.
    intros Po u f h F O X.
    pose proof (@C18_file_correct_partial Po u f h F O X) as H. destruct (run (newCache u f) h) as [c rs].
    intros p T left Hl h' X'.
    assert (F' : rows_correct calc (committed (Dbf left None))).
    { intros k v Hk. apply (H p T). now apply Hl. }
    pose proof (@C18_file_correct_partial Po true (Dbf left None) h' F' eq_refl X') as H1.
    pose proof (@C15_sound_partial Po true (Dbf left None) h' F' eq_refl X') as H2.
    destruct (run (newCache true (Dbf left None)) h') as [c' rs']. intros p' T'. specialize (H1 p' T'). specialize (H2 p' T').
    destruct (settings EmptyString 0 h') as [dn mth]. destruct H2 as (A & B & _). exact (conj H1 (conj A B)).
  Qed.
End Hist.
Print Assumptions C15_sound_partial.
Print Assumptions C15_complete_partial.
Print Assumptions C18_file_correct_partial.
Print Assumptions C18_nothing_before_commit_partial.
Print Assumptions C18_torn_commit_partial.

(** *** A concrete instance for the counterexamples: integers, all symbols 1. *)
Definition one6 (_ _ _ _ _ _ : Z) : Z := 1.
Definition one1 (_ : Z) : Z := 1.
(** The radial value tells the defect database and the method; species "Xx" is unknown. *)
Definition zrad (dn : string) (m : Z) (sp : string) (_ _ _ _ _ _ _ : Z) : res Z :=
  if String.eqb sp "Xx" then Throw else Ok ((if String.eqb dn EmptyString then 100 else 200) + m).
(** std::unordered_map of libstdc++: 13 buckets at first, the next insertion rehashes. *)
Definition grows13 (a b : rows Z) : bool :=
  (Nat.leb (List.length (filter (fun kv => is_rad (fst kv)) a)) 13) &&
  (Nat.ltb 13 (List.length (filter (fun kv => is_rad (fst kv)) b))).
Definition zrun := runE 0 1 Z.add Z.mul Z.opp one6 one6 one1 zrad asis grows13 1 1 1 1 one1 one1.
Definition ztrad := getRadial 0 1 Z.mul Z.opp one6 one6 one1 zrad asis grows13.
Definition zmulti := getElectricMultipole 0 1 Z.mul Z.opp one6 one6 one1 zrad asis 1.
Definition nofile : dbfile Z := Dbf nil None.
Definition sXx : state1 := St1 "Xx" "Xx" 60 0 1 1 1 0%N.

Example C15_nonvacuous :
  let h := [EMultipole Z (sRb 60 0 1 1) (sRb 60 1 1 1) 1 1; EPre Z [sRb 60 0 1 1; sRb 61 1 1 1; sRb 62 2 3 1] 1 None 1 true false false;
            EMultipole Z (sRb 60 0 1 1) (sRb 61 1 1 1) 1 1; ESetMethod Z 1; ERestart Z;
            ESetMethod Z 1; EMagnetic Z (sRb 60 1 1 1) (sRb 60 1 3 1)] in
  let (c, rs) := zrun (newCache true nofile) h in
  track Virgin h rs = Some Settled /\ rs = [Ok 100; Ok 100; Ok 0] /\ List.length (committed (file c)) = 12%nat.
Proof. vm_compute. auto. Qed.

(** twelve rows were to be written, every second one arrives; the next process gets the same values *)
Fixpoint halves {A} (b : bool) (l : list A) : list A := match l with nil => nil | x :: l => (if b then [x] else nil) ++ halves (negb b) l end.
Example C18_torn_nonvacuous :
  let h := [EMultipole Z (sRb 60 0 1 1) (sRb 60 1 1 1) 1 1; EMagnetic Z (sRb 60 1 1 1) (sRb 60 1 3 1)] in
  let (c, rs) := zrun (newCache true nofile) h in
  track Virgin h rs = Some Settled /\
  let left := halves true (committed (file c)) in
  forallb (fun kv => match rget (committed (file c)) (fst kv) with Some v => Z.eqb v (snd kv) | None => false end) left = true /\
  (List.length left < List.length (committed (file c)))%nat /\
  let (c', rs') := zrun (newCache true (Dbf left None)) h in
  rs' = rs /\ (List.length left < List.length (committed (file c')))%nat.
Proof. vm_compute. repeat split; lia. Qed.

(** Keys precalculated under one method are computed with the method of a later setMethod and stored
    (also in the database) as if they belonged to the first. *)
Theorem C15_method_refuted : exists h, let (c, rs) := zrun (newCache true nofile) h in
  settings EmptyString 0 h = (EmptyString, 0) /\ (forall new, ~ In (EExtern new) h) /\
  snd (ztrad c (sRb 60 0 1 1) (sRb 60 1 1 1) 1) = Ok 101 /\
  snd (ztrad (fresh Z EmptyString 0) (sRb 60 0 1 1) (sRb 60 1 1 1) 1) = Ok 100.
Proof.
  exists [EPre Z [sRb 60 0 1 1; sRb 60 1 1 1] 1 None 1 false false true; ESetMethod Z 1;
          ERadial Z (sRb 50 0 1 1) (sRb 50 0 1 1) 1; ESetMethod Z 0].
  vm_compute. repeat split. intros new H. decompose [or] H; congruence.
Qed.
Print Assumptions C15_method_refuted.

(** getRadial dereferences an iterator found before the update that may rehash the map. *)
Theorem C15_getRadial_refuted : exists h, let (c, rs) := zrun (newCache false nofile) h in
  track Virgin h rs = Some Pending /\
  snd (ztrad c (sRb 60 0 1 1) (sRb 60 0 1 1) 1) = UB /\
  snd (ztrad (fresh Z EmptyString 0) (sRb 60 0 1 1) (sRb 60 0 1 1) 1) = Ok 100.
Proof.
  exists [ERadial Z (sRb 60 0 1 1) (sRb 60 0 1 1) 1;
          EPre Z [sRb 60 0 1 1; sRb 61 0 1 1; sRb 62 0 1 1; sRb 63 0 1 1; sRb 64 0 1 1] 1 None 1 false false true].
  vm_compute. auto.
Qed.
Print Assumptions C15_getRadial_refuted.

(** *** C16.  setDefectDB before first use takes effect on every later value: this is the case
    [ESetDefect] of C15_sound_partial / C15_complete_partial ([track] admits it while Virgin, and
    [settings] then names the given path).  From the call on the shared file is left alone. *)
Theorem C16_before_use_partial : forall (order : list ckey -> list ckey), (forall l, Permutation (order l) l) ->
  forall radial rehashed e_charge minus_muB gL gS, radial_total radial ->
  let run := runE 0%R 1%R Rplus Rmult Ropp W3j W6j sqrtZ radial order rehashed e_charge minus_muB gL gS sqrtSpin sqrtL in
  let multi := getElectricMultipole 0%R 1%R Rmult Ropp W3j W6j sqrtZ radial order e_charge in
  forall path usedb f h,
  rows_correct (calc 0%R 1%R Rmult Ropp W3j W6j sqrtZ radial) (committed f) -> open_tx f = None ->
  (forall e, In e h -> outside e = false) ->
  let (c, rs) := run (newCache usedb f) (ESetDefect R path :: h) in
  forall p, track Virgin (ESetDefect R path :: h) rs = Some p ->
  file c = f /\
  let (dn, mth) := settings path 0 h in
  forall a b kr ka, snd (multi c a b kr ka) = snd (multi (fresh R dn mth) a b kr ka).
Proof.
  intros order OP radial rh e mu gl gs T run multi path usedb f h F O NO.
  pose proof (@any_history_total R 0%R 1%R Rplus Rmult Ropp W3j W6j sqrtZ radial order rh e mu gl gs sqrtSpin sqrtL OP T
                usedb f (ESetDefect R path :: h) F O) as H.
  pose proof (@run_nofile R 0%R 1%R Rplus Rmult Ropp W3j W6j sqrtZ radial order rh e mu gl gs sqrtSpin sqrtL
                h (setDefectDB (newCache usedb f) path) eq_refl NO) as NF.
  assert (X : forall new, In (EExtern new) (ESetDefect R path :: h) ->
              rows_correct (calc 0%R 1%R Rmult Ropp W3j W6j sqrtZ radial) new).
  { intros new [E|E]; [discriminate|]. apply NO in E. discriminate. }
  specialize (H X). subst run. cbn [runE stepE] in *.
  destruct (runE _ _ _ _ _ _ _ _ _ _ _ _ _ _ _ _ _ (setDefectDB (newCache usedb f) path) h) as [c rs].
  intros p Tr. specialize (H p Tr). cbn [settings] in H. split; [exact NF|].
  destruct (settings path 0 h) as [dn mth]. exact (proj1 H).
Qed.
Print Assumptions C16_before_use_partial.

(** After a request, setDefectDB has no effect on values already cached. *)
Theorem C16_after_use_refuted : exists h, let (c, rs) := zrun (newCache false nofile) h in
  settings EmptyString 0 h = ("my.db"%string, 0) /\
  snd (ztrad c (sRb 60 0 1 1) (sRb 60 1 1 1) 1) = Ok 100 /\
  snd (ztrad (fresh Z "my.db" 0) (sRb 60 0 1 1) (sRb 60 1 1 1) 1) = Ok 200.
Proof.
  exists [ERadial Z (sRb 60 0 1 1) (sRb 60 1 1 1) 1; ESetDefect Z "my.db"]. vm_compute. auto.
Qed.
Print Assumptions C16_after_use_refuted.

(** *** C17.  A failed request poisons later, unrelated ones, without and with a database file. *)
Theorem C17_failure_poisons_refuted : forall usedb, exists h, let (c, rs) := zrun (newCache usedb nofile) h in
  rs = [Throw] /\ snd (zmulti c (sRb 60 0 1 1) (sRb 60 1 1 1) 1 1) = Throw /\
  snd (zmulti (fresh Z EmptyString 0) (sRb 60 0 1 1) (sRb 60 1 1 1) 1 1) = Ok 100.
Proof. intros usedb. exists [ERadial Z sXx sXx 1]. destruct usedb; vm_compute; auto. Qed.
Print Assumptions C17_failure_poisons_refuted.
(** What does hold after failures: values that are returned are right (C15_sound_partial covers
    histories with failed requests). *)
