(** Properties C10 - C12: quantum defect data. *)
From Verif Require Import Base QDModel QDProofs.
From Coq Require Import ZArith Lia Bool String Ascii List.
Local Open Scope string_scope.
Local Open Scope list_scope.
Local Open Scope Z_scope.
Set Implicit Arguments.

(** *** C10.  Every history of constructions in one thread yields what fresh processes would
    yield, provided each database file replaces the tables whatever they were before (as the
    shipped script does: DROP TABLE IF EXISTS, CREATE, INSERT) and files do not change on disk.
    Missing: other files, for which the claim is false (see the two [_refuted] theorems). *)
Theorem C10_sequential_partial : forall PD RD E (formula : Z -> PD -> RD -> E) embedded fs h,
  (exists content, files_ok fs content) -> no_rewrite h ->
  snd (run formula embedded fs (init PD RD E) h) =
    map (fun q => fresh formula embedded fs (fst q) (snd q)) (reqs h).
Proof. exact qd_sequential. Qed.
Print Assumptions C10_sequential_partial.

(** A path that cannot be opened silently yields the data of the previously used database. *)
Theorem C10_missing_file_refuted : exists fs h, no_rewrite h /\
  snd (run cfun (one_db 0) fs (init Z Z Z) h) <>
    map (fun q => fresh cfun (one_db 0) fs (fst q) (snd q)) (reqs h).
Proof. exact qd_missing_file. Qed.
Print Assumptions C10_missing_file_refuted.

(** A file changed between two constructions is not noticed. *)
Theorem C10_modified_file_refuted : exists (fs : files Z Z) h nm k,
  let '(fs', _, rs) := run cfun (one_db 0) fs (init Z Z Z) h in
  (forall nm' d, exists c, fs' nm' d = (c, true)) /\
  nth_error (reqs h) 1 = Some (nm, k) /\ nth_error rs 1 <> Some (fresh cfun (one_db 0) fs' nm k).
Proof. exact qd_modified_file. Qed.
Print Assumptions C10_modified_file_refuted.

Example C10_nonvacuous :
  let fs : files Z Z := fun nm _ => (one_db (if String.eqb nm "a.sql" then 1 else 2), true) in
  (exists content, files_ok fs content) /\
  snd (run cfun (one_db 0) fs (init Z Z Z)
        [Construct Z Z "a.sql" kRb; Construct Z Z "b.sql" kRb; Construct Z Z "a.sql" kRb;
         Construct Z Z "" kRb; Construct Z Z "" (Key "Xx" 60 0 1)])
  = [Ok 62; Ok 64; Ok 62; Ok 60; Throw].
Proof.
  cbn. split; [|reflexivity].
  exists (fun nm => one_db (if String.eqb nm "a.sql" then 1 else 2)). intros nm d _. reflexivity.
Qed.

(** *** C11.  Any number of threads, any schedule.  With all threads using the embedded database
    every construction yields the sequential value, or throws while another thread asks for the
    same state.  Missing: that it never throws, and different databases (both false). *)
Theorem C11_same_database_partial : forall K E (keqb : K -> K -> bool) (val : string -> K -> res E),
  (forall a b, keqb a b = true <-> a = b) ->
  forall progs s, same_db progs ->
  forall i nm k r, In (i, (nm, k), r) (clog (sched keqb val (cinit E progs) s)) ->
    r = val nm k \/
    (r = Throw /\ exists j p, j <> i /\ nth_error progs j = Some p /\ In (nm, k) p).
Proof. exact (fun K E keqb val S progs s D i nm k r H => @qd_same_db K E keqb val S progs s D _ H). Qed.
Print Assumptions C11_same_database_partial.

(** Two threads asking for the same state: one of them throws "Cache smashing detected!". *)
Theorem C11_smash_refuted : exists s, In (1%nat, (EmptyString, 0%nat), Throw)
  (clog (sched Nat.eqb (fun _ _ => Ok 5) (cinit Z [[(EmptyString, 0%nat)]; [(EmptyString, 0%nat)]]) s)).
Proof. exact qd_smash. Qed.
Print Assumptions C11_smash_refuted.

(** Two threads using different databases: one gets the value of the other's database. *)
Theorem C11_wrong_database_refuted : exists s, In (1%nat, ("b", 0%nat), Ok 1)
  (clog (sched Nat.eqb (fun nm _ => if String.eqb nm "a" then Ok 1 else Ok 2)
     (cinit Z [[("a", 0%nat)]; [("b", 0%nat)]]) s)).
Proof. exact qd_wrong_db. Qed.
Print Assumptions C11_wrong_database_refuted.

Example C11_nonvacuous : exists s,
  same_db [[(EmptyString, 0%nat)]; [(EmptyString, 1%nat)]] /\
  clog (sched Nat.eqb (fun _ k => Ok (Z.of_nat k)) (cinit Z [[(EmptyString, 0%nat)]; [(EmptyString, 1%nat)]]) s)
  = [(0%nat, (EmptyString, 0%nat), Ok 0); (1%nat, (EmptyString, 1%nat), Ok 1)].
Proof.
  exists [0;1;0;1;0;1]%nat. split; [|reflexivity].
  intros p nm k [<-|[<-|[]]] [H|[]]; injection H as <- _; reflexivity.
Qed.

(** *** C12.  [is_max xs m]: m is the largest element of xs; [tab_pL], [tab_rL], [tab_rJ]: the
    tabulated L values of the species in the two tables and the tabulated J for given L. *)
Theorem C12_fallback : forall PD RD E (formula : Z -> PD -> RD -> E) ps rs k e,
  compute formula (Db (Some ps) (Some rs)) k = Ok e ->
  exists p r Lp Lr Jr, In p ps /\ In r rs /\
    pel p = kspecies k /\ is_max (tab_pL ps (kspecies k)) Lp /\ pL p = Z.min (kl k) Lp /\
    rel r = kspecies k /\ is_max (tab_rL rs (kspecies k)) Lr /\ rL r = Z.min (kl k) Lr /\
    is_max (tab_rJ rs (kspecies k) (rL r)) Jr /\ rJ2 r = Z.min (kj2 k) Jr /\
    e = formula (kn k) (pdat p) (rdat r).
Proof. exact qd_fallback. Qed.
Print Assumptions C12_fallback.

Theorem C12_exact : forall PD RD E (formula : Z -> PD -> RD -> E) ps rs k r,
  In r rs -> rel r = kspecies k -> rL r = kl k -> rJ2 r = kj2 k ->
  (forall r', In r' rs -> rel r' = kspecies k -> rL r' = kl k -> rJ2 r' = kj2 k -> r' = r) ->
  (forall Lp, is_max (tab_pL ps (kspecies k)) Lp ->
     exists p, In p ps /\ pel p = kspecies k /\ pL p = Z.min (kl k) Lp) ->
  tab_pL ps (kspecies k) <> [] ->
  exists p, In p ps /\ pel p = kspecies k /\
    compute formula (Db (Some ps) (Some rs)) k = Ok (formula (kn k) (pdat p) (rdat r)).
Proof. exact qd_exact. Qed.
Print Assumptions C12_exact.

Example C12_nonvacuous :
  let ps := [PRow "Rb" 0 10; PRow "Rb" 1 11] in
  let rs := [RRow "Rb" 0 1 100; RRow "Rb" 1 1 110; RRow "Rb" 1 3 113] in
  compute cfun (Db (Some ps) (Some rs)) (Key "Rb" 1000 4 9) = Ok (1000 + 11 + 113) /\
  compute cfun (Db (Some ps) (Some rs)) (Key "Rb" 1000 1 1) = Ok (1000 + 11 + 110) /\
  compute cfun (Db (Some ps) (Some rs)) (Key "Cs" 1000 1 1) = Throw.
Proof. repeat split. Qed.
