(** Properties C08, C09: the thread-safe cache. *)
From Verif Require Import Base CacheModel CacheProofs.
From Coq Require Import Bool List Arith.
Set Implicit Arguments.

(** *** C08.  [log c] lists the completed calls in the order of their accesses; it contains the
    calls of every thread in program order, and ([log_ok], CacheProofs.v) each logged call
    returned what an insert-once map would return: restore(k) yields v iff a successful
    save(k,v) precedes it with no clear in between, save succeeds iff no value is held and
    otherwise throws without effect. *)
Theorem C08_linearizable : forall K V (keqb : K -> K -> bool),
  (forall a b, keqb a b = true <-> a = b) ->
  forall (progs : list (list (op K V))) c, reach keqb (init progs) c ->
    log_ok (log c) /\
    (forall i t, nth_error (threads c) i = Some t ->
       exists rest, nth_error progs i = Some (log_of i (log c) ++ rest)).
Proof. exact cache_linearizable. Qed.
Print Assumptions C08_linearizable.

(** No deadlock: while a call is pending and no data race has happened, some thread can move. *)
Theorem C08_progress : forall K V (keqb : K -> K -> bool),
  (forall a b, keqb a b = true <-> a = b) ->
  forall (progs : list (list (op K V))) c, reach keqb (init progs) c -> ~ race c ->
    finished c \/ exists c', step keqb c c'.
Proof. exact progress. Qed.
Print Assumptions C08_progress.

Example C08_nonvacuous : exists c,
  reach Nat.eqb (init [[Save 1 2; Restore 1]]) c /\ log c = [(0, Save 1 2, RUnit); (0, Restore 1, RVal (Some 2))].
Proof. exact cache_example. Qed.

(** *** C09: threads using only save and restore never race ... *)
Theorem C09_no_race_partial : forall K V (keqb : K -> K -> bool),
  (forall a b, keqb a b = true <-> a = b) ->
  forall (progs : list (list (op K V))) c, no_clear progs -> reach keqb (init progs) c -> ~ race c.
Proof. exact no_race. Qed.
Print Assumptions C09_no_race_partial.

(** ... but clear() does not take the lock. *)
Theorem C09_clear_races_refuted : exists (progs : list (list (op nat nat))) c,
  reach Nat.eqb (init progs) c /\ race c.
Proof. exact clear_races. Qed.
Print Assumptions C09_clear_races_refuted.

Example C09_nonvacuous : no_clear [[Save 1 2; Restore 1]; [@Restore nat nat 1]].
Proof. intros p [<-|[<-|[]]] H; cbn in H; repeat (destruct H as [H|H]; try discriminate); exact H. Qed.
