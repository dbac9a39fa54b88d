(** Model of the access to a database that another process has locked: busy_handler of sqlite::handle (SQLite.hpp:325-334), which SQLite
    calls - with the number of the calls before - each time it finds the file locked, and gives up if the handler returns 0.
    Times in microseconds.  No proofs in this file. *)
From Coq Require Import ZArith Bool.
Open Scope Z_scope.

(** SQLite.hpp:368: m_threshold{100000} *)
Definition m_threshold : Z := 100000.
(** SQLite.hpp:325-334: the handler sleeps and asks for another attempt, or (0) makes SQLite report SQLITE_BUSY *)
Definition busy_handler (threshold num_prior_calls : Z) : bool := num_prior_calls <? threshold.
(** SQLite.hpp:329: randint(2000, 20000), a number of the closed interval (utils.hpp:103-107) *)
Definition sleep_lo : Z := 2000.
Definition sleep_hi : Z := 20000.

Section Lock.
(** is the lock free at this time?  Any behaviour of the other processes. *)
Variable free : Z -> bool.
Variable threshold : Z.
(** how much later than asked for the operating system may wake the thread *)
Variable late : Z.

(** where a call of SQLite stands: about to make an attempt (number of calls of the handler so far, time), or over; SQLITE_BUSY becomes
    sqlite::error in handle_error (SQLite.hpp:84-88) *)
Inductive call_state := Attempt (prior : Z) (t : Z) | Done (t : Z) | Error (t : Z).
(** One step; the time SQLite itself needs is part of [late]. *)
Inductive step : call_state -> call_state -> Prop :=
| s_done : forall n t, free t = true -> step (Attempt n t) (Done t)
| s_sleep : forall n t d, free t = false -> busy_handler threshold n = true -> sleep_lo <= d <= sleep_hi + late ->
    step (Attempt n t) (Attempt (n + 1) (t + d))
| s_error : forall n t, free t = false -> busy_handler threshold n = false -> step (Attempt n t) (Error t).
Inductive steps : nat -> call_state -> call_state -> Prop :=
| ss_none : forall c, steps 0 c c
| ss_more : forall k a b c, steps k a b -> step b c -> steps (S k) a c.
End Lock.
