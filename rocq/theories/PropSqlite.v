(** Properties C19, C20: the SQLite statement wrapper. *)
From Verif Require Import Base SqliteModel SqliteProofs.
From Coq Require Import Bool List Arith Lia.
Set Implicit Arguments.

(** *** C19.  [expected rows err k]: what k calls of step() must deliver. *)
Theorem C19_steps_deliver_rows : forall row (q0 : query row) h rows err k,
  snd (runs (fst (runs (new q0) h)) (Set_ (Some (rows, err)) :: Prepare :: Reset :: repeat Step k)) =
    OUnit :: OUnit :: OUnit ::
    firstn k (map (@ORow row) rows ++ [if err then OThrow else ODone]) ++
    repeat OThrow (k - S (length rows)).
Proof. exact (fun row q0 h rows err k => steps_after_prepare (fst (runs (new q0) h)) rows err k). Qed.
Print Assumptions C19_steps_deliver_rows.

(** step() on a statement that was not prepared since the last set/exec throws and changes nothing. *)
Theorem C19_unprepared_throws : forall row h (q0 : query row),
  is_prepared false q0 h = false ->
  exec1 (fst (runs (new q0) h)) Step = (fst (runs (new q0) h), OThrow).
Proof. exact unprepared_step_throws. Qed.
Print Assumptions C19_unprepared_throws.

(** reset() restarts a prepared statement (whose last step did not fail). *)
Theorem C19_reset_restarts : forall row (s : stmt row) rows k c,
  prepared s = true -> cur s = Some c -> whole c = (rows, false) -> failed c = false ->
  snd (runs s (Reset :: repeat Step k)) =
    OUnit :: firstn k (map (@ORow row) rows ++ [ODone]) ++ repeat OThrow (k - S (length rows)).
Proof. exact reset_restarts. Qed.
Print Assumptions C19_reset_restarts.

(** Preparing a new query on an exhausted statement is not enough: without reset() the first step
    of the new query throws. *)
Theorem C91_statement_refuted : forall row (r : row), exists h,
  is_prepared false None h = true /\
  snd (exec1 (fst (runs (new None) (h ++ [Set_ (Some ([r], false)); Prepare]))) Step) = OThrow.
Proof.
  exact (fun row r => ex_intro _ [Set_ (Some ([r], false)); Prepare; Step; Step] (conj eq_refl eq_refl)).
Qed.
Print Assumptions C91_statement_refuted.

Example C19_nonvacuous :
  snd (runs (new None) [Set_ (Some ([7; 8], false)); Prepare; Step; Step; Step; Step; Reset; Step])
  = [OUnit; OUnit; ORow 7; ORow 8; ODone; OThrow; OUnit; ORow 7].
Proof. reflexivity. Qed.

(** *** C20.  The exact behaviour of a range-for over a freshly prepared statement. *)
Theorem C20_range_for_outcome : forall row rows (s : stmt row) fuel,
  fresh_at s rows false -> 4 <= fuel ->
  range_for fuel s =
    match rows with
    | [] => ([None], Thrown)
    | [r] => ([Some r; None], Thrown)
    | r1 :: r2 :: _ => ([Some r1; Some r2], Finished)
    end.
Proof. exact range_for_outcome. Qed.
Print Assumptions C20_range_for_outcome.

(** It visits exactly the rows only for result sets of exactly two rows. *)
Theorem C20_refuted : ~ (forall (rows : list nat) (s : stmt nat) fuel, fresh_at s rows false -> 4 <= fuel ->
  range_for fuel s = (map Some rows, Finished)).
Proof. exact range_for_refuted. Qed.
Print Assumptions C20_refuted.

Theorem C20_correct_iff_two_rows : forall row rows (s : stmt row) fuel,
  fresh_at s rows false -> 4 <= fuel ->
  (range_for fuel s = (map Some rows, Finished) <-> length rows = 2).
Proof. exact range_for_iff. Qed.
Print Assumptions C20_correct_iff_two_rows.

Example C20_nonvacuous : fresh_at (fst (runs (new None) [Set_ (Some ([5; 6; 7], false)); Prepare])) [5; 6; 7] false.
Proof. repeat split. eexists. repeat split. Qed.
