(** Model of the statement wrapper in SQLite.hpp (80-286).  No proofs in this file.

    The SQLite library is represented by what its documentation promises: preparing a text
    yields a cursor at the start of the result of the query or fails; sqlite3_step delivers
    the rows in order and then SQLITE_DONE or an error, and starts over when called after
    that; sqlite3_reset rewinds, and returns the error of the last failed step, if any;
    stepping a null statement is an error (SQLITE_MISUSE), resetting one is not.
    Assumption: the result of a query does not change while it is being stepped. *)
From Verif Require Import Base.
From Coq Require Import Bool List Arith.
Set Implicit Arguments.

Section Sqlite.
  Variable row : Type.

  (** Result of a query: [None] if the text does not compile, otherwise the rows and whether
      the query ends with an error instead of SQLITE_DONE. *)
  Definition query := option (list row * bool).

  (** sqlite3_stmt: the whole result, the rest still to be delivered ([None] after the end
      or an error), and whether the last step failed. *)
  Record cursor := Cur { whole : list row * bool; rest : option (list row); failed : bool }.

  Inductive sq := SqRow (r : row) | SqDone | SqErr.
  Definition cur_step (c : cursor) : cursor * sq :=
    let todo := match rest c with Some l => l | None => fst (whole c) end in  (* auto-reset *)
    match todo with
    | r :: l => (Cur (whole c) (Some l) false, SqRow r)
    | [] => if snd (whole c) then (Cur (whole c) None true, SqErr) else (Cur (whole c) None false, SqDone)
    end.
  Definition cur_reset (c : cursor) : cursor * bool := (Cur (whole c) (Some (fst (whole c))) false, failed c).

  (** SQLite.hpp 81-85 *)
  Record stmt := Stm { sql : query; cur : option cursor; prepared : bool; valid : bool }.

  Inductive out := OUnit | ORow (r : row) | ODone | OThrow.

  (** SQLite.hpp 100-113 constructors; [q0] is the initial query text. *)
  Definition new (q0 : query) : stmt := Stm q0 None false true.

  (** SQLite.hpp 120-123 *)
  Definition do_set (s : stmt) (q : query) : stmt * out := (Stm q (cur s) false (valid s), OUnit).
  (** SQLite.hpp 134-142: on failure the old statement is dropped and m_prepared is not touched. *)
  Definition do_prepare (s : stmt) : stmt * out :=
    match sql s with
    | None => (Stm (sql s) None (prepared s) (valid s), OThrow)
    | Some w => (Stm (sql s) (Some (Cur w (Some (fst w)) false)) true (valid s), OUnit)
    end.
  (** SQLite.hpp 152-174 *)
  Definition do_step (s : stmt) : stmt * out :=
    if negb (prepared s) then (s, OThrow)
    else if negb (valid s) then (s, OThrow)
    else match cur s with
         | None => (Stm (sql s) None (prepared s) false, OThrow)
         | Some c =>
             let (c', o) := cur_step c in
             match o with
             | SqDone => (Stm (sql s) (Some c') (prepared s) false, ODone)
             | SqRow r => (Stm (sql s) (Some c') (prepared s) true, ORow r)
             | SqErr => (Stm (sql s) (Some c') (prepared s) false, OThrow)
             end
         end.
  (** SQLite.hpp 182-185 *)
  Definition do_reset (s : stmt) : stmt * out :=
    match cur s with
    | None => (Stm (sql s) None (prepared s) true, OUnit)
    | Some c => let (c', err) := cur_reset c in
                if err then (Stm (sql s) (Some c') (prepared s) (valid s), OThrow)
                else (Stm (sql s) (Some c') (prepared s) true, OUnit)
    end.
  (** SQLite.hpp 191-195; [ok]: whether sqlite3_exec succeeds. *)
  Definition do_exec (s : stmt) (q : query) (ok : bool) : stmt * out :=
    (Stm q (cur s) false (valid s), if ok then OUnit else OThrow).

  Inductive call := Set_ (q : query) | Prepare | Step | Reset | Exec (q : query) (ok : bool).
  Definition exec1 (s : stmt) (c : call) : stmt * out :=
    match c with
    | Set_ q => do_set s q
    | Prepare => do_prepare s
    | Step => do_step s
    | Reset => do_reset s
    | Exec q ok => do_exec s q ok
    end.
  Fixpoint runs (s : stmt) (h : list call) : stmt * list out :=
    match h with
    | [] => (s, [])
    | c :: h' => let (s', o) := exec1 s c in let (s'', os) := runs s' h' in (s'', o :: os)
    end.

  (** ** Range-based for: SQLite.hpp 244-286.  The loop body records the row the statement
      currently points to ([None]: there is no current row, the column getters then return
      null, which for text columns is undefined behaviour). *)
  Record iter := It { idone : bool; iend : bool }.

  Inductive loop_end := Finished | Thrown | OutOfFuel.

  (** [current]: the row delivered by the last step, if any. *)
  Fixpoint loop (fuel : nat) (s : stmt) (it : iter) (current : option row) : list (option row) * loop_end :=
    match fuel with
    | O => ([], OutOfFuel)
    | S f =>
        if iend it then ([], Finished)                              (* operator!= (line 261) *)
        else
          let (vs, e) :=
            if idone it then loop f s (It true true) current        (* operator++ (252-259) *)
            else match do_step s with
                 | (s', ORow r) => loop f s' (It true false) (Some r)
                 | (s', ODone) => loop f s' (It false false) None
                 | (s', _) => ([], Thrown)
                 end in
          (current :: vs, e)
    end.

  (** begin() (line 279) steps once and ignores the result. *)
  Definition range_for (fuel : nat) (s : stmt) : list (option row) * loop_end :=
    match do_step s with
    | (s', ORow r) => loop fuel s' (It false false) (Some r)
    | (s', ODone) => loop fuel s' (It false false) None
    | (s', _) => ([], Thrown)
    end.
End Sqlite.
Arguments OUnit {row}.
Arguments ODone {row}.
Arguments OThrow {row}.
Arguments Prepare {row}.
Arguments Step {row}.
Arguments Reset {row}.
