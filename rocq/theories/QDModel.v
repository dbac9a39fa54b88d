(** Model of QuantumDefect.cpp (setup, constructors) with the process-wide memo.
    No proofs in this file.

    Simplifications: the numerical columns of a row are abstract data and the
    floating point formula for nstar and energy (lines 160-186) is an oracle
    [formula]; int and double quantum numbers are exact (j doubled, in Z). *)
From Verif Require Import Base.
From Coq Require Import ZArith Lia Bool String Ascii List.
Local Open Scope Z_scope.
Set Implicit Arguments.

Section QD.
  Variables (PD RD E : Type).                  (* model potential data, Rydberg-Ritz data, Element *)
  Variable formula : Z -> PD -> RD -> E.       (* QuantumDefect.cpp 143-186 *)

  (** databases/quantum_defects.sql 19, 64: the two tables. *)
  Record prow := PRow { pel : string; pL : Z; pdat : PD }.
  Record rrow := RRow { rel : string; rL : Z; rJ2 : Z; rdat : RD }.

  (** Contents of a database; [None] if the table does not exist. *)
  Record db := Db { pots : option (list prow); ryds : option (list rrow) }.

  (** [select MAX(...)] over the selected rows always delivers one row, holding NULL if
      nothing is selected; sqlite3_column_int / _double turn NULL into 0. *)
  Definition maxz (xs : list Z) : Z :=
    match xs with [] => 0 | x :: xs' => fold_left Z.max xs' x end.

  (** QuantumDefect.cpp 33, QuantumDefect.hpp Key *)
  Record key := Key { kspecies : string; kn : Z; kl : Z; kj2 : Z }.
  Definition key_eqb (a b : key) : bool :=
    String.eqb (kspecies a) (kspecies b) && (kn a =? kn b) && (kl a =? kl b) && (kj2 a =? kj2 b).

  (** QuantumDefect.cpp 103-113 *)
  Definition pot_l (ps : list prow) (k : key) : Z :=
    Z.min (kl k) (maxz (map pL (filter (fun r => String.eqb (pel r) (kspecies k)) ps))).
  (** QuantumDefect.cpp 116-127 *)
  Definition ryd_l (rs : list rrow) (k : key) : Z :=
    Z.min (kl k) (maxz (map rL (filter (fun r => String.eqb (rel r) (kspecies k)) rs))).
  (** QuantumDefect.cpp 130-143 *)
  Definition ryd_j2 (rs : list rrow) (k : key) : Z :=
    Z.min (kj2 k) (maxz (map rJ2 (filter (fun r => String.eqb (rel r) (kspecies k) && (rL r =? ryd_l rs k)) rs))).

  Definition find_pot (ps : list prow) (sp : string) (L : Z) : option prow :=
    find (fun r => String.eqb (pel r) sp && (pL r =? L)) ps.
  Definition find_ryd (rs : list rrow) (sp : string) (L J2 : Z) : option rrow :=
    find (fun r => String.eqb (rel r) sp && (rL r =? L) && (rJ2 r =? J2)) rs.

  (** QuantumDefect.cpp 96-186: the part of setup() after a cache miss.
      Preparing a query on a missing table throws. *)
  Definition compute (d : db) (k : key) : res E :=
    match pots d with
    | None => Throw
    | Some ps =>
        match ryds d with
        | None => Throw
        | Some rs =>
            match find_pot ps (kspecies k) (pot_l ps k) with
            | None => Throw
            | Some p =>
                match find_ryd rs (kspecies k) (ryd_l rs k) (ryd_j2 rs k) with
                | None => Throw
                | Some r => Ok (formula (kn k) (pdat p) (rdat r))
                end
            end
        end
    end.

  (** Process state seen by one thread: the static cache and used_db_name
      (QuantumDefect.cpp 87-88), and the thread-local ":memory:" database (line 75). *)
  Record state := St { memo : list (key * E); used : string; memdb : db }.
  Definition init : state := St [] EmptyString (Db None None).

  Fixpoint mlookup (m : list (key * E)) (k : key) : option E :=
    match m with
    | [] => None
    | (k', e) :: m' => if key_eqb k' k then Some e else mlookup m' k
    end.

  (** QuantumDefect.cpp 86-189 setup() *)
  Definition setup (s : state) (d : db) (name : string) (k : key) : state * res E :=
    let s1 := if String.eqb (used s) name then s else St [] name (memdb s) in
    match mlookup (memo s1) k with
    | Some e => (s1, Ok e)
    | None =>
        match compute d k with
        | Ok e =>
            match mlookup (memo s1) k with     (* Cache::save throws on an existing key *)
            | Some _ => (s1, Throw)
            | None => (St ((k, e) :: memo s1) (used s1) (memdb s1), Ok e)
            end
        | Throw => (s1, Throw)
        | UB => (s1, UB)
        end
    end.

  Variable embedded : db.                      (* EmbeddedDatabase.hpp.in: content compiled in *)

  (** What is on disk: for each path the effect of executing the file's text as an SQL
      script on a database: new contents and whether an error is reported.  A file that
      cannot be opened reads as the empty script, which leaves the database alone
      (QuantumDefect.cpp 77-80 does not check the stream). *)
  Definition script := db -> db * bool.
  Definition files := string -> script.
  Definition missing_file : script := fun d => (d, true).

  (** QuantumDefect.cpp 63-84: the constructor with a database path. *)
  Definition construct (fs : files) (s : state) (name : string) (k : key) : state * res E :=
    if String.eqb name EmptyString then setup s embedded name k
    else let (d, ok) := fs name (memdb s) in
         let s' := St (memo s) (used s) d in
         if ok then setup s' d name k else (s', Throw).

  Inductive event := Construct (name : string) (k : key) | Rewrite (name : string) (sc : script).

  Fixpoint run (fs : files) (s : state) (h : list event) : files * state * list (res E) :=
    match h with
    | [] => (fs, s, [])
    | Construct nm k :: h' =>
        let (s', r) := construct fs s nm k in
        let '(fs2, s2, rs) := run fs s' h' in (fs2, s2, r :: rs)
    | Rewrite nm sc :: h' =>
        run (fun x => if String.eqb x nm then sc else fs x) s h'
    end.

  (** What the same construction yields in a process that has done nothing before. *)
  Definition fresh (fs : files) (name : string) (k : key) : res E := snd (construct fs init name k).
End QD.
Arguments missing_file {PD RD}.

(** ** Concurrent use.  Every thread runs a list of constructions; the thread-local database
    (line 68 / 75) makes the computed value a function [val] of database name and key.  The
    static members are shared; their accesses are the steps.  Cache::save and ::restore are
    atomic (C08). *)
Section Conc.
  Variables (K E : Type) (keqb : K -> K -> bool).
  Variable val : string -> K -> res E.

  Inductive pc :=
  | Compare                  (* line 90: used_db_name != db_name *)
  | Assign                   (* line 91 *)
  | ClearIt                  (* line 92 *)
  | Look                     (* lines 95-99 *)
  | SaveIt (e : E).          (* lines 101-188: value computed, before save *)

  Record thread := Th { todo : list (string * K); at_pc : pc }.
  Record config := Cf {
    ths : list thread;
    cmem : list (K * E);
    cused : string;
    clog : list (nat * (string * K) * res E) }.

  Fixpoint clook (m : list (K * E)) (k : K) : option E :=
    match m with
    | [] => None
    | (k', e) :: m' => if keqb k' k then Some e else clook m' k
    end.

  Fixpoint tupd {A} (l : list A) (i : nat) (x : A) : list A :=
    match l, i with
    | [], _ => []
    | _ :: l', O => x :: l'
    | y :: l', S i' => y :: tupd l' i' x
    end.

  (** One step of thread i; [None] if it has nothing to do. *)
  Definition tstep (c : config) (i : nat) : option config :=
    match nth_error (ths c) i with
    | None => None
    | Some t =>
      match todo t with
      | [] => None
      | (nm, k) :: os =>
        match at_pc t with
        | Compare =>
            Some (Cf (tupd (ths c) i (Th (todo t) (if String.eqb (cused c) nm then Look else Assign)))
                     (cmem c) (cused c) (clog c))
        | Assign => Some (Cf (tupd (ths c) i (Th (todo t) ClearIt)) (cmem c) nm (clog c))
        | ClearIt => Some (Cf (tupd (ths c) i (Th (todo t) Look)) [] (cused c) (clog c))
        | Look =>
            match clook (cmem c) k with
            | Some e => Some (Cf (tupd (ths c) i (Th os Compare)) (cmem c) (cused c)
                                 (clog c ++ [(i, (nm, k), Ok e)]))
            | None =>
                match val nm k with
                | Ok e => Some (Cf (tupd (ths c) i (Th (todo t) (SaveIt e))) (cmem c) (cused c) (clog c))
                | Throw => Some (Cf (tupd (ths c) i (Th os Compare)) (cmem c) (cused c)
                                    (clog c ++ [(i, (nm, k), Throw)]))
                | UB => Some (Cf (tupd (ths c) i (Th os Compare)) (cmem c) (cused c)
                                    (clog c ++ [(i, (nm, k), UB)]))
                end
            end
        | SaveIt e =>
            match clook (cmem c) k with
            | Some _ => Some (Cf (tupd (ths c) i (Th os Compare)) (cmem c) (cused c)
                                 (clog c ++ [(i, (nm, k), Throw)]))
            | None => Some (Cf (tupd (ths c) i (Th os Compare)) ((k, e) :: cmem c) (cused c)
                               (clog c ++ [(i, (nm, k), Ok e)]))
            end
        end
      end
    end.

  Definition cinit (progs : list (list (string * K))) : config :=
    Cf (map (fun p => Th p Compare) progs) [] EmptyString [].

  (** A schedule is the sequence of thread numbers that get to move. *)
  Fixpoint sched (c : config) (s : list nat) : config :=
    match s with
    | [] => c
    | i :: s' => sched (match tstep c i with Some c' => c' | None => c end) s'
    end.
End Conc.
Arguments Compare {E}.
Arguments Assign {E}.
Arguments ClearIt {E}.
Arguments Look {E}.
