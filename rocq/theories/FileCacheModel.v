(** Model of the on-disk matrix cache: the loop body of HamiltonianOne::build (HamiltonianOne.cpp:438-655) and
    HamiltonianTwo::calculate (HamiltonianTwo.cpp:692-878), executed by the threads of an OpenMP team, in a process
    that may be killed at any point.  No proofs.

    Atomic actions: one SQL statement (each is in "omp critical(database)"), one access to the shared flag, one test
    whether a file exists, opening (and truncating) a file, writing one byte, reading a whole file.
    A killed process leaves behind what it wrote (the page cache of the operating system survives; power failures
    are not modelled).  boost::uuids::random_generator draws values never drawn before. *)
From Verif Require Import Base.
From Coq Require Import ZArith Lia Bool List Arith.
Import ListNotations.
Set Implicit Arguments.

Section M.
(** [P]: the numbers a step depends on (fields, distance, symmetry); [C]: the Configuration made from them, i.e. strings;
    [fmt] converts (HamiltonianOne.cpp:489-495, HamiltonianTwo.cpp:711-717, ConfParser.hpp:51-57). *)
Variables P C M : Type.
Variable fmt : P -> C.
Variable ceqb : C -> C -> bool.
(** "Build matrix", diagonalize (HamiltonianOne.cpp:595-619, HamiltonianTwo.cpp:821-863) *)
Variable calc : P -> M.
(** Hamiltonianmatrix::save / load (Hamiltonianmatrix.cpp:494-537); None: load returns false *)
Variable enc : M -> list Z.
Variable dec : list Z -> option M.
(** save_to_json / load_from_json (ConfParser.cpp:25-48): the text and its meaning; None: load_from_json throws *)
Variable jtext : C -> list Z.
Variable jread : list Z -> option C.
(** true: flag_perhapsmissingtable is cleared before CREATE TABLE is executed (HamiltonianOne.cpp:514-517);
    false: after it (HamiltonianTwo.cpp:735-738) *)
Variable early : bool.

Definition uuid := nat.
(** What is on the disk: the table cache_one / cache_two (rows uuid, conf; both unique) and the files. *)
Record disk := Disk { table : option (list (uuid * C)); json : uuid -> option (list Z); mat : uuid -> option (list Z) }.

(** Why a thread stopped with an exception (which ends the program: it leaves an OpenMP region) *)
Inductive reason := NoTable | NotUnique | BadJson.

(** Where a thread is in the loop body. *)
Inductive pc :=
| AtFlag                                      (* if (flag_perhapsmissingtable) *)
| AtClear (created : bool)                    (* flag_perhapsmissingtable = false; before or after CREATE *)
| AtCreate (cleared : bool)                   (* stmt.exec("CREATE TABLE IF NOT EXISTS ...") *)
| AtSelect                                    (* SELECT uuid ... *)
| AtUpdate (u : uuid)                         (* UPDATE ... accessed *)
| AtInsert (u : uuid)                         (* INSERT INTO ... *)
| AtMat (u : uuid)                            (* fs::exists(path_mat) *)
| AtJson (u : uuid)                           (* fs::exists(path_json) *)
| AtRead (u : uuid)                           (* load_from_json, compare *)
| AtOpenJson (u : uuid) | AtWriteJson (u : uuid) (k : nat)   (* conf.save_to_json: k bytes written so far *)
| AtLoad (u : uuid)                           (* totalmatrix.load *)
| AtOpenMat (u : uuid) | AtWriteMat (u : uuid) (k : nat)     (* calculated; totalmatrix.save *)
| Done (m : M)                                (* matrix_diag[step] = totalmatrix *)
| Failed (r : reason).

Record thread := Thread { par : P; at_ : pc }.
Record world := World { dsk : disk; flag : bool; team : list thread }.

Definition upd A (f : uuid -> option A) (u : uuid) (x : A) : uuid -> option A := fun v => if Nat.eqb v u then Some x else f v.
Definition find_conf (rows : list (uuid * C)) (c : C) : option uuid :=
  match find (fun r => ceqb (snd r) c) rows with Some r => Some (fst r) | None => None end.
Definition clash (rows : list (uuid * C)) (u : uuid) (c : C) : bool :=
  existsb (fun r => Nat.eqb (fst r) u || ceqb (snd r) c) rows.

(** One atomic action of a thread with parameters [p]; [fresh] is the value the uuid generator would give now. *)
Definition act (p : P) (fresh : uuid) (d : disk) (fl : bool) (c : pc) : disk * bool * pc :=
  let conf := fmt p in
  match c with
  | AtFlag => (d, fl, if fl then (if early then AtClear false else AtCreate false) else AtSelect)
  | AtClear created => (d, false, if created then AtSelect else AtCreate true)
  | AtCreate cleared =>
      (Disk (match table d with None => Some [] | t => t end) (json d) (mat d), fl, if cleared then AtSelect else AtClear true)
  | AtSelect =>
      match table d with
      | None => (d, fl, Failed NoTable)
      | Some rows => match find_conf rows conf with
                     | Some u => (d, fl, AtUpdate u)
                     | None => (d, fl, AtInsert fresh)
                     end
      end
  | AtUpdate u => match table d with None => (d, fl, Failed NoTable) | Some _ => (d, fl, AtMat u) end
  | AtInsert u =>
      match table d with
      | None => (d, fl, Failed NoTable)
      | Some rows => if clash rows u conf then (d, fl, Failed NotUnique)
                     else (Disk (Some (rows ++ [(u, conf)])) (json d) (mat d), fl, AtMat u)
      end
  | AtMat u => (d, fl, match mat d u with Some _ => AtJson u | None => AtOpenJson u end)
  | AtJson u => (d, fl, match json d u with Some _ => AtRead u | None => AtOpenJson u end)
  | AtRead u => match json d u with
                | Some bs => match jread bs with
                             | Some c => (d, fl, if ceqb conf c then AtLoad u else AtOpenJson u)
                             | None => (d, fl, Failed BadJson)
                             end
                | None => (d, fl, Failed BadJson)
                end
  | AtOpenJson u => (Disk (table d) (upd (json d) u []) (mat d), fl, AtWriteJson u 0)
  | AtWriteJson u k =>
      match nth_error (jtext conf) k with
      | Some _ => (Disk (table d) (upd (json d) u (firstn (S k) (jtext conf))) (mat d), fl, AtWriteJson u (S k))
      | None => (d, fl, AtOpenMat u)          (* is_existing is false: calculate *)
      end
  | AtLoad u => match mat d u with
                | Some bs => match dec bs with Some m => (d, fl, Done m) | None => (d, fl, AtOpenMat u) end
                | None => (d, fl, AtOpenMat u)
                end
  | AtOpenMat u => (Disk (table d) (json d) (upd (mat d) u []), fl, AtWriteMat u 0)
  | AtWriteMat u k =>
      match nth_error (enc (calc p)) k with
      | Some _ => (Disk (table d) (json d) (upd (mat d) u (firstn (S k) (enc (calc p)))), fl, AtWriteMat u (S k))
      | None => (d, fl, Done (calc p))
      end
  | Done m => (d, fl, Done m)
  | Failed r => (d, fl, Failed r)
  end.

(** An execution: the scheduler lets thread [i] do its next action, or the process is gone (killed or finished) and a new
    one is started with one thread for every element of [ps] (more interleavings than schedule(static,1) allows). *)
Inductive event := Run (i : nat) (fresh : uuid) | Restart (ps : list P).

Fixpoint set_nth A (l : list A) (i : nat) (x : A) : list A :=
  match l, i with [], _ => [] | _ :: l, O => x :: l | a :: l, S i => a :: set_nth l i x end.

Definition start (ps : list P) : list thread := map (fun p => Thread p AtFlag) ps.
Definition step (w : world) (e : event) : world :=
  match e with
  | Restart ps => World (dsk w) true (start ps)
  | Run i fresh =>
      match nth_error (team w) i with
      | None => w
      | Some t => let '(d, fl, c) := act (par t) fresh (dsk w) (flag w) (at_ t) in
                  World d fl (set_nth (team w) i (Thread (par t) c))
      end
  end.
Definition empty_disk : disk := Disk None (fun _ => None) (fun _ => None).
Definition run (es : list event) : world := fold_left step es (World empty_disk true []).

End M.
Arguments Run {P}. Arguments Restart {P}.
Arguments Done {M}. Arguments Failed {M}. Arguments AtFlag {M}.
Arguments Thread {P M}. Arguments World {P C M}.
