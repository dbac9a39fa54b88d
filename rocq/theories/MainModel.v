(** Model of the command line program: main.cpp and Interface.cpp.  No proofs in this file.

    Reading the configuration file and the calculations themselves (constructors of HamiltonianOne and HamiltonianTwo, modelled elsewhere) are
    oracles that may throw.  Of the output, the lines ">>TYP", ">>END" and "something else" are kept. *)
From Coq Require Import Bool Arith List String.
Import ListNotations.
From Verif Require Import Base ConfModel.
Local Open Scope string_scope.
Set Implicit Arguments.

(** What a run prints on stdout and stderr, and what it computes *)
Inductive event := Typ (k : nat) | End_ | Usage | Message.
(** How the process ends: exit status, or terminated because of an exception nobody catches *)
Inductive ending := Exit (status : nat) | Aborted.

Inductive options := Quit (out : list event) (status : nat) | Given (config output type : string).

(** main.cpp:42-79: [arg]s are argv[1], argv[2], ...; then lines 81-94: options that are missing or empty *)
Fixpoint parse (config output type : string) (args : list string) : options :=
  match args with
  | [] => if config =? "" then Quit [Message] 1
          else if output =? "" then Quit [Message] 1
          else if type =? "" then Quit [Message] 1
          else Given config output type
  | opt :: rest =>
      if (opt =? "-?") || (opt =? "--help") then Quit [Usage] 0
      else if (opt =? "-c") || (opt =? "--config") then
        match rest with [] => Quit [Message] 1 | v :: rest' => parse v output type rest' end
      else if (opt =? "-o") || (opt =? "--output") then
        match rest with [] => Quit [Message] 1 | v :: rest' => parse config v type rest' end
      else if (opt =? "-t") || (opt =? "--type") then
        match rest with [] => Quit [Message] 1 | v :: rest' => parse config output v rest' end
      else Quit [Message; Usage] 1
  end%string.

(** Calculations: 0 and 1 for the first and the second atom, 3 for both atoms with one basis, 2 for the pair *)
Inductive calculation := First | Second | Both | Pair.
Definition number (x : calculation) : nat := match x with First => 0 | Second => 1 | Pair => 2 | Both => 3 end.

Section Main.
(** the constructor of HamiltonianOne / HamiltonianTwo: configuration, output path, real or complex; false: throws *)
Variable calculate : calculation -> conf -> string -> bool -> bool.
(** the configuration file: nothing if it cannot be read or is not JSON (exception) *)
Variable file : string -> option conf.

(** Interface.cpp:54-58: config.count("species1") etc. *)
Definition has (c : conf) (k : string) : bool := negb (count c k =? 0)%nat.
Definition existAtom1 (c : conf) : bool := has c "species1" && has c "n1" && has c "l1" && has c "j1" && has c "m1".
Definition existAtom2 (c : conf) : bool := has c "species2" && has c "n2" && has c "l2" && has c "j2" && has c "m2".
(** config[key].str() of a configuration that is not const: the key is inserted if it is not there *)
Definition text (c : conf) (k : string) : string := match get c k with Some v => v | None => "" end.

(** Printing ">>TYP" and calculating, one after the other; ">>END" at the end (100-103) *)
Fixpoint perform (c : conf) (out : string) (cx : bool) (l : list calculation) : list event * ending :=
  match l with
  | [] => ([End_], Exit 0)
  | x :: l' => if calculate x c out cx then let '(ev, e) := perform c out cx l' in (Typ (number x) :: ev, e)
               else ([Typ (number x)], Aborted)
  end.

(** Interface.cpp:42-104 *)
Definition compute (cx : bool) (config out : string) : list event * ending :=
  match file config with
  | None => ([], Aborted)
  | Some c0 =>
      let one := existAtom1 c0 in let two := existAtom2 c0 in
      let c1 := access c0 "samebasis" in
      if text c0 "samebasis" =? "true" then
        let c2 := access (access c1 "species1") "species2" in
        if negb (text c1 "species1" =? text c1 "species2") then ([Message], Exit 1)
        else perform c2 out cx ((if one && two then [Both] else []) ++ (if one && two && has c2 "minR" then [Pair] else []))
      else perform c1 out cx ((if one then [First] else []) ++ (if two then [Second] else []) ++ (if one && two && has c1 "minR" then [Pair] else []))
  end%string.

(** main.cpp:36-106 *)
Definition main (args : list string) : list event * ending :=
  match args with
  | [] => ([Usage], Exit 0)
  | _ => match parse "" "" "" args with
         | Quit ev s => (ev, Exit s)
         | Given config output type =>
             if (type =? "complex")%string then compute true config output
             else if (type =? "real")%string then compute false config output
             else ([Message], Exit 1)
         end
  end.
End Main.
