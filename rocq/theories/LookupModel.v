(** Model of the state lookups of SystemBase (getOverlap's choice of rows and
    getStateIndex).  No proofs in this file.

    The container [states] is a boost multi_index with a unique hashed index on
    the state; it is modelled as the list of its (idx, state) entries in
    insertion order, and find() as the first entry with an equal state. *)
From Verif Require Import Base StateModel.
From Coq Require Import ZArith Bool String Ascii List.
Set Implicit Arguments.

Section Lookup.
  Variable S : Type.
  Variables (seqb smatch : S -> S -> bool) (sgen : S -> bool).

  (** [states.get<1>().find(s)] *)
  Definition tfind (tbl : list (nat * S)) (s : S) : option nat :=
    match find (fun e => seqb (snd e) s) tbl with
    | Some e => Some (fst e)
    | None => None
    end.

  (** SystemBase.cpp 240-255: rows selected for one searched state. *)
  Definition overlap_rows1 (tbl : list (nat * S)) (g : S) : list nat :=
    if sgen g then map fst (filter (fun e => smatch (snd e) g) tbl)
    else match tfind tbl g with Some i => [i] | None => [] end.

  (** SystemBase.cpp 236-255: the rows are collected over all searched states. *)
  Definition overlap_rows (tbl : list (nat * S)) (gs : list S) : list nat :=
    flat_map (overlap_rows1 tbl) gs.

  (** SystemBase.cpp 1089-1102 (buildBasis has already run). *)
  Definition stateIndex (tbl : list (nat * S)) (g : S) : res nat :=
    if sgen g then Throw
    else match tfind tbl g with None => Throw | Some i => Ok i end.

  (** SystemBase.cpp 1104-1125 *)
  Fixpoint stateIndices (tbl : list (nat * S)) (gs : list S) : res (list nat) :=
    match gs with
    | [] => Ok []
    | g :: gs' =>
        do! i <- stateIndex tbl g ;
        do! is <- stateIndices tbl gs' ;
        Ok (i :: is)
    end.
End Lookup.

(** The two instantiations; utils::is_true of a bool is the bool itself,
    of an array the conjunction (utils.hpp 52-56). *)
Definition gen1 (g : state1) : bool := isGeneralized g.
Definition gen2 (g : state2) : bool := is_true_all (isGeneralized2 g).
Definition rows_one := overlap_rows eq1 match1 gen1.
Definition rows_two := overlap_rows eq2 match2 gen2.
Definition index_one := stateIndex eq1 gen1.
Definition index_two := stateIndex eq2 gen2.
