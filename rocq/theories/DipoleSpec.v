(** Specification vocabulary for C101: lines of a dipole file and the transitions they list.  No proofs. *)
From Coq Require Import ZArith Bool String List.
Import ListNotations.
From Verif Require Import Base StateModel MEModel DipoleModel.
Local Open Scope Z_scope.
Set Implicit Arguments.

Section Spec.
  Variable V : Type.
  (** the line lists the transition between a and b, a in front *)
  Definition listed (e : entry V) (a b : state1) : Prop :=
    (en1 e = n a /\ el1 e = l a /\ ej1 e = j2 a) /\ (en2 e = n b /\ el2 e = l b /\ ej2 e = j2 b).
  (** order of the states: by n, then l, then j *)
  Definition sorted (a b : state1) : Prop :=
    n a < n b \/ (n a = n b /\ (l a < l b \/ (l a = l b /\ j2 a <= j2 b))).

  (** how a line is read *)
  Variable rd : list string -> outcome (entry V).
  (** one of the lines is about the transition between a and b, in whichever order *)
  Definition about (lines : list (list string)) (a b : state1) : Prop :=
    exists tk e, In tk lines /\ rd tk = Good e /\ (listed e a b \/ listed e b a).
  (** the call loads a file for the species of a with such a line *)
  Definition mentions (x : call V) (a b : state1) : Prop :=
    exists lines, x = Load V lines (species a) /\ about lines a b.
End Spec.
