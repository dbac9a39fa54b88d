(** Shared vocabulary of the models: outcomes of C++ calls. *)
From Coq Require Import ZArith NArith Lia Bool String Ascii List.
Export List ListNotations.
Set Implicit Arguments.

(** Outcome of a C++ call: normal return, a thrown exception, or undefined
    behaviour (out-of-bounds access, reading an uninitialised variable, ...).
    Undefined behaviour is a separate outcome, so a theorem that promises
    [Ok] or [Throw] excludes it. *)
Inductive res (A : Type) : Type :=
| Ok (a : A)
| Throw
| UB.
Arguments Ok {A} a.
Arguments Throw {A}.
Arguments UB {A}.

Definition bind {A B : Type} (x : res A) (f : A -> res B) : res B :=
  match x with Ok a => f a | Throw => Throw | UB => UB end.

Declare Scope res_scope.
Delimit Scope res_scope with res.
Notation "'do!' x <- a ; b" := (bind a (fun x => b))
  (at level 200, x pattern, a at level 100, b at level 200) : res_scope.
Open Scope res_scope.

(** Unsigned 64-bit wrap-around (std::size_t, uint64_t). *)
Definition w64 (x : N) : N := (x mod 2 ^ 64)%N.
