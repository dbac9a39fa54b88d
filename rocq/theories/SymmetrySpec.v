(** Symmetries of the interaction of two atoms, independently of the program. *)
From Coq Require Import ZArith Lia Bool List Reals.
Import ListNotations.
From Verif Require Import Base Matrix FieldModel BasisnamesModel CombineModel CombineSpec InteractSpec.
Set Implicit Arguments.
Local Open Scope R_scope.

(** <u| V |w> *)
Definition element (N : nat) (V : mat CR) (u w : nat -> CR) : CR :=
  bsum N (fun r => bsum N (fun c => smul (sconj (u r)) (smul (at_ V r c) (w c)))).
(** Wigner-Eckart for half-integer j: the element of rank k between the states with opposite magnetic quantum numbers is
    - (-1)^(j + j' + k) times the element *)
Definition mirrored (b : names_one) (el : one -> one -> nat -> R) : Prop :=
  forall s t s' t' k, In s (names1 b) -> In t (names1 b) -> In s' (names1 b) -> In t' (names1 b) ->
  opposite s s' = true -> opposite t t' = true ->
  el s' t' k = (if Z.even ((jj s + jj t) / 2 + Z.of_nat k) then -1 else 1) * el s t k.
(** all components of the vector belong to states of the list *)
Definition within (nec : list bool) (u : nat -> CR) : Prop := forall r, (r < length nec)%nat -> u r <> @s0 CR -> nth r nec false = true.
