(** Specification for C100: the Le Roy radius, and when a warning is due. *)
From Coq Require Import ZArith Reals List.
Import ListNotations.
From Verif Require Import Base LeRoyModel.
Set Implicit Arguments.
Local Open Scope R_scope.

(** <r^2> of hydrogen in atomic units *)
Definition r2_hydrogen (n : R) (l : Z) : R := n ^ 2 / 2 * (5 * n ^ 2 + 1 - 3 * (IZR l * (IZR l + 1))).

Section Spec.
Variable St : Type.
Variable artificial : St -> bool.
Variable nstar : St -> res (R * R).
Variable ell : St -> Z * Z.
Variable r2 : St -> res (R * R).
Variable au2um : R.

(** [x] is the Le Roy radius 2 (sqrt <r1^2> + sqrt <r2^2>) of the pair state [s]; <r^2> is positive *)
Definition has_radius (s : St) (x : R) : Prop := exists a b, r2 s = Ok (a, b) /\ 0 < a /\ 0 < b /\ x = 2 * (sqrt a + sqrt b).
(** [e] is the radius the hydrogen formula <r^2> = n*^2/2 (5 n*^2 + 1 - 3 l (l+1)) gives *)
Definition hydrogen_radius (s : St) (e : R) : Prop := exists n1 n2, nstar s = Ok (n1, n2) /\
  0 <= r2_hydrogen n1 (fst (ell s)) /\ 0 <= r2_hydrogen n2 (snd (ell s)) /\
  e = 2 * au2um * (sqrt (r2_hydrogen n1 (fst (ell s))) + sqrt (r2_hydrogen n2 (snd (ell s)))).
(** the matrix elements and quantum defects of the real states are known *)
Definition known : Prop := forall s, artificial s = false -> exists x e, has_radius s x /\ hydrogen_radius s e.
(** the hydrogen formula orders the states like their radii *)
Definition same_order : Prop := forall s t x y e f, artificial s = false -> artificial t = false ->
  has_radius s x -> has_radius t y -> hydrogen_radius s e -> hydrogen_radius t f -> e <= f -> x <= y.

Definition quiet (r : res (option dbl)) : Prop := exists w, r = Ok w.
Definition no_unitarize (a : op St) : Prop := match a with Unitarize _ => False | _ => True end.
Definition no_join (a : op St) : Prop := match a with Unitarize _ | Add _ => False | _ => True end.
End Spec.
