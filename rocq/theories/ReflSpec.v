(** Specification of the reflection-symmetrised one-atom basis, independently of the loops of the
    code.  No proofs. *)
From Verif Require Import Base StateModel Matrix RangeModel.
From Coq Require Import ZArith Bool String List.
Import ListNotations.
Set Implicit Arguments.
Local Open Scope Z_scope.

(** [s] is the mirror image of [t]. *)
Definition mirror (s t : state1) : bool :=
  String.eqb (species s) (species t) && (n s =? n t) && (l s =? l t) && (j2 s =? j2 t) && (m2 s =? - m2 t).

Section R.
Context {K : StarRing}.
(** 1/sqrt 2 and the imaginary unit *)
Variables (rt i : K).

(** p i (-1)^(l + m - j), p = 1 (EVEN) or -1 (ODD) *)
Definition phase_of (p : parity) (st : state1) : K :=
  smul (smul (if Z.even (l st + (m2 st - j2 st) / 2) then s1 else sopp s1) i)
       (match p with ODD => sopp s1 | _ => s1 end).

(** A state is represented alone if it is artificial or has m = 0, otherwise as a combination with
    its mirror image. *)
Definition alone (st : state1) : bool := isArtificial st || (m2 st =? 0).

(** Coefficient of the state [s] in the basis vector that belongs to [st]. *)
Definition amp (p : parity) (st s : state1) : K :=
  if alone st then (if eq1 s st then s1 else s0)
  else if eq1 s st then rt
  else if mirror s st then smul rt (phase_of p st)
  else s0.

(** The reflection: |l,j,m> -> i (-1)^(l+m-j) |l,j,-m>, applied to a function that gives the
    coefficient of every state; [s'] is the mirror image of [s]. *)
Definition mirrored (f : state1 -> K) (s s' : state1) : K := smul (phase_of EVEN s') (f s').
End R.
