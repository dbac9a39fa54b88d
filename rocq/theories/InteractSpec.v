(** Multipole interaction of two atoms on the z axis, independently of the program. *)
From Coq Require Import ZArith Lia Bool List Reals.
Import ListNotations.
From Verif Require Import Base Matrix FieldModel BasisnamesModel.
Set Implicit Arguments.
Local Open Scope R_scope.

Definition fct (z : Z) : R := INR (fact (Z.to_nat z)).
(** Coefficient of T_(k1,q) of atom 1 and T_(k2,-q) of atom 2 in the multipole expansion of 1/|R + r2 - r1| R^(k1+k2+1):
    (-1)^k2 (k1+k2)! / sqrt((k1+q)! (k1-q)! (k2+q)! (k2-q)!) *)
Definition expansion (k1 k2 : nat) (q : Z) : R :=
  let a := Z.of_nat k1 in let b := Z.of_nat k2 in
  (-1) ^ k2 * INR (fact (k1 + k2)) / sqrt (fct (a + q) * fct (a - q) * fct (b + q) * fct (b - q)).
(** Coefficient of 1/R^p in the interaction between the pair states (s, t) and (s', t'): sum over k1 + k2 = p - 1, both at least 1, where
    |q| is at most k1 and k2.  Zero unless the total magnetic quantum number is conserved. *)
Definition multipole (kC : R) (el1 el2 : one -> one -> nat -> R) (p : nat) (s t s' t' : one) : R :=
  if (mm s + mm t =? mm s' + mm t')%Z then
    let q := ((mm s - mm s') / 2)%Z in
    fold_right Rplus 0 (map (fun k1 => let k2 := (p - 1 - k1)%nat in
      if (Z.abs q <=? Z.of_nat (Nat.min k1 k2))%Z then kC * expansion k1 k2 q * el1 s s' k1 * el2 t t' k2 else 0) (seq 1 (p - 2)))
  else 0.
(** Wigner-Eckart: matrix elements of rank k vanish unless |l - l'| <= k, k + l + l' is even, j, k, j' satisfy the triangle condition
    and |m - m'| <= k; and for k = 2, j = j' = 3/2, m = - m' = +-1/2 *)
Definition allowed (s s' : one) (k : nat) : Prop :=
  (Z.abs (l_ s - l_ s') <= Z.of_nat k /\ Z.Even (Z.of_nat k + l_ s + l_ s') /\ Z.abs (jj s - jj s') <= 2 * Z.of_nat k <= jj s + jj s' /\
   Z.abs (mm s - mm s') <= 2 * Z.of_nat k /\ ~ (k = 2%nat /\ jj s = 3 /\ jj s' = 3 /\ mm s = - mm s' /\ Z.abs (mm s) = 1))%Z.
(** the matrix elements between states with the property P: real, Hermitian, selection rules *)
Definition elements_on (P : one -> Prop) (el : one -> one -> nat -> R) : Prop :=
  (forall s s' k, P s -> P s' -> ~ allowed s s' k -> el s s' k = 0) /\
  (forall s s' k, P s -> P s' -> Z.Even (mm s - mm s') -> el s' s k = (if Z.even ((mm s - mm s') / 2) then 1 else -1) * el s s' k).
(** the matrix elements between the states of one atom *)
Definition elements_ok (b : names_one) : (one -> one -> nat -> R) -> Prop := elements_on (fun s => In s (names1 b)).
(** magnetic quantum numbers of the states of one atom differ by integers *)
Definition integer_steps (b : names_one) : Prop := forall s s', In s (names1 b) -> In s' (names1 b) -> Z.Even (mm s - mm s').
(** the interaction between pair states number r and c *)
Definition between_states (f : one -> one -> one -> one -> R) (b1 b2 : names_one) (r c : nat) : R :=
  let n := length (names1 b2) in
  match nth_error (names1 b1) (r / n), nth_error (names1 b2) (r mod n), nth_error (names1 b1) (c / n), nth_error (names1 b2) (c mod n) with
  | Some s, Some t, Some s', Some t' => f s t s' t'
  | _, _, _, _ => 0
  end.
