(** Specification of the Wigner d-matrix, independent of the model.

    Wigner's formula (e.g. Sakurai, Modern Quantum Mechanics, (3.9.33)): with j = n/2,
    m' = a - j (row) and m = b - j (column),

      d^j_{m' m}(beta) = sum_k (-1)^(k-m+m')
        sqrt((j+m)! (j-m)! (j+m')! (j-m')!) / ((j+m-k)! k! (j-k-m')! (k-m+m')!)
        cos(beta/2)^(2j-2k+m-m') sin(beta/2)^(2k-m+m')

    where the sum is over all k for which no argument of a factorial is negative. *)
From Coq Require Import ZArith Reals Bool Arith List.
Local Open Scope R_scope.

Definition sumR (n : nat) (f : nat -> R) : R := fold_right Rplus 0 (map f (seq 0 n)).

Definition wigner_formula (n a b : nat) (beta : R) : R :=
  sumR (S n) (fun k =>
    if ((k <=? b) && (k <=? n - a) && (b <=? k + a))%nat then
      (-1) ^ (k + a - b) *
      (sqrt (INR (fact b) * INR (fact (n - b)) * INR (fact a) * INR (fact (n - a))) /
       (INR (fact (b - k)) * INR (fact k) * INR (fact (n - a - k)) * INR (fact (k + a - b)))) *
      (cos (beta / 2) ^ (n + b - a - 2 * k) * sin (beta / 2) ^ (2 * k + a - b))
    else 0).

(** Quantum numbers (twice their value): j is a half-integer, m one of -j, -j+1, ..., j. *)
Definition zeeman (j2 m2 : Z) : Prop := (- j2 <= m2 <= j2)%Z /\ Z.even (j2 + m2) = true.

(** d^j_{m' m}(beta) with quantum numbers as arguments. *)
Definition wigner_small_d (j2 mp2 m2 : Z) (beta : R) : R :=
  wigner_formula (Z.to_nat j2) (Z.to_nat ((j2 + mp2) / 2)) (Z.to_nat ((j2 + m2) / 2)) beta.
