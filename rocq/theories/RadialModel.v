(** Model of the radial equation: model_potential::V and model_potential::g (Wavefunction.cpp:35-60), power_kernel
    (Wavefunction.hpp:129, 217).  Real arithmetic without rounding, radii
    are positive (the grids start at 1, WaveModel).  No proofs in this file. *)
From Coq Require Import Reals ZArith Bool Ascii String List.
Import ListNotations.
Local Open Scope R_scope.

(** The members of QuantumDefect that V and g read (QuantumDefect.hpp:110-149): charge of the nucleus, parameters of the model potential,
    quantum numbers, energy in GHz. *)
Record qdata := QData { q_Z : R; q_a1 : R; q_a2 : R; q_a3 : R; q_a4 : R; q_ac : R; q_rc : R;
  q_n : Z; q_l : nat; q_j : R; q_energy : R; q_species : string }.

(** au2GHz (Constants.hpp:23) *)
Definition au2GHz : R := 6579683920757349 / 10 ^ 9.

(** std::isdigit(species.back()), species.back() - '0' (Wavefunction.cpp:45-47) *)
Fixpoint last_char (s : string) : option ascii :=
  match s with EmptyString => None | String c EmptyString => Some c | String _ r => last_char r end.
Definition spin (s : string) : R :=
  match last_char s with
  | Some c => let k := nat_of_ascii c in if (48 <=? k)%nat && (k <=? 57)%nat then (INR (k - 48) - 1) / 2 else 1 / 2
  | None => 1 / 2
  end.
(** Wavefunction.cpp:48 *)
Definition alpha : R := 72973525664 / 10 ^ 13.

(** Wavefunction.cpp:39-54, part by part *)
Definition charge (q : qdata) (x : R) : R :=
  1 + (q_Z q - 1) * exp (- q_a1 q * x) - x * (q_a3 q + q_a4 q * x) * exp (- q_a2 q * x).
Definition V_core (q : qdata) (x : R) : R := - charge q x / x.
Definition V_polarization (q : qdata) (x : R) : R := - q_ac q / (2 * x * x * x * x) * (1 - exp (- (x / q_rc q) ^ 6)).
Definition V_spin_orbit (q : qdata) (x : R) : R :=
  if (q_l q <? 4)%nat then
    alpha * alpha / (4 * x * x * x) * (q_j q * (q_j q + 1) - INR (q_l q) * (INR (q_l q) + 1) - spin (q_species q) * (spin (q_species q) + 1))
  else 0.
Definition V (q : qdata) (x : R) : R := V_core q x + V_polarization q x + V_spin_orbit q x.
(** Wavefunction.cpp:57-59 *)
Definition g (q : qdata) (x : R) : R := (2 * INR (q_l q) + / 2) * (2 * INR (q_l q) + 3 / 2) / x + 8 * x * (V q x - q_energy q / au2GHz).

(** Wavefunction.hpp:129, 217 *)
Definition numerov_kernel (power : nat) : nat := 2 * power + 2.
Definition whittaker_kernel (power : nat) : nat := 2 * power + 1.
