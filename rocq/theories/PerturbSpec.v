(** What effective C3 and C6 coefficients are, independently of PerturbativeInteraction.cpp.
    No proofs. *)
From Verif Require Import Base StateModel StateProofs FieldModel TwoSpec MESpec.
From Coq Require Import ZArith Reals Bool String List.
Local Open Scope list_scope.
Local Open Scope Z_scope.
Set Implicit Arguments.

(** A bound state of the Rydberg atom. *)
Definition rydberg (a : state1) : Prop := physical a /\ l a < n a.

(** Electric dipole selection rules: same atom, l changes by one, j and m by at most one. *)
Definition e1_coupled (a b : state1) : Prop :=
  species a = species b /\ Z.abs (l a - l b) = 1 /\ Z.abs (j2 a - j2 b) <= 2 /\ Z.abs (m2 a - m2 b) <= 2.

Section Spec.
  Variables (hs : string -> N) (hi hf : Z -> N).

  (** The intermediate pair states of second-order perturbation theory for the pair state [st]:
      both atoms in a bound state with n within D of the given one, both E1-coupled. *)
  Definition intermediate (st : state2) (D : Z) (v : state2) : Prop :=
    built2 hs hi hf v /\ rydberg (fst1 v) /\ rydberg (snd1 v) /\
    e1_coupled (fst1 v) (fst1 st) /\ e1_coupled (snd1 v) (snd1 st) /\
    Z.abs (n (fst1 v) - n (fst1 st)) <= D /\ Z.abs (n (snd1 v) - n (snd1 st)) <= D.

  (** Those of a pair (row, col) in a model space [states]: coupled to both, n within D of the range
      spanned by the two, not in the model space. *)
  Definition between (x a b D : Z) : Prop := Z.min a b - D <= x <= Z.max a b + D.
  Definition intermediate2 (states : list state2) (row col : state2) (D : Z) (v : state2) : Prop :=
    built2 hs hi hf v /\ rydberg (fst1 v) /\ rydberg (snd1 v) /\
    e1_coupled (fst1 v) (fst1 row) /\ e1_coupled (snd1 v) (snd1 row) /\
    e1_coupled (fst1 v) (fst1 col) /\ e1_coupled (snd1 v) (snd1 col) /\
    between (n (fst1 v)) (n (fst1 row)) (n (fst1 col)) D /\
    between (n (snd1 v)) (n (snd1 row)) (n (snd1 col)) D /\
    ~ In v states.

  Variable E : state1 -> R.                  (* energies *)
  Variable d : state1 -> state1 -> R.        (* <a| d_q |b>, q = m_a - m_b *)
  Variable kC : R.

  Definition E2 (s : state2) : R := (E (fst1 s) + E (snd1 s))%R.
  (** Matrix element of the dipole-dipole interaction at distance 1 between two pair states; the
      interatomic axis is (sin angle, 0, cos angle). *)
  Definition dvec (a b : state1) (i : nat) : cx := rmul (d a b) (cart i ((m2 a - m2 b) / 2)).
  Definition Vdd (angle : R) (a b : state2) : R :=
    fst (dipole_dipole kC (sin angle) 0 (cos angle) (dvec (fst1 a) (fst1 b)) (dvec (snd1 a) (snd1 b))).

  Definition Rsum (A : Type) (f : A -> R) (l : list A) : R := fold_right (fun x a => f x + a)%R 0%R l.

  (** Second-order energy shift (times distance^6). *)
  Definition second_order (angle : R) (st : state2) (vs : list state2) : R :=
    Rsum (fun v => Vdd angle v st ^ 2 / (E2 st - E2 v))%R vs.
  (** Second-order effective Hamiltonian between two states of the model space. *)
  Definition second_order2 (angle : R) (row col : state2) (vs : list state2) : R :=
    Rsum (fun v => Vdd angle row v * Vdd angle v col *
                   (1 / 2 * (1 / (E2 row - E2 v) + 1 / (E2 col - E2 v))))%R vs.
End Spec.

Section Data.
  Variables (energy : state1 -> res R) (dipole : state1 -> state1 -> res R).
  Variables (E : state1 -> R) (d : state1 -> state1 -> R).
  (** The calls getEnergy and getElectricDipole return values for all bound states of the two
      species of [st]. *)
  Definition data_for (st : state2) : Prop :=
    forall a b, rydberg a -> rydberg b -> species a = species b ->
      species a = species (fst1 st) \/ species a = species (snd1 st) ->
      energy a = Ok (E a) /\ dipole a b = Ok (d a b).
  (** Dipole matrix elements of the two orders differ by (-1)^(m_a - m_b) and vanish between states
      of equal l (C13, C14). *)
  Definition hermitian_dipole : Prop :=
    forall a b, rydberg a -> rydberg b -> same_atom a b ->
      d a b = (phase (m2 a - m2 b) * d b a)%R /\ (l a = l b -> d a b = 0%R).
End Data.
(** Element (i, j) of a matrix given by rows. *)
Definition entry (M : list (list R)) (i j : nat) : R := nth j (nth i M []) 0%R.
