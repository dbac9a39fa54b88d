(** Vocabulary for the pair basis of the command line program.  It refers to the inputs and outputs of [combine] only. *)
From Coq Require Import ZArith Lia Bool List.
Import ListNotations.
From Verif Require Import Base Matrix BasisnamesModel CombineModel.
Set Implicit Arguments.

Section Spec.
Variable K : StarRing.

(** vectors over the coordinates 0 .. N-1 *)
Definition inner (N : nat) (u v : nat -> K) : K := bsum N (fun r => smul (sconj (u r)) (v r)).
(** product vector: pair coordinate n2*i + k belongs to coordinate i of atom 1 and coordinate k of atom 2 *)
Definition kron (n2 : nat) (u v : nat -> K) : nat -> K := fun r => smul (u (r / n2)%nat) (v (r mod n2)%nat).
(** exchange of the atoms *)
Definition swapc (n r : nat) : nat := (n * (r mod n) + r / n)%nat.
Definition exchange (n : nat) (w : nat -> K) : nat -> K := fun r => w (swapc n r).

(** the k-th basis vector of a Hamiltonian and its energy *)
Definition bvec (h : hmat K) (k : nat) : nat -> K := coef (nth k (bcols h) []).
Definition energy (h : hmat K) (k : nat) : K := nth k (ediag h) s0.
Definition dim (h : hmat K) : nat := length (bcols h).

(** a one-atom Hamiltonian over the states [b]: as many energies as basis vectors, every entry belongs to a state, every basis
    vector has an entry *)
Definition over (h : hmat K) (b : names_one) : Prop :=
  coords h = length (names1 b) /\ length (ediag h) = length (bcols h) /\
  (forall c, In c (bcols h) -> c <> [] /\ forall e, In e c -> fst e < coords h)%nat.
(** orthonormal basis vectors *)
Definition orthonormal (h : hmat K) : Prop :=
  forall a b, (a < dim h)%nat -> (b < dim h)%nat -> inner (coords h) (bvec h a) (bvec h b) = delta a b.
(** a function of the state has one value on all states of a basis vector *)
Definition definite (h : hmat K) (b : names_one) (f : one -> Z) (k : nat) (x : Z) : Prop :=
  forall e s, In e (nth k (bcols h) []) -> nth_error (names1 b) (fst e) = Some s -> f s = x.
(** j and m are half-integers, the number of pair states fits into 32 bits *)
Definition half (b : names_one) : Prop := forall s, In s (names1 b) -> Z.odd (jj s) = true /\ Z.odd (mm s) = true.
Definition small (b1 b2 : names_one) : Prop := (Z.of_nat (length (names1 b1) * length (names1 b2)) < 2 ^ 32)%Z.

(** the pairs (c1, c2) with a given property in lexicographic order *)
Definition pairs_with (n1 n2 : nat) (p : nat -> nat -> bool) : list (nat * nat) :=
  filter (fun c => p (fst c) (snd c)) (list_prod (seq 0 n1) (seq 0 n2)).

(** (-1)^l of a coordinate; inversion: exchange of the atoms and multiplication with the parity of both *)
Definition parity (b : names_one) (i : nat) : Z := match nth_error (names1 b) i with Some s => sg (l_ s) | None => 1%Z end.
Definition inverted (b : names_one) (w : nat -> K) : nat -> K :=
  let n := length (names1 b) in fun r => sc (parity b (r / n) * parity b (r mod n)) (w (swapc n r)).

(** Reflection: m -> -m of both atoms and multiplication with (-1)^(l1+l2) (-1)^(j1+j2) (-1)^(m1+m2).
    [mirror b i] is the position of the state with the opposite magnetic quantum number. *)
Definition opposite (s s' : one) : bool := (n_ s =? n_ s')%Z && (l_ s =? l_ s')%Z && (jj s =? jj s')%Z && (mm s =? - mm s')%Z.
Fixpoint position (f : one -> bool) (l : list one) : option nat :=
  match l with [] => None | s :: l => if f s then Some 0%nat else option_map S (position f l) end.
Definition mirror (b : names_one) (i : nat) : nat :=
  match nth_error (names1 b) i with
  | Some s => match position (opposite s) (names1 b) with Some k => k | None => i end
  | None => i
  end.
(** every state has exactly one partner *)
Definition closed (b : names_one) : Prop :=
  NoDup (map quad (names1 b)) /\ forall s, In s (names1 b) -> exists s', In s' (names1 b) /\ opposite s s' = true.
Definition refl_sign (b1 b2 : names_one) (i k : nat) : Z :=
  match nth_error (names1 b1) i, nth_error (names1 b2) k with
  | Some s, Some t => (sg (l_ s + l_ t) * sg ((jj s + jj t) / 2) * sg ((mm s + mm t) / 2))%Z
  | _, _ => 1%Z
  end.
Definition reflected (b1 b2 : names_one) (w : nat -> K) : nat -> K :=
  let n := length (names1 b2) in
  fun r => sc (refl_sign b1 b2 (r / n) (r mod n)) (w (n * mirror b1 (r / n) + mirror b2 (r mod n))%nat).
End Spec.
Arguments inner {K} N u v.
Arguments kron {K} n2 u v r.
Arguments exchange {K} n w r.
Arguments bvec {K} h k r.
Arguments energy {K} h k.
Arguments dim {K} h.
Arguments over {K} h b.
Arguments orthonormal {K} h.
Arguments definite {K} h b f k x.
Arguments inverted {K} b w r.
Arguments reflected {K} b1 b2 w r.
