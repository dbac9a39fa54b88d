(** Specification of the pair states that a user adds to a two-atom system (SystemTwo::addStates), independently of
    the loops of the code.  No proofs. *)
From Coq Require Import ZArith Bool String Arith List.
Import ListNotations.
From Verif Require Import Base StateModel Matrix SystemModel PairModel PairSpec RangeModel.
Set Implicit Arguments.
Local Open Scope nat_scope.

Section S.
Context {K : StarRing}.
Local Open Scope star_scope.

(** Both atoms in atomic (not artificial) states. *)
Definition atomic (x : state2) : Prop := isArtificial (fst1 x) = false /\ isArtificial (snd1 x) = false.
(** The atoms exchanged. *)
Definition swapped (x : state2) : state2 := mkTwo_pair (snd1 x) (fst1 x).

Variables sinv sperm : parity.
(** total momenta asked for *)
Variable srot : option (list Z).

(** Sign under exchange of the atoms that inversion symmetry asks for. *)
Definition sign_inv (x : state2) : Z :=
  let p := (if Z.even (l (fst1 x) + l (snd1 x)) then 1 else -1)%Z in match sinv with EVEN => - p | _ => p end%Z.
Definition sign_perm : Z := match sperm with EVEN => -1 | _ => 1 end%Z.
(** [exchange_sign x s]: a symmetry that can be applied to x asks for the combination x + s (x exchanged);
    inversion cannot be applied to artificial states. *)
Definition exchange_sign (x : state2) (s : Z) : Prop :=
  eq1 (fst1 x) (snd1 x) = false /\
  ((sinv <> NA /\ atomic x /\ s = sign_inv x) \/ ((sinv = NA \/ ~ atomic x) /\ sperm <> NA /\ s = sign_perm)).

(** The added state x stands for a basis vector: the momentum is asked for, inversion and permutation ask for the
    same sign, a state of equal atoms is symmetric (not EVEN), and of two exchanged states the one with the
    larger first atom is used. *)
Definition stands (x : state2) : Prop :=
  (atomic x -> forall ms, srot = Some ms -> In (Z.quot (m2 (fst1 x) + m2 (snd1 x)) 2) ms) /\
  (sinv <> NA -> atomic x -> sperm <> NA -> eq1 (fst1 x) (snd1 x) = false -> sign_inv x = sign_perm) /\
  (eq1 (fst1 x) (snd1 x) = true -> (sinv = EVEN -> ~ atomic x) /\ sperm <> EVEN) /\
  (forall s, exchange_sign x s -> lt1 (snd1 x) (fst1 x) = true).

Variable energy : state1 -> res K.
(** Energy of the pair, artificial states at zero. *)
Definition atom_energy (a : state1) (e : K) : Prop := if isArtificial a then e = 0 else energy a = Ok e.
Definition pair_energy (x : state2) (e : K) : Prop := exists e1 e2, atom_energy (fst1 x) e1 /\ atom_energy (snd1 x) e2 /\ e = e1 + e2.

Definition is_state (z y : state2) : K := if eq2 y z then 1 else 0.
Variable rt : K.   (* 1/sqrt 2 *)

(** (tbl, b, h) is the basis (tbl0, b0, h0) extended by the added states [xs]: the old states, basis vectors and
    energies unchanged, followed by one basis vector for each added state that stands for one. *)
Definition extended_basis (xs : list state2) (tbl0 : list (nat * state2)) (b0 h0 : mat K) (tbl : list (nat * state2)) (b h : mat K) : Prop :=
  exists ys news,
    (exists f, ys = filter f xs /\ forall x, In x xs -> (f x = true <-> stands x)) /\
    map fst tbl = seq 0 (length tbl) /\ map snd tbl = map snd tbl0 ++ news /\ distinct_pairs news /\
    (forall z, In z news <-> exists y, In y ys /\ (z = y \/ exists s, exchange_sign y s /\ z = swapped y)) /\
    nr b = (nr b0 + length news)%nat /\ nc b = (nc b0 + length ys)%nat /\ nr h = nc b /\ nc h = nc b /\
    (forall r k, (r < nr b0)%nat -> (k < nc b0)%nat -> at_ b r k = at_ b0 r k) /\
    (forall r k, (r < nr b0)%nat -> (nc b0 <= k < nc b)%nat -> at_ b r k = 0) /\
    (forall r k, (nr b0 <= r < nr b)%nat -> (k < nc b0)%nat -> at_ b r k = 0) /\
    (forall r k z y, nth_error news r = Some z -> nth_error ys k = Some y ->
       ((forall s, ~ exchange_sign y s) -> at_ b (nr b0 + r) (nc b0 + k) = is_state z y) /\
       (forall s, exchange_sign y s -> at_ b (nr b0 + r) (nc b0 + k) = rt * (is_state z y + kof s * is_state z (swapped y)))) /\
    (forall k k', (k < nc b0)%nat -> (k' < nc b0)%nat -> at_ h k k' = at_ h0 k k') /\
    (forall k k', (k < nc b)%nat -> (k' < nc b)%nat -> (nc b0 <= k \/ nc b0 <= k')%nat -> k <> k' -> at_ h k k' = 0) /\
    (forall k y, nth_error ys k = Some y -> pair_energy y (at_ h (nc b0 + k) (nc b0 + k))).

(** What has to hold of the added states: right species, an energy, and the exchanged state is added as well if a
    symmetry is to be applied (and the state is not discarded by the symmetries before that is checked). *)
Definition fits (sp1 sp2 : string) (x : state2) : Prop :=
  (isArtificial (fst1 x) = false -> species (fst1 x) = sp1) /\ (isArtificial (snd1 x) = false -> species (snd1 x) = sp2).
Definition has_partner (xs : list state2) (x : state2) : Prop :=
  forall s, exchange_sign x s ->
    (atomic x -> forall ms, srot = Some ms -> In (Z.quot (m2 (fst1 x) + m2 (snd1 x)) 2) ms) ->
    (sinv <> NA -> atomic x -> sperm <> NA -> sign_inv x = sign_perm) ->
    exists y, In y xs /\ eq2 (swapped x) y = true.
End S.
