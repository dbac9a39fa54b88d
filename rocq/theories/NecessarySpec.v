(** Vocabulary for the restriction of the states in the command line program. *)
From Coq Require Import ZArith Lia Bool List.
Import ListNotations.
From Verif Require Import Base Matrix BasisnamesModel CombineModel CombineSpec NecessaryModel.
Set Implicit Arguments.

(** pair coordinate r has an entry in a product of two basis vectors whose energy is within the cutoff *)
Definition touched {K : StarRing} (keep : K -> bool) (lhs rhs : hmat K) (r : nat) : Prop :=
  exists c1 c2 e1 e2, (c1 < dim lhs)%nat /\ (c2 < dim rhs)%nat /\ keep (sadd (energy lhs c1) (energy rhs c2)) = true /\
    In e1 (nth c1 (bcols lhs) []) /\ In e2 (nth c2 (bcols rhs) []) /\ r = (coords rhs * fst e1 + fst e2)%nat.
(** the states s, t of the two atoms fit to a symmetry: total magnetic quantum number (up to the sign if there is a reflection
    symmetry), and parity if both inversion and permutation are used *)
Definition fits (sametrafo : bool) (initpar : Z) (sym : symmetry) (s t : one) : Prop :=
  (forall R, rot sym = Some R -> mm s + mm t = 2 * R \/ (ref sym <> NA /\ mm s + mm t = - 2 * R))%Z /\
  (inv sym <> NA -> per sym <> NA -> sametrafo = true -> sg (l_ s + l_ t) = initpar).
(** the atoms have the states of pair coordinate r *)
Definition states_at (b1 b2 : names_one) (r : nat) (s t : one) : Prop :=
  nth_error (names1 b1) (r / length (names1 b2)) = Some s /\ nth_error (names1 b2) (r mod length (names1 b2)) = Some t.
(** every basis vector has a partner of the same energy that contains the states with opposite m *)
Definition partners {K : StarRing} (h : hmat K) (b : names_one) : Prop :=
  forall k, (k < dim h)%nat -> exists k', (k' < dim h)%nat /\ energy h k' = energy h k /\
    forall e, In e (nth k (bcols h) []) -> exists e', In e' (nth k' (bcols h) []) /\ fst e' = mirror b (fst e).

(** the i-th name has index i: the coordinates of the matrices are in the order of the names *)
Definition in_order (b : names_one) : Prop := forall i s, nth_error (names1 b) i = Some s -> idx s = Z.of_nat i.
(** quantum numbers within the limits of an initial state; negative limit: no limit.  The limits of j and m are given in units
    of 1, the numbers are doubled *)
Definition near (d : limits) (i s : one) : Prop :=
  (dN d < 0 \/ Z.abs (n_ s - n_ i) <= dN d)%Z /\ (dL d < 0 \/ Z.abs (l_ s - l_ i) <= dL d)%Z /\
  (dJ d < 0 \/ Z.abs (jj s - jj i) <= 2 * dJ d)%Z /\ (dM d < 0 \/ Z.abs (mm s - mm i) <= 2 * dM d)%Z.

(** ** The blocks that are to be diagonalised *)
(** total magnetic quantum numbers that are looked at if the total magnetic quantum number is conserved: those of all pair states; if
    the atoms are to be found in the initial state: the one of the initial state, or all that
    it contains if the atoms are quantised along different axes (interaction angle not 0) *)
Definition momentum_wanted (sametrafo zerotheta : bool) (initial : two) (names : list two) (M : Z) : Prop :=
  if sametrafo then
    if zerotheta then M = Z.quot (mm (fst_ initial) + mm (snd_ initial)) 2
    else (Z.abs M <= Z.quot (jj (fst_ initial) + jj (snd_ initial)) 2)%Z
  else exists t, In t names /\ M = Z.quot (mm (fst_ t) + mm (snd_ t)) 2.
Definition block_wanted (conserveM sametrafo zerotheta : bool) (initial : two) (names : list two) (invs pers refs : list par) (sym : symmetry) : Prop :=
  In (inv sym) invs /\ In (per sym) pers /\ In (ref sym) refs /\
  (* both atoms in the same state: only symmetric under exchange *)
  (sametrafo = true -> quad (fst_ initial) = quad (snd_ initial) -> inv sym <> EVEN /\ per sym <> EVEN) /\
  (* parity of the initial state *)
  (sametrafo = true -> inv sym <> NA -> per sym <> NA -> inv sym = per sym <-> Z.even (l_ (fst_ initial) + l_ (snd_ initial)) = true) /\
  (* M and -M belong to the same block if there is a reflection *)
  (if conserveM then exists M, momentum_wanted sametrafo zerotheta initial names M /\ rot sym = Some (match ref sym with NA => M | _ => Z.abs M end)
   else rot sym = None).
