(** Specification of exchange-symmetrised pair bases, independently of the loops of the code.
    No proofs.  [lsum f xs] is the sum of f over the list xs (OverlapProofs). *)
From Verif Require Import Base StateModel Matrix OverlapProofs SystemModel LookupProofs PairModel RangeModel BasisProofs.
From Coq Require Import ZArith Bool Arith List.
Import ListNotations.
Set Implicit Arguments.
Local Open Scope nat_scope.

Section S.
Context {K : StarRing}.
Local Open Scope star_scope.

(** Coefficient of the state [a] in the i-th basis vector of a one-atom system. *)
Definition amp (s : @onesys K) (i : nat) (a : state1) : K :=
  lsum (fun e => match nth_error (o_states s) (fst e) with
                 | Some st => if eq1 st a then snd e else 0
                 | None => 0
                 end) (nth i (o_cols s) []).

(** What a built one-atom system satisfies: pairwise different states, one energy per basis vector,
    each basis vector has at most one coefficient per state. *)
Definition wf_one (s : @onesys K) : Prop :=
  distinct (o_states s) /\ length (o_en s) = length (o_cols s) /\
  (forall col, In col (o_cols s) -> NoDup (map fst col) /\ forall e, In e col -> (fst e < length (o_states s))%nat).
(** Atoms of one kind have only half-integer or only integer j. *)
Definition same_kind (s : @onesys K) : Prop :=
  forall a b, In a (o_states s) -> In b (o_states s) -> isArtificial a = false -> isArtificial b = false ->
    Z.odd (j2 a + j2 b) = false.
Definition orthonormal (s : @onesys K) : Prop :=
  forall i k, (i < length (o_cols s))%nat -> (k < length (o_cols s))%nat ->
    lsum (fun a => sconj (amp s i a) * amp s k a) (o_states s) = if Nat.eqb i k then 1 else 0.

(** Every state in the basis vector has parity (-1)^l = p. *)
Definition parity_of (s : @onesys K) (i : nat) (p : Z) : Prop :=
  (p = 1 \/ p = -1)%Z /\
  forall e st, In e (nth i (o_cols s) []) -> nth_error (o_states s) (fst e) = Some st ->
    isArtificial st = false /\ (if Z.even (l st) then 1 else -1)%Z = p.

Variable rt : K.   (* 1/sqrt 2 *)
(** The product u_i (x) u_j, exchanged with the sign [sg] and normalised if i <> j. *)
Definition exchanged (u : nat -> state1 -> K) (sg : K) (i j : nat) (a b : state1) : K :=
  if Nat.eqb i j then u i a * u j b
  else rt * (u i a * u j b + sg * (u i b * u j a)).
(** Inner product of two-atom vectors over the pairs of the states [ss]. *)
Definition inner2 (ss : list state1) (f g : state1 -> state1 -> K) : K :=
  lsum (fun p => sconj (f (fst p) (snd p)) * g (fst p) (snd p)) (list_prod ss ss).

(** Total weight with which the state (a,b) and its exchanged partner occur, summed over the pairs. *)
Definition occupation (u : nat -> state1 -> K) (ps : list (nat * nat)) (a b : state1) : K :=
  lsum (fun p => let w := fun a b => (sconj (u (fst p) a) * u (fst p) a) * (sconj (u (snd p) b) * u (snd p) b) in
                 if Nat.eqb (fst p) (snd p) then w a b else sconj rt * rt * (w a b + w b a)) ps.

Definition kof (z : Z) : K := if (z <? 0)%Z then sopp 1 else 1.

Definition distinct_pairs (ss : list state2) : Prop := ForallOrdPairs (fun a b => eq2 a b = false) ss.

(** [tbl], [b], [h] is the exchange-symmetrised pair basis of two atoms described by [s]: one basis
    vector for each unordered pair {i, j}, j <= i, of basis vectors that is [allowed], as far as
    the energies lie in the window; coefficients with the sign [sg i j]; energies; and the states
    are the pairs of states that occur with a weight above the threshold. *)
Definition exchange_basis (s : @onesys K) (rq : @request K state2) (thr : K) (sg : nat -> nat -> K) (allowed : nat -> nat -> Prop)
    (tbl : list (nat * state2)) (b h : mat K) : Prop :=
  exists ps : list (nat * nat),
    NoDup ps /\
    (forall i j, In (i, j) ps <->
       ((i < length (o_cols s))%nat /\ (j <= i)%nat /\ allowed i j /\ in_window rq (nth i (o_en s) 0 + nth j (o_en s) 0))) /\
    map fst tbl = seq 0 (length tbl) /\ distinct_pairs (map snd tbl) /\
    (forall x, In x (map snd tbl) -> exists a b, In a (o_states s) /\ In b (o_states s) /\ x = mkTwo_pair a b) /\
    (forall a b, In a (o_states s) -> In b (o_states s) ->
       ((exists x, In x (map snd tbl) /\ eq2 x (mkTwo_pair a b) = true) <-> sltre thr (occupation (amp s) ps a b) = true)) /\
    nr b = length tbl /\ nc b = length ps /\ nr h = length ps /\ nc h = length ps /\
    (forall r k x i j, nth_error (map snd tbl) r = Some x -> nth_error ps k = Some (i, j) ->
       at_ b r k = exchanged (amp s) (sg i j) i j (fst1 x) (snd1 x)) /\
    (forall k k' i j, nth_error ps k = Some (i, j) -> (k' < length ps)%nat ->
       at_ h k k' = if Nat.eqb k k' then nth i (o_en s) 0 + nth j (o_en s) 0 else 0).

(** Every state in the basis vector has the doubled momentum [m]. *)
Definition momentum_of (s : @onesys K) (i : nat) (m : Z) : Prop :=
  forall e st, In e (nth i (o_cols s) []) -> nth_error (o_states s) (fst e) = Some st -> isArtificial st = false /\ m2 st = m.

(** The sign under exchange that a sector asks of the pair (i, j), [p] being the parities of the
    one-atom basis vectors: inversion EVEN (gerade): - p_i p_j, inversion ODD: p_i p_j,
    permutation EVEN: -1, permutation ODD: 1. *)
Definition inversion_sign (sinv : parity) (p : nat -> Z) (i j : nat) : Z :=
  match sinv with EVEN => - (p i * p j) | _ => p i * p j end%Z.
Definition permutation_sign (sperm : parity) : Z := match sperm with EVEN => -1 | _ => 1 end%Z.
Definition sector_sign (sinv sperm : parity) (p : nat -> Z) (i j : nat) : Z :=
  match sinv with NA => permutation_sign sperm | _ => inversion_sign sinv p i j end.
(** Pairs of a sector: (i, i) has the sign 1 and belongs to the ODD sectors; for i <> j the
    required signs have to agree; the total momentum (doubled) has to be asked for. *)
Definition in_sector (sinv sperm : parity) (srot : option (list Z)) (p m : nat -> Z) (i j : nat) : Prop :=
  (i = j -> sinv <> EVEN /\ sperm <> EVEN) /\
  (i <> j -> sinv <> NA -> sperm <> NA -> inversion_sign sinv p i j = permutation_sign sperm) /\
  (forall ms, srot = Some ms -> exists M, In M ms /\ M = Z.quot (m i + m j) 2).

(** Two atoms, no symmetry: [tbl], [b], [h] is the basis of the products u_i (x) v_j for the pairs
    [ps], in this order. *)
Definition occupation_product (u v : nat -> state1 -> K) (ps : list (nat * nat)) (a b : state1) : K :=
  lsum (fun p => (sconj (u (fst p) a) * u (fst p) a) * (sconj (v (snd p) b) * v (snd p) b)) ps.
Definition product_basis (s1 s2 : @onesys K) (thr : K) (ps : list (nat * nat))
    (tbl : list (nat * state2)) (b h : mat K) : Prop :=
  map fst tbl = seq 0 (length tbl) /\ distinct_pairs (map snd tbl) /\
  (forall x, In x (map snd tbl) -> exists a b, In a (o_states s1) /\ In b (o_states s2) /\ x = mkTwo_pair a b) /\
  (forall a b, In a (o_states s1) -> In b (o_states s2) ->
     ((exists x, In x (map snd tbl) /\ eq2 x (mkTwo_pair a b) = true) <-> sltre thr (occupation_product (amp s1) (amp s2) ps a b) = true)) /\
  nr b = length tbl /\ nc b = length ps /\ nr h = length ps /\ nc h = length ps /\
  (forall r k x i j, nth_error (map snd tbl) r = Some x -> nth_error ps k = Some (i, j) ->
     at_ b r k = amp s1 i (fst1 x) * amp s2 j (snd1 x)) /\
  (forall k k' i j, nth_error ps k = Some (i, j) -> (k' < length ps)%nat ->
     at_ h k k' = if Nat.eqb k k' then nth i (o_en s1) 0 + nth j (o_en s2) 0 else 0).
(** The total angular momenta of the pairs are integer. *)
Definition kinds_fit (s1 s2 : @onesys K) : Prop :=
  forall a b, In a (o_states s1) -> In b (o_states s2) -> isArtificial a = false -> isArtificial b = false -> Z.odd (j2 a + j2 b) = false.
(** The indices exist. *)
Definition in_range (s1 s2 : @onesys K) (ps : list (nat * nat)) : Prop :=
  forall i j, In (i, j) ps -> (i < length (o_cols s1))%nat /\ (j < length (o_cols s2))%nat.
End S.
