(** Model of PerturbativeInteraction.cpp.  Doubled integers stand for j, m and s (floats holding
    half-integers); [deltaN] is a rational number; energies and matrix elements are real numbers
    (rounding, infinities and NaN are not modelled: where the code divides by an energy difference
    of zero the theorems assume that it is not zero).  No proofs. *)
From Verif Require Import Base StateModel.
From Coq Require Import ZArith QArith Qround Reals Bool String List.
Local Open Scope list_scope.
Local Open Scope Z_scope.
Set Implicit Arguments.

(** [lo, hi] in steps of one: for (int n0 = lo; n0 <= hi; ++n0). *)
Definition interval (lo hi : Z) : list Z :=
  map (fun i => lo + Z.of_nat i) (seq 0 (Z.to_nat (hi - lo + 1))).

(** Conversion double -> int: towards zero. *)
Definition truncQ (x : Q) : Z := Z.quot (Qnum x) (Zpos (Qden x)).
(** cpp 42, 44, 146, 148: int n0 = lo - deltaN; n0 <= hi + deltaN. *)
Definition n_range (lo hi : Z) (deltaN : Q) : list Z :=
  interval (truncQ (inject_Z lo - deltaN)) (Qfloor (inject_Z hi + deltaN)).

(** cpp 46-52, 55-61 *)
Definition l_set (l n0 : Z) : list Z :=
  (if 0 <? l then [l - 1] else []) ++ (if l <? n0 - 1 then [l + 1] else []).

(** std::set<float>: two insertions. *)
Definition set2 (a b : option Z) : list Z :=
  match a, b with
  | Some x, Some y => if x =? y then [x] else if x <? y then [x; y] else [y; x]
  | Some x, None => [x]
  | None, Some y => [y]
  | None, None => []
  end.
Definition guard (c : bool) (x : Z) : option Z := if c then Some x else None.
(** cpp 64-76, 79-92 *)
Definition j_set (s l0 j : Z) : list Z :=
  let lo := Z.abs (2 * l0 - s) in let hi := 2 * l0 + s in
  match set2 (guard (Z.abs (lo - j) <? 4) lo) (guard (Z.abs (hi - j) <? 4) hi) with
  | [a; b] => a :: map (fun i => lo + 2 + 2 * Z.of_nat i) (seq 0 (Z.to_nat ((hi - lo - 1) / 2))) ++ [b]
  | js => js
  end.

(** cpp 150-164, 167-181: the l of the intermediate state for the matrix. *)
Definition l_set2 (lrow lcol n0 : Z) : list Z :=
  if lrow =? lcol then
    (if lcol <? n0 - 1 then [lcol + 1] else []) ++ (if 0 <? lcol then [lcol - 1] else [])
  else if (lrow + 2 =? lcol) && (lcol <? n0 - 1) then [lcol + 1]
  else if (lrow - 2 =? lcol) && (0 <? lcol) then [lcol - 1]
  else [].
(** cpp 184-192, 195-203 *)
Definition j_set2 (s l0 jrow jcol : Z) : list Z :=
  let lo := Z.abs (2 * l0 - s) in let hi := 2 * l0 + s in
  set2 (guard ((Z.abs (lo - jcol) <? 4) && (Z.abs (lo - jrow) <? 4)) lo)
       (guard ((Z.abs (hi - jcol) <? 4) && (Z.abs (hi - jrow) <? 4)) hi).

Record geometry := Geo { array_q : list (Z * Z); array_angle_term : Z -> Z -> res R }.

Section Angle.
  Local Open Scope R_scope.
  (** cpp 335-382 initializeAngleTerms.  Entries of the array that are never written are
      uninitialised: reading them is undefined. *)
  Definition initializeAngleTerms (angle : R) : geometry :=
    if Req_EM_T angle 0 then
      Geo [(0, 0); (1, -1); (-1, 1)]%Z
        (fun q0 q1 =>
           if (Z.eqb q0 0 && Z.eqb q1 0)%bool then Ok (-2)
           else if (Z.eqb q0 1 && Z.eqb q1 (-1))%bool then Ok (-1)
           else if (Z.eqb q0 (-1) && Z.eqb q1 1)%bool then Ok (-1)
           else UB)
    else
      Geo [(0, 0); (1, -1); (-1, 1); (1, 1); (-1, -1); (0, 1); (1, 0); (0, -1); (-1, 0)]%Z
        (fun q0 q1 =>
           if (Z.eqb q0 0 && Z.eqb q1 0)%bool then Ok (1 - 3 * cos angle ^ 2)
           else if (Z.eqb q0 1 && Z.eqb q1 (-1))%bool then Ok (-1 + 3 / 2 * sin angle ^ 2)
           else if (Z.eqb q0 (-1) && Z.eqb q1 1)%bool then Ok (-1 + 3 / 2 * sin angle ^ 2)
           else if (Z.eqb q0 1 && Z.eqb q1 1)%bool then Ok (-(3 / 2) * sin angle ^ 2)
           else if (Z.eqb q0 (-1) && Z.eqb q1 (-1))%bool then Ok (-(3 / 2) * sin angle ^ 2)
           else if (Z.eqb q0 0 && Z.eqb q1 1)%bool then Ok (3 / sqrt 2 * sin angle * cos angle)
           else if (Z.eqb q0 1 && Z.eqb q1 0)%bool then Ok (3 / sqrt 2 * sin angle * cos angle)
           else if (Z.eqb q0 0 && Z.eqb q1 (-1))%bool then Ok (- 3 / sqrt 2 * sin angle * cos angle)
           else if (Z.eqb q0 (-1) && Z.eqb q1 0)%bool then Ok (- 3 / sqrt 2 * sin angle * cos angle)
           else UB).
End Angle.

Section Perturb.
  Variables (hs : string -> N) (hi hf : Z -> N).          (* std::hash, see StateModel *)
  (** State.cpp 131-134 StateOne::getEnergy(cache) and MatrixElementCache::getElectricDipole(a, b):
      what the calls return (they depend on the cache only through its settings: C15). *)
  Variable energy : state1 -> res R.
  Variable dipole : state1 -> state1 -> res R.
  Variable kC : R.                                        (* coulombs_constant *)

  (** State.cpp 256-258 *)
  Definition energy2 (s : state2) : res R :=
    do! a <- energy (fst1 s) ; do! b <- energy (snd1 s) ; Ok (a + b)%R.
  (** State.cpp 198-205 with the species of an existing state. *)
  Definition mk (st : state2) (x0 x1 : Z * Z * Z * Z) : res state2 :=
    let '(n0, l0, j0, m0) := x0 in let '(n1, l1, j1, m1) := x1 in
    mkTwo hs hi hf (species (fst1 st)) (species (snd1 st)) n0 n1 l0 l1 j0 j1 m0 m1.

  Fixpoint sum_res (A : Type) (f : A -> res R) (acc : R) (xs : list A) : res R :=
    match xs with
    | [] => Ok acc
    | x :: xs' => do! v <- f x ; sum_res f (acc + v)%R xs'
    end.

  Notation visit := ((Z * Z * Z * Z) * (Z * Z * Z * Z) * (Z * Z))%type.

  (** cpp 42-110: the loops, in their order; the innermost loop runs over the geometry and skips
      |m| > j. *)
  Definition visits_m (g : geometry) (n0 l0 j0 n1 l1 j1 M0 M1 : Z) : list visit :=
    flat_map (fun q => let '(q0, q1) := q in
      if j0 <? Z.abs (M0 + 2 * q0) then [] else
      if j1 <? Z.abs (M1 + 2 * q1) then [] else
      [((n0, l0, j0, M0 + 2 * q0), (n1, l1, j1, M1 + 2 * q1), (q0, q1))]) (array_q g).
  Definition visits (g : geometry) (a b : state1) (deltaN : Q) : list visit :=
    flat_map (fun n0 => flat_map (fun n1 =>
      flat_map (fun l0 => flat_map (fun l1 =>
        flat_map (fun j0 => flat_map (fun j1 =>
          visits_m g n0 l0 j0 n1 l1 j1 (m2 a) (m2 b))
          (j_set (s2 b) l1 (j2 b))) (j_set (s2 a) l0 (j2 a)))
        (l_set (l b) n1)) (l_set (l a) n0))
      (n_range (n b) (n b) deltaN)) (n_range (n a) (n a) deltaN).

  (** cpp 111-128: the contribution of one intermediate state. *)
  Definition contribution (g : geometry) (st : state2) (x : visit) : res R :=
    let '(x0, x1, (q0, q1)) := x in
    do! v <- mk st x0 x1 ;
    do! e <- energy2 st ;
    do! e' <- energy2 v ;
    do! t <- array_angle_term g q0 q1 ;
    do! d0 <- dipole (fst1 v) (fst1 st) ;
    do! d1 <- dipole (snd1 v) (snd1 st) ;
    Ok ((kC * t * d0 * d1) ^ 2 / (e - e'))%R.

  (** cpp 39-131.  The getters throw for an artificial state; those of the second atom are called
      inside the first loop. *)
  Definition getC6 (g : geometry) (st : state2) (deltaN : Q) : res R :=
    do! n0 <- getN (fst1 st) ;
    match n_range n0 n0 deltaN with
    | [] => Ok 0%R
    | _ => do! _ <- getN (snd1 st) ;
           sum_res (contribution g st) 0%R (visits g (fst1 st) (snd1 st) deltaN)
    end.

  (** ** The matrix, cpp 133-289 *)
  (** cpp 206-227: forth is from the column to the intermediate state, back from there to the row
      (int q_back = float: towards zero). *)
  Definition visits2_m (g : geometry) (n0 l0 j0 n1 l1 j1 : Z) (row col : state2) : list visit :=
    flat_map (fun q => let '(q0, q1) := q in
      let m0 := m2 (fst1 col) + 2 * q0 in let m1 := m2 (snd1 col) + 2 * q1 in
      if j0 <? Z.abs m0 then [] else
      if j1 <? Z.abs m1 then [] else
      let b0 := Z.quot (m2 (fst1 row) - m0) 2 in let b1 := Z.quot (m2 (snd1 row) - m1) 2 in
      if (1 <? Z.abs b0) || (1 <? Z.abs b1) then [] else
      if (Nat.eqb (length (array_q g)) 3) && negb (b0 + b1 =? 0) then [] else
      [((n0, l0, j0, m0), (n1, l1, j1, m1), (q0, q1))]) (array_q g).
  Definition visits2 (g : geometry) (row col : state2) (deltaN : Q) : list visit :=
    let r0 := fst1 row in let r1 := snd1 row in let c0 := fst1 col in let c1 := snd1 col in
    flat_map (fun n0 => flat_map (fun n1 =>
      flat_map (fun l0 => flat_map (fun l1 =>
        flat_map (fun j0 => flat_map (fun j1 => visits2_m g n0 l0 j0 n1 l1 j1 row col)
          (j_set2 (s2 c1) l1 (j2 r1) (j2 c1))) (j_set2 (s2 c0) l0 (j2 r0) (j2 c0)))
        (l_set2 (l r1) (l c1) n1)) (l_set2 (l r0) (l c0) n0))
      (n_range (Z.min (n r1) (n c1)) (Z.max (n r1) (n c1)) deltaN))
      (n_range (Z.min (n r0) (n c0)) (Z.max (n r0) (n c0)) deltaN).

  (** cpp 229-274; set_states.find: equal state (equal states have equal hashes, C02). *)
  Definition contribution2 (g : geometry) (states : list state2) (row col : state2) (x : visit) : res R :=
    let '(x0, x1, (q0, q1)) := x in
    do! v <- mk col x0 x1 ;
    if existsb (eq2 v) states then Ok 0%R else
    do! er <- energy2 row ; do! ev <- energy2 v ; do! ec <- energy2 col ;
    let b0 := Z.quot (m2 (fst1 row) - m2 (fst1 v)) 2 in
    let b1 := Z.quot (m2 (snd1 row) - m2 (snd1 v)) 2 in
    do! tb <- array_angle_term g b0 b1 ;
    do! d0 <- dipole (fst1 row) (fst1 v) ; do! d1 <- dipole (snd1 row) (snd1 v) ;
    do! tf <- array_angle_term g q0 q1 ;
    do! f0 <- dipole (fst1 v) (fst1 col) ; do! f1 <- dipole (snd1 v) (snd1 col) ;
    Ok (kC * tb * d0 * d1 * kC * tf * f0 * f1 * (1 / 2) * (1 / (er - ev) + 1 / (ec - ev)))%R.

  (** cpp 145-286: one element; states with different spins or species are skipped.  (Artificial
      states throw at getS.) *)
  Definition getC6_element (g : geometry) (states : list state2) (deltaN : Q) (row col : state2) : res R :=
    do! _ <- getS2 (fst1 row) ; do! _ <- getS2 (fst1 col) ;
    do! _ <- getS2 (snd1 row) ; do! _ <- getS2 (snd1 col) ;
    if negb (s2 (fst1 row) =? s2 (fst1 col)) || negb (s2 (snd1 row) =? s2 (snd1 col)) then Ok 0%R else
    if negb (String.eqb (species (fst1 row)) (species (fst1 col))) ||
       negb (String.eqb (species (snd1 row)) (species (snd1 col))) then Ok 0%R else
    sum_res (contribution2 g states row col) 0%R (visits2 g row col deltaN).

  (** cpp 300-322: one element of the C3 matrix. *)
  Definition getC3_element (g : geometry) (row col : state2) : res R :=
    do! _ <- getM2 (fst1 row) ; do! _ <- getM2 (fst1 col) ;
    do! _ <- getM2 (snd1 row) ; do! _ <- getM2 (snd1 col) ;
    let q0 := Z.quot (m2 (fst1 row) - m2 (fst1 col)) 2 in
    let q1 := Z.quot (m2 (snd1 row) - m2 (snd1 col)) 2 in
    if (Nat.eqb (length (array_q g)) 3) && negb (q0 + q1 =? 0) then Ok 0%R else
    if (1 <? Z.abs q0) || (1 <? Z.abs q1) then Ok 0%R else
    do! t <- array_angle_term g q0 q1 ;
    do! d0 <- dipole (fst1 row) (fst1 col) ;
    do! d1 <- dipole (snd1 row) (snd1 col) ;
    Ok (kC * t * d0 * d1)%R.

  (** A matrix is a list of rows.  The code fills the upper triangle, row by row, and returns
      selfadjointView<Upper> (288, 325). *)
  Fixpoint mapM (A B : Type) (f : A -> res B) (xs : list A) : res (list B) :=
    match xs with
    | [] => Ok []
    | x :: xs' => do! y <- f x ; do! ys <- mapM f xs' ; Ok (y :: ys)
    end.
  Definition selfadjoint (up : list (list R)) : list (list R) :=
    map (fun i => map (fun j => nth (Nat.max i j) (nth (Nat.min i j) up []) 0%R) (seq 0 (length up)))
        (seq 0 (length up)).
  Definition matrix (states : list state2) (entry : nat -> nat -> state2 -> state2 -> res R)
      : res (list (list R)) :=
    let ix := combine (seq 0 (length states)) states in
    do! up <- mapM (fun rw => mapM (fun cl => entry (fst rw) (fst cl) (snd rw) (snd cl)) ix) ix ;
    Ok (selfadjoint up).
  (** 133-289: entries with idx_col < idx_row stay zero. *)
  Definition getC6_matrix (g : geometry) (states : list state2) (deltaN : Q) : res (list (list R)) :=
    matrix states (fun i j row col =>
      if Nat.leb i j then getC6_element g states deltaN row col else Ok 0%R).
  (** 291-326: entries with idx_col <= idx_row stay zero. *)
  Definition getC3_matrix (g : geometry) (states : list state2) : res (list (list R)) :=
    matrix states (fun i j row col =>
      if Nat.ltb i j then getC3_element g row col else Ok 0%R).
  (** 328-341 *)
  Definition getEnergy_matrix (states : list state2) : res (list (list R)) :=
    let ix := combine (seq 0 (length states)) states in
    mapM (fun rw => mapM (fun cl =>
      if Nat.eqb (fst rw) (fst cl) then energy2 (snd rw) else Ok 0%R) ix) ix.
End Perturb.
