(** Model of the atom in fields of the command line program: MatrixElements.cpp selection rules (37-61), HamiltonianOne.cpp
    changeToSpherical (43-64), number of steps (89-94), field Hamiltonian (172-430), Hamiltonian of a step (466-486, 608-618), and of what
    diagonalize (Hamiltonianmatrix.cpp:268-274) reads.  No proofs.  Numbers are exact; Scalar = double is the case of imaginary parts 0. *)
From Coq Require Import ZArith Lia Bool List Reals.
Import ListNotations.
From Verif Require Import Base Matrix FieldModel BasisnamesModel CombineModel InteractModel.
Set Implicit Arguments.
Local Open Scope R_scope.

(** selectionRulesMultipole(state1, state2, kappa, q) (MatrixElements.cpp:51-61); j and m are doubled *)
Definition sel_multipole_q (s t : one) (k q : Z) : bool :=
  (Z.abs (l_ s - l_ t) <=? k)%Z && (k mod 2 =? Z.abs (l_ s - l_ t) mod 2)%Z &&
  (Z.abs (jj s - jj t) <=? 2 * k)%Z && (2 * k <=? jj s + jj t)%Z && (mm s =? mm t + 2 * q)%Z && (Z.abs q <=? k)%Z &&
  negb ((k =? 2)%Z && (jj s =? jj t)%Z && (jj t =? 3)%Z && (mm s =? - mm t)%Z && (Z.abs (mm s - mm t) =? 2)%Z).
(** selectionRulesMomentum(state1, state2, q) (MatrixElements.cpp:35-41) *)
Definition sel_momentum_q (s t : one) (q : Z) : bool :=
  (l_ s =? l_ t)%Z && (Z.abs (jj s - jj t) <=? 2)%Z && (mm s =? mm t + 2 * q)%Z && (Z.abs q <=? 1)%Z.

(** changeToSpherical (HamiltonianOne.cpp:43-64); isreal: Scalar = double *)
Definition change_to_spherical (isreal : bool) (v : vec) : res sph :=
  if isreal then (if Req_EM_T (vy v) 0 then Ok (Sph (vx v / sqrt 2, 0) (vz v, 0) (- vx v / sqrt 2, 0)) else Throw)
  else Ok (Sph (vx v / sqrt 2, - vy v / sqrt 2) (vz v, 0) (- vx v / sqrt 2, - vy v / sqrt 2)).

(** the configured fields (HamiltonianOne.cpp:77-88) *)
Record fields := Fields { minE : vec; maxE : vec; minB : vec; maxB : vec; nsteps_conf : nat; diamagnetism : bool }.
Definition veqb (v w : vec) : bool := (if Req_EM_T (vx v) (vx w) then true else false) && (if Req_EM_T (vy v) (vy w) then true else false) && (if Req_EM_T (vz v) (vz w) then true else false).
(** HamiltonianOne.cpp:89-94 *)
Definition nsteps (f : fields) : nat := if veqb (minB f) (maxB f) && veqb (minE f) (maxE f) then 1 else nsteps_conf f.
(** std::abs(x) != 0 *)
Definition nonzero (x : CR) : bool := if Req_EM_T (fst x) 0 then (if Req_EM_T (snd x) 0 then false else true) else true.

Inductive slot := E0 | Ep | Em | B0 | Bp | Bm | D00 | D20 | D2p | D2m | D2pp | D2mm.
Record flags := Flags { e0_ : bool; e1_ : bool; b0_ : bool; b1_ : bool; dm_ : bool }.
(** the if - else if chains (HamiltonianOne.cpp:344-411): the matrix that gets an entry *)
Definition chainE (x : flags) (row col : one) : option slot :=
  if e0_ x && sel_multipole_q row col 1 0 then Some E0
  else if e1_ x && sel_multipole_q row col 1 1 then Some Ep
  else if e1_ x && sel_multipole_q row col 1 (-1) then Some Em else None.
Definition chainB (x : flags) (row col : one) : option slot :=
  if b0_ x && sel_momentum_q row col 0 then Some B0
  else if b1_ x && sel_momentum_q row col 1 then Some Bp
  else if b1_ x && sel_momentum_q row col (-1) then Some Bm else None.
Definition chainD (x : flags) (row col : one) : option slot :=
  if dm_ x && (b0_ x || b1_ x) && sel_multipole_q row col 0 0 then Some D00
  else if dm_ x && (b0_ x || b1_ x) && sel_multipole_q row col 2 0 then Some D20
  else if dm_ x && (b0_ x && b1_ x) && sel_multipole_q row col 2 1 then Some D2p
  else if dm_ x && (b0_ x && b1_ x) && sel_multipole_q row col 2 (-1) then Some D2m
  else if dm_ x && b1_ x && sel_multipole_q row col 2 2 then Some D2pp
  else if dm_ x && b1_ x && sel_multipole_q row col 2 (-2) then Some D2mm else None.
Definition slot_eqb (a b : slot) : bool :=
  match a, b with
  | E0, E0 | Ep, Ep | Em, Em | B0, B0 | Bp, Bp | Bm, Bm | D00, D00 | D20, D20 | D2p, D2p | D2m, D2m | D2pp, D2pp | D2mm, D2mm => true
  | _, _ => false
  end.

Section Build.
Variable tol : R.
(** getElectricMomentum, getMagneticMomentum, getDiamagnetism(row, col, kappa) *)
Variable dE dB : one -> one -> R.
Variable dD : nat -> one -> one -> R.
Definition has (x : slot) (o : option slot) : bool := match o with Some y => slot_eqb x y | None => false end.
(** the entries of one pair of states in the matrix x *)
Definition field_entry (fl : flags) (x : slot) (row col : one) : list triplet :=
  if (idx row <? idx col)%Z then [] else
  let put (v : R) : list triplet := if above tol v then [(Z.to_nat (idx row), Z.to_nat (idx col), ofR v)] else [] in
  match x with
  | E0 | Ep | Em => if has x (chainE fl row col) then put (dE row col) else []
  | B0 | Bp | Bm => if has x (chainB fl row col) then put (dB row col) else []
  | D00 => if has x (chainD fl row col) then put (dD 0 row col) else []
  | _ => if has x (chainD fl row col) then put (dD 2 row col) else []
  end.
Definition field_triplets (fl : flags) (x : slot) (names : list one) : list triplet :=
  flat_map (fun col => flat_map (fun row => field_entry fl x row col) names) names.
(** compress *)
Definition field_matrix (fl : flags) (x : slot) (b : names_one) : res (mat CR) :=
  let d := Z.to_nat (dim1 b) in let t := field_triplets fl x (names1 b) in
  if inside d t then Ok (mtrip d d t) else UB.

(** HamiltonianOne.cpp:481-486, component by component *)
Definition lerp (a b : CR) (t : R) : CR := cadd a (cmul (t, 0) (csub b a)).
Definition lerp3 (a b : sph) (t : R) : sph := Sph (lerp (s_m a) (s_m b) t) (lerp (s_0 a) (s_0 b) t) (lerp (s_p a) (s_p b) t).
(** HamiltonianOne.cpp:471 *)
Definition normalized_position (n step : nat) : R := if Nat.ltb 1 n then INR step / (INR n - 1) else 0.
Definition minus (A B : mat CR) : mat CR := madd A (mscale (ofR (-1)) B).
(** HamiltonianOne.cpp:609-618 *)
Definition assemble (energies : mat CR) (M : slot -> mat CR) (e b : sph) : mat CR :=
  let by_ x c := mscale c (M x) in
  minus (minus (madd (madd (minus (madd (minus (minus (madd (madd (madd (minus energies
    (by_ E0 (s_0 e))) (by_ Ep (s_m e))) (by_ Em (s_p e))) (by_ B0 (s_0 b))) (by_ Bp (s_m b))) (by_ Bm (s_p b)))
    (by_ D00 (csub (cmul (s_0 b) (s_0 b)) (cmul (cmul (2, 0) (s_p b)) (s_m b)))))
    (by_ D20 (cadd (cmul (s_0 b) (s_0 b)) (cmul (s_p b) (s_m b)))))
    (mscale (s_m b) (mscale (s_0 b) (by_ D2p (ofR (sqrt 3))))))
    (mscale (s_p b) (mscale (s_0 b) (by_ D2m (ofR (sqrt 3))))))
    (mscale (s_m b) (mscale (s_m b) (by_ D2pp (ofR (sqrt (3 / 2)))))))
    (mscale (s_p b) (mscale (s_p b) (by_ D2mm (ofR (sqrt (3 / 2)))))).
(** HamiltonianOne.cpp:176-195: spherical components and existence of the fields *)
Definition spherical_fields (isreal : bool) (f : fields) : res (sph * sph * sph * sph) :=
  do! a <- change_to_spherical isreal (minE f);
  do! b <- change_to_spherical isreal (maxE f);
  do! c <- change_to_spherical isreal (minB f);
  do! d <- change_to_spherical isreal (maxB f);
  Ok (a, b, c, d).
Definition flags_of (f : fields) (e e' b b' : sph) : flags :=
  Flags (nonzero (s_0 e) || nonzero (s_0 e')) (nonzero (s_p e) || nonzero (s_p e'))
        (nonzero (s_0 b) || nonzero (s_0 b')) (nonzero (s_p b) || nonzero (s_p b')) (diamagnetism f).
(** The total matrix of a step, as the eigensolver reads it (the lower triangle).  [b], [en]: the states and their energies after the
    restriction in energy (NecessaryModel.one_atom). *)
Definition slots : list slot := [E0; Ep; Em; B0; Bp; Bm; D00; D20; D2p; D2m; D2pp; D2mm].
Fixpoint all_matrices (fl : flags) (b : names_one) (l : list slot) : res (list (mat CR)) :=
  match l with [] => Ok [] | x :: l => do! m <- field_matrix fl x b; do! r <- all_matrices fl b l; Ok (m :: r) end.
Definition slot_number (x : slot) : nat := match x with E0 => 0 | Ep => 1 | Em => 2 | B0 => 3 | Bp => 4 | Bm => 5 | D00 => 6 | D20 => 7 | D2p => 8 | D2m => 9 | D2pp => 10 | D2mm => 11 end.
Definition hamiltonian_at (isreal : bool) (f : fields) (b : names_one) (en : list R) (step : nat) : res (mat CR) :=
  do! s <- spherical_fields isreal f;
  let '(e, e', c, c') := s in
  let fl := flags_of f e e' c c' in
  do! ms <- all_matrices fl b slots;
  let t := normalized_position (nsteps f) step in
  let d := Z.to_nat (dim1 b) in
  let energies : mat CR := Mat d d (fun i k => if Nat.eqb i k then ofR (nth i en 0) else ofR 0) in
  Ok (lowerView (assemble energies (fun x => nth (slot_number x) ms (@mzero CR d d)) (lerp3 e e' t) (lerp3 c c' t))).
End Build.
