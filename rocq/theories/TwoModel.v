(** Model of the geometry and of the interaction of SystemTwo (SystemTwo.hpp/.cpp) over the real
    numbers: setters, choice of the approach in initializeInteraction, and the matrix element
    that the interaction contributes for one pair of two-atom states.  No proofs. *)
From Verif Require Import Base FieldModel GreenModel.
From Coq Require Import ZArith Lia Bool Arith Reals List.
Import ListNotations.
Set Implicit Arguments.
Local Open Scope R_scope.

(** std::numeric_limits<double>::max() *)
Definition dmax : R := (2 - / 2 ^ 52) * 2 ^ 1023.

Definition Reqb (a b : R) : bool := if Req_EM_T a b then true else false.
Definition Rltb (a b : R) : bool := if Rlt_dec a b then true else false.

(** SystemTwo.hpp:89-96.  A coordinate is [None] if it is not a finite number (0/0).
    [gsurf]: surface_distance, [None] when it holds the maximal double.
    [gfrozen]: onParameterChange throws (SystemBase.cpp:1313-1329, interaction included and
    unperturbed data deleted). *)
Record geo : Type := Geo {
  gfrozen : bool; gdist : R; gvx : option R; gvy : option R; gvz : option R;
  gtb : bool; gsurf : option R; gord : nat }.

(** SystemTwo.cpp:33-62 *)
Definition newGeo : geo := Geo false dmax (Some 0) (Some 0) (Some dmax) false None 3.

(** a / b * d in doubles, finite or not *)
Definition scale (a : option R) (b d : R) : option R :=
  match a with
  | Some a => if Reqb b 0 then None else Some (a / b * d)
  | None => None
  end.
(** distance_y != 0; true for a number that is not finite *)
Definition nonzeroR (a : option R) : bool := match a with Some a => negb (Reqb a 0) | None => true end.

Inductive gset : Type :=
| EnableGT (b : bool) | SetSurface (d : option R) | SetDistance (d : R)
| SetVector (x y z : R) | SetAngle (a : R) | SetOrder2 (o : nat).

(** SystemTwo.cpp:89-141.  The order is converted from double to unsigned int; [SetOrder2] takes
    the converted value.  [SetSurface None]: the argument is the maximal double. *)
Definition gsetter (c : gset) (g : geo) : geo * res unit :=
  if gfrozen g then (g, Throw) else
  match c with
  | EnableGT b =>
      let g1 := Geo (gfrozen g) (gdist g) (gvx g) (gvy g) (gvz g) b (gsurf g) (gord g) in
      match b, gsurf g with
      | false, Some _ => (g1, Throw)
      | _, _ => (g1, Ok tt)
      end
  | SetSurface None => (Geo (gfrozen g) (gdist g) (gvx g) (gvy g) (gvz g) (gtb g) None (gord g), Ok tt)
  | SetSurface (Some d) => (Geo (gfrozen g) (gdist g) (gvx g) (gvy g) (gvz g) true (Some d) (gord g), Ok tt)
  | SetDistance d =>
      (Geo (gfrozen g) d (scale (gvx g) (gdist g) d) (scale (gvy g) (gdist g) d) (scale (gvz g) (gdist g) d)
           (gtb g) (gsurf g) (gord g), Ok tt)
  | SetVector x y z =>
      (Geo (gfrozen g) (sqrt (x * x + y * y + z * z)) (Some x) (Some y) (Some z)
           (if Reqb y 0 then gtb g else true) (gsurf g) (gord g), Ok tt)
  | SetAngle a =>
      (Geo (gfrozen g) (gdist g) (Some (gdist g * sin a)) (Some 0) (Some (gdist g * cos a))
           (gtb g) (gsurf g) (gord g), Ok tt)
  | SetOrder2 o => (Geo (gfrozen g) (gdist g) (gvx g) (gvy g) (gvz g) (gtb g) (gsurf g) o, Ok tt)
  end.

Fixpoint gsets (g : geo) (h : list gset) : geo :=
  match h with [] => g | c :: h' => gsets (fst (gsetter c g)) h' end.

(** ** Matrix element of one pair of states *)

(** The data the code uses for the row state r and the column state c: q = m_r - m_c,
    selectionRulesMultipoleNew(r, c, kappa) and getElectricMultipole(r, c, kappa) for each atom;
    getElectricDipole is the latter with kappa = 1 (MatrixElementCache.cpp:349-357). *)
Record pdata : Type := PData {
  pq1 : Z; pq2 : Z; psel1 : nat -> bool; psel2 : nat -> bool; pM1 : nat -> R; pM2 : nat -> R }.

Section Entry.
(** coulombs_constant and tolerance (1e-16) *)
Variable kC tol : R.

(** Dipole vector (SystemTwo.cpp:881-900, 901-920, 946-962, 1087-1102): [None] is continue. *)
Definition vecentry (i : nat) (q : Z) (d : R) : option R :=
  match i with
  | O => if Z.eqb (Z.abs q) 1 then Some (1 / sqrt 2 * d * (if Z.eqb q 1 then -1 else 1)) else None
  | S O => if Z.eqb (Z.abs q) 1 then Some (1 / sqrt 2 * d) else None
  | _ => if Z.eqb q 0 then Some d else None
  end.

(** Quadrupole matrix (SystemTwo.cpp:962-1052, 1104-1192) *)
Definition matentry (j k : nat) (q : Z) (m2 m0 : R) : R :=
  match j, k with
  | O, O =>
      if Z.eqb (Z.abs q) 2 then m2 * sqrt (5 / 4)
      else if Z.eqb q 0 then - sqrt (2 / 3) * m2 * sqrt (5 / 4) + sqrt (10 / 3) * m0 * sqrt (1 / 4) else 0
  | O, S O | S O, O =>
      if Z.eqb (Z.abs q) 2 then m2 * sqrt (5 / 4) * (if Z.eqb q 2 then -1 else 1) else 0
  | O, S (S O) | S (S O), O =>
      if Z.eqb (Z.abs q) 1 then m2 * sqrt (5 / 4) * (if Z.eqb q 1 then -1 else 1) else 0
  | S O, S O =>
      if Z.eqb (Z.abs q) 2 then - m2 * sqrt (5 / 4)
      else if Z.eqb q 0 then - sqrt (2 / 3) * m2 * sqrt (5 / 4) + sqrt (10 / 3) * m0 * sqrt (1 / 4) else 0
  | S O, S (S O) | S (S O), S O =>
      if Z.eqb (Z.abs q) 1 then m2 * sqrt (5 / 4) else 0
  | S (S O), S (S O) =>
      if Z.eqb q 0 then sqrt (8 / 3) * m2 * sqrt (5 / 4) + sqrt (10 / 3) * m0 * sqrt (1 / 4) else 0
  | _, _ => 0
  end.

(** val *= imaginary_unit if the key is odd; (real, imaginary) *)
Definition phase (odd : bool) (v : R) : cx := if odd then (0, v) else (v, 0).

(** Green tensor approach, dipole-dipole (SystemTwo.cpp:868-926); [None]: no triplet. *)
Definition dd_val (p : pdata) (i1 i2 : nat) : option cx :=
  if psel1 p 1 && psel2 p 1 then
    match vecentry i1 (pq1 p) (pM1 p 1), vecentry i2 (pq2 p) (pM2 p 1) with
    | Some v1, Some v2 =>
        let val := - kC * v1 * v2 in
        let val := if Nat.eqb i1 1 && Nat.eqb i2 1 then val * -1 else val in
        Some (phase (Nat.odd (3 * i2 + i1)) val)
    | _, _ => None
    end
  else None.

(** Dipole-quadrupole (SystemTwo.cpp:929-1068) *)
Definition dq_val (p : pdata) (i1 i2 i3 : nat) : option cx :=
  if (psel1 p 1 && psel2 p 2) || (psel1 p 1 && psel2 p 0) then
    match vecentry i1 (pq1 p) (pM1 p 1) with
    | Some v =>
        let m := matentry i2 i3 (pq2 p) (pM2 p 2) (pM2 p 0) in
        if Rltb tol (Rabs (v * m)) then
          let val := kC * v * m / sqrt 30 in
          let val := if Nat.eqb i1 1 && (negb (Nat.eqb i2 i3) && (Nat.eqb i2 1 || Nat.eqb i3 1))
                     then val * -1 else val in
          Some (phase (Nat.odd (9 * i3 + 3 * i2 + i1)) val)
        else None
    | None => None
    end
  else None.

(** Quadrupole-dipole (SystemTwo.cpp:1070-1211) *)
Definition qd_val (p : pdata) (i1 i2 i3 : nat) : option cx :=
  if (psel1 p 2 && psel2 p 1) || (psel1 p 0 && psel2 p 1) then
    match vecentry i3 (pq2 p) (pM2 p 1) with
    | Some v =>
        let m := matentry i1 i2 (pq1 p) (pM1 p 2) (pM1 p 0) in
        if Rltb tol (Rabs (v * m)) then
          let val := kC * v * m / sqrt 30 in
          let val := if Nat.eqb i3 1 && (negb (Nat.eqb i1 i2) && (Nat.eqb i1 1 || Nat.eqb i2 1))
                     then val * -1 else val in
          Some (phase (Nat.odd (9 * i3 + 3 * i2 + i1)) val)
        else None
    | None => None
    end
  else None.

Definition three : list nat := [0; 1; 2]%nat.
Definition idx2 : list (nat * nat) := list_prod three three.
Definition idx3s : list (nat * nat * nat) := list_prod (list_prod three three) three.

(** One term of addInteraction (SystemTwo.cpp:1343-1352): interaction[key] * term, the term
    being present only above the tolerance (SystemTwo.cpp:704-739).  For Scalar = double an odd
    key makes imaginary_unit throw (utils.hpp). *)
Definition gterm (isreal : bool) (g : R) (odd : bool) (v : option cx) : res cx :=
  if Rltb tol (Rabs g) then
    match v with
    | Some v => if isreal && odd then Throw else Ok (fst v * g, snd v * g)
    | None => Ok (0, 0)
    end
  else Ok (0, 0).

Fixpoint sumres (l : list (res cx)) : res cx :=
  match l with
  | [] => Ok (0, 0)
  | Ok v :: l' => match sumres l' with Ok s => Ok (cadd v s) | r => r end
  | r :: _ => r
  end.

Definition dd_entry (isreal : bool) (G : mat3) (p : pdata) : res cx :=
  sumres (map (fun ij => let '(i1, i2) := ij in
                         gterm isreal (G i1 i2) (Nat.odd (3 * i2 + i1)) (dd_val p i1 i2)) idx2).
Definition dq_entry (isreal : bool) (G : ten3) (p : pdata) : res cx :=
  sumres (map (fun ijk => let '(i1, i2, i3) := ijk in
                 gterm isreal (G i1 i2 i3) (Nat.odd (9 * i3 + 3 * i2 + i1)) (dq_val p i1 i2 i3)) idx3s).
Definition qd_entry (isreal : bool) (G : ten3) (p : pdata) : res cx :=
  sumres (map (fun ijk => let '(i1, i2, i3) := ijk in
                 gterm isreal (G i1 i2 i3) (Nat.odd (9 * i3 + 3 * i2 + i1)) (qd_val p i1 i2 i3)) idx3s).

(** angle_terms (SystemTwo.cpp:751-776), by key *)
Definition angle_term (angle : R) (key : Z) : R :=
  let t := fun v => if Rltb tol (Rabs v) then v else 0 in
  if Z.eqb key 4 then t (1 - 3 * cos angle ^ 2)
  else if Z.eqb key 2 then t (-1 + 3 / 2 * sin angle ^ 2)
  else if Z.eqb key 5 then t (3 / sqrt 2 * sin angle * cos angle)
  else if Z.eqb key 1 then t (-3 / sqrt 2 * sin angle * cos angle)
  else if Z.eqb key 8 then t (- (3 / 2) * sin angle ^ 2)
  else if Z.eqb key 0 then t (- (3 / 2) * sin angle ^ 2)
  else 0.

(** SystemTwo.cpp:1213-1234 and 1353-1357 *)
Definition angle_key (q1 q2 : Z) : Z :=
  (if q1 <? q2 then 3 * (q1 + 1) + (q2 + 1) else 3 * (q2 + 1) + (q1 + 1))%Z.
Definition angle_entry (angle dist : R) (p : pdata) : R :=
  if psel1 p 1 && psel2 p 1 then
    kC * pM1 p 1%nat * pM2 p 1%nat * angle_term angle (angle_key (pq1 p) (pq2 p)) * (1 / dist ^ 3)
  else 0.

(** boost::math::binomial_coefficient, for arguments 0 <= k <= n *)
Definition binom_coef (n : nat) (k : Z) : R := C n (Z.to_nat k).

(** SystemTwo.cpp:1236-1268: the order-th multipole term *)
Definition mult_val (order : nat) (p : pdata) : R :=
  if Z.eqb (pq1 p + pq2 p) 0 then
    fold_right Rplus 0 (map (fun k1 =>
      let k2 := (order - 1 - k1)%nat in
      if psel1 p k1 && psel2 p k2 then
        kC * (-1) ^ k2
        * sqrt (binom_coef (k1 + k2) (Z.of_nat k1 + pq1 p) * binom_coef (k1 + k2) (Z.of_nat k2 - pq2 p))
        * pM1 p k1 * pM2 p k2
      else 0) (seq 1 (order - 2)))
  else 0.
(** SystemTwo.cpp:1358-1363 *)
Definition mult_entry (ord : nat) (dist : R) (p : pdata) : R :=
  fold_right Rplus 0 (map (fun o => mult_val o p * (1 / dist ^ o)) (seq 3 (ord - 2))).

(** std::atan2(x, z) for x <> 0 *)
Definition atan2 (x z : R) : R :=
  if Rltb 0 z then atan (x / z)
  else if Rltb z 0 then if Rltb 0 x then atan (x / z) + PI else atan (x / z) - PI
  else if Rltb 0 x then PI / 2 else - PI / 2.

(** ** initializeInteraction and addInteraction: SystemTwo.cpp:655-790, 1337-1364.
    What the interaction adds to the Hamiltonian matrix element of the pair, in the canonical
    basis. *)
Definition needs_green (g : geo) : bool :=
  nonzeroR (gvy g) || match gsurf g with Some _ => true | None => false end
  || (nonzeroR (gvx g) && Nat.ltb 3 (gord g)) || gtb g.

Definition cplus (a b : res cx) : res cx := do! x <- a; do! y <- b; Ok (cadd x y).

Definition green_entry (isreal : bool) (g : geo) (x y z : R) (p : pdata) : res cx :=
  if negb (gtb g) then Throw
  else if match gsurf g with Some _ => negb (Reqb y 0) | None => false end then Throw
  else
    do! G <- match gsurf g with
             | Some d => match addSurface d (newGreen x y z) with
                         | (G, Ok _) => Ok G | (_, r) => do! u <- r; Ok (newGreen x y z) end
             | None => Ok (newGreen x y z)
             end;
    if Nat.leb 5 (gord g) then Throw
    else
      cplus (if Nat.leb 3 (gord g) then dd_entry isreal (calcDD G) p else Ok (0, 0))
        (if Nat.leb 4 (gord g) then cplus (dq_entry isreal (calcDQ G) p) (qd_entry isreal (calcQD G) p)
         else Ok (0, 0)).

(** If the coordinates are not finite (0/0), comparisons with 0 by != are true and comparisons of
    the tensor elements with the tolerance are false. *)
Definition interaction_entry (isreal : bool) (g : geo) (p : pdata) : res cx :=
  if Reqb (gdist g) dmax then Ok (0, 0)
  else
    match gvx g, gvy g, gvz g with
    | Some x, Some y, Some z =>
        if needs_green g then green_entry isreal g x y z p
        else if negb (Reqb x 0) then Ok (angle_entry (atan2 x z) (gdist g) p, 0)
        else Ok (mult_entry (gord g) (gdist g) p, 0)
    | _, _, _ =>
        if negb (gtb g) then Throw
        else match gsurf g with
             | Some _ => Throw
             | None => if Nat.leb 5 (gord g) then Throw else Ok (0, 0)
             end
    end.
End Entry.
