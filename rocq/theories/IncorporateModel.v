(** Model of how add() combines the parameters and the symmetries of two systems: SystemOne::incorporate (SystemOne.cpp:718-768) and
    SystemTwo::incorporate (SystemTwo.cpp:1462-1522), and of getNumBasisvectors and getNumStates (SystemBase.cpp:332-360).
    No proofs in this file. *)
From Coq Require Import ZArith Bool String Arith List.
Import ListNotations.
From Verif Require Import Base StateModel Matrix LookupModel SystemModel RangeModel SettingsModel.
Set Implicit Arguments.

(** operator!= of parity_t (SystemBase.hpp / Symmetry.hpp) *)
Definition parity_eqb (a b : parity) : bool :=
  match a, b with NA, NA => true | EVEN, EVEN => true | ODD, ODD => true | _, _ => false end.
(** std::set: the elements in increasing order; insertion of one element (SystemOne.cpp:755-756, SystemTwo.cpp:1509-1510) *)
Fixpoint set_insert (x : Z) (l : list Z) : list Z :=
  match l with
  | [] => [x]
  | y :: r => if (x <? y)%Z then x :: l else if (x =? y)%Z then l else y :: set_insert x r
  end.
(** insert(begin, end) *)
Definition set_union (l l2 : list Z) : list Z := fold_left (fun s x => set_insert x s) l2 l.
(** size() == size() && std::equal (SystemOne.cpp:746-748, SystemTwo.cpp:1502-1504) *)
Fixpoint same_set (l l2 : list Z) : bool :=
  match l, l2 with
  | [], [] => true
  | x :: r, y :: r2 => (x =? y)%Z && same_set r r2
  | _, _ => false
  end.

(** SystemOne.cpp:742-745, SystemTwo.cpp:1490-1501 *)
Definition merge_parity (a b : parity) : parity := if parity_eqb a b then a else NA.
(** SystemOne.cpp:746-759, SystemTwo.cpp:1502-1513; [None] is {ARB}; the momenta of one atom are doubled *)
Definition merge_rotation (a b : option (list Z)) : option (list Z) :=
  match a, b with
  | None, None => None
  | Some l, Some l2 => if same_set l l2 then Some l else Some (set_union l l2)
  | _, _ => None
  end.

Section Incorporate.
(** the floating-point numbers, with operator== *)
Variable F : Type.
(** the two one-atom systems a SystemTwo was made from (SystemTwo.hpp:80-81) *)
Variable A : Type.
Variable feqb : F -> F -> bool.
(** std::array<double, 3>: operator== compares the elements *)
Definition vec : Type := (F * F * F)%type.
Definition veqb (a b : vec) : bool :=
  let '(a1, a2, a3) := a in let '(b1, b2, b3) := b in feqb a1 b1 && feqb a2 b2 && feqb a3 b3.

(** SystemOne.hpp:75-94: the members a user sets; efield_spherical, bfield_spherical and diamagnetism_terms are functions of them *)
Record one_par := OnePar { o_species : string; o_efield : vec; o_bfield : vec; o_diamagnetism : bool;
  o_charge : Z; o_order : nat; o_distance : F; o_refl : parity; o_rot : option (list Z) }.
(** SystemOne.cpp:718-768: the parameters of the system add() was called for, or an exception *)
Definition incorporate_one (a b : one_par) : res one_par :=
  if negb (String.eqb (o_species a) (o_species b)) then Throw          (* 721-724 *)
  else if negb (veqb (o_efield a) (o_efield b)) then Throw             (* 725-728 *)
  else if negb (veqb (o_bfield a) (o_bfield b)) then Throw             (* 729-735 *)
  else if negb (Bool.eqb (o_diamagnetism a) (o_diamagnetism b)) then Throw  (* 736-739 *)
  else Ok (OnePar (o_species a) (o_efield a) (o_bfield a) (o_diamagnetism a) (o_charge a) (o_order a) (o_distance a)
             (merge_parity (o_refl a) (o_refl b)) (merge_rotation (o_rot a) (o_rot b))).

(** SystemTwo.hpp:79-101; the scalar distance is the length of the vector *)
Record two_par := TwoPar { t_atoms : A; t_species : string * string; t_dx : F; t_dy : F; t_dz : F; t_green : bool; t_surface : F; t_order : nat;
  t_perm : parity; t_inv : parity; t_refl : parity; t_rot : option (list Z) }.
(** SystemTwo.cpp:1462-1522 *)
Definition incorporate_two (a b : two_par) : res two_par :=
  if negb (String.eqb (fst (t_species a)) (fst (t_species b))) then Throw   (* 1464-1467 *)
  else if negb (String.eqb (snd (t_species a)) (snd (t_species b))) then Throw  (* 1468-1471 *)
  else if negb (feqb (t_dx a) (t_dx b)) then Throw   (* 1472-1475 *)
  else if negb (feqb (t_dy a) (t_dy b)) then Throw   (* 1476-1479 *)
  else if negb (feqb (t_dz a) (t_dz b)) then Throw   (* 1480-1483 *)
  else if negb (Nat.eqb (t_order a) (t_order b)) then Throw   (* 1484-1487 *)
  else Ok (TwoPar (t_atoms a) (t_species a) (t_dx a) (t_dy a) (t_dz a) (t_green a) (t_surface a) (t_order a)
             (merge_parity (t_perm a) (t_perm b)) (merge_parity (t_inv a) (t_inv b)) (merge_parity (t_refl a) (t_refl b))
             (merge_rotation (t_rot a) (t_rot b))).
End Incorporate.

Section Numbers.
Context {K : StarRing} {State Param Key : Type}.
Variable seqb : State -> State -> bool.
Variable qvalid : ranges -> State -> bool.
Variable v_init : Param -> @request K State -> list (nat * State) * res (mat K * mat K).
Notation sysT := (@sys K State Param Key).
(** SystemBase.cpp:332-346; outerSize() of a column-major sparse matrix is its number of columns *)
Definition getNumBasisvectors (s : sysT) : sysT * res nat :=
  match buildBasis seqb qvalid v_init s with
  | (s1, Ok _) =>
      if negb (nc (bv s1) =? nc (bv s1))%nat || negb (nc (bv s1) =? nr (ham s1))%nat || negb (nc (bv s1) =? nc (ham s1))%nat
      then (s1, Throw) else (s1, Ok (nc (bv s1)))
  | (s1, Throw) => (s1, Throw)
  | (s1, UB) => (s1, UB)
  end.
(** SystemBase.cpp:348-360 *)
Definition getNumStates (s : sysT) : sysT * res nat :=
  match buildBasis seqb qvalid v_init s with
  | (s1, Ok _) =>
      if negb (nr (bv s1) =? nr (bv s1))%nat || negb (nr (bv s1) =? length (states s1))%nat
      then (s1, Throw) else (s1, Ok (nr (bv s1)))
  | (s1, Throw) => (s1, Throw)
  | (s1, UB) => (s1, UB)
  end.
End Numbers.
