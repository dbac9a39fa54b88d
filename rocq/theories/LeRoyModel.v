(** Model of the warning about small distances: SystemTwo::checkDistance (SystemTwo.cpp:1537-1577) and the member
    minimal_le_roy_radius.  No proofs.

    Doubles are real numbers, with NaN and with std::numeric_limits<double>::max(), the value that stands for "unknown".
    What happens to the list of states is reduced to its effect on the list (the methods themselves: SystemModel.v). *)
From Coq Require Import ZArith Reals List Bool.
Import ListNotations.
From Verif Require Import Base.
Set Implicit Arguments.
Local Open Scope R_scope.

Section LeRoy.
Variable St : Type.
(** operator== of StateTwo *)
Variable seqb : St -> St -> bool.
(** isArtificial(0) || isArtificial(1) *)
Variable artificial : St -> bool.
(** getNStar(cache) (State.cpp:258-260), getL(); may throw (quantum defects) *)
Variable nstar : St -> res (R * R).
Variable ell : St -> Z * Z.
(** cache.getRadial(state_array[i], state_array[i], 2) for i = 0, 1 (State.cpp:265-268); may throw *)
Variable r2 : St -> res (R * R).
(** au2um (Constants.hpp) *)
Variable au2um : R.

Inductive dbl := Dmax | Nan | Num (x : R).
(** a < b with b possibly "max" *)
Definition below (a : R) (b : dbl) : bool := match b with Dmax => true | Nan => false | Num y => if Rlt_dec a y then true else false end.

(** 2 * (sqrt a + sqrt b) *)
Definition twice_roots (f a b : R) : dbl := if Rlt_dec a 0 then Nan else if Rlt_dec b 0 then Nan else Num (f * (sqrt a + sqrt b)).
(** the hydrogenic <r^2> for the effective principal quantum number, in atomic units (SystemTwo.cpp:1553-1555) *)
Definition mean_sq (n : R) (l : Z) : R := 1 / 2 * n * n * (5 * n * n + 1 - 3 * IZR l * (IZR l + 1)).
(** SystemTwo.cpp:1550-1555 *)
Definition estimate (s : St) : res dbl :=
  do! n <- nstar s ; Ok (twice_roots (2 * au2um) (mean_sq (fst n) (fst (ell s))) (mean_sq (snd n) (snd (ell s)))).
(** StateTwo::getLeRoyRadius (State.cpp:264-269) *)
Definition leroy (s : St) : res dbl := do! r <- r2 s ; Ok (twice_roots 2 (fst r) (snd r)).

(** the members used here: the states, minimal_le_roy_radius *)
Record system := System { states : list St; radius : dbl }.

(** SystemTwo.cpp:1544-1562: the loop; the member itself holds the smallest estimate *)
Fixpoint search (l : list St) (best : dbl) (crucial : option St) : dbl * option St * res unit :=
  match l with
  | [] => (best, crucial, Ok tt)
  | s :: l =>
      if artificial s then search l best crucial else
      match estimate s with
      | Ok (Num e) => if below e best then search l (Num e) (Some s) else search l best crucial
      | Ok Nan => search l best crucial
      | Ok Dmax => search l best crucial
      | Throw => (best, crucial, Throw)
      | UB => (best, crucial, UB)
      end
  end.
(** SystemTwo.cpp:1541-1569 *)
Definition look_up (o : system) : system * res unit :=
  match radius o with
  | Dmax =>
      match search (states o) Dmax None with
      | (best, None, Ok _) => (System (states o) (Num 0), Ok tt)
      | (best, Some s, Ok _) =>
          match leroy s with
          | Ok r => (System (states o) r, Ok tt)
          | Throw => (System (states o) best, Throw)
          | UB => (System (states o) best, UB)
          end
      | (best, _, Throw) => (System (states o) best, Throw)
      | (best, _, UB) => (System (states o) best, UB)
      end
  | _ => (o, Ok tt)
  end.
(** checkDistance as a whole; the result is the radius in the warning, if one is printed (1571-1576) *)
Definition checkDistance (d : R) (o : system) : system * res (option dbl) :=
  match look_up o with
  | (o', Ok _) => (o', Ok (if below d (radius o') then Some (radius o') else None))
  | (o', Throw) => (o', Throw)
  | (o', UB) => (o', UB)
  end.

(** What a program does with a system of two atoms, as far as the states are concerned.
    [Build d]: initializeInteraction at distance [d] (buildInteraction; buildHamiltonian if a new one is required); before it buildBasis
    throws if there are no states (SystemBase.cpp:555-558).
    [Far]: the same without a distance, nothing is checked (SystemTwo.cpp:657-659).
    [Create l]: initializeBasis (SystemTwo.cpp:202-649) of an empty list; onStatesChange is not called.
    [Restrict keep]: updateEverything (SystemBase.cpp:1560-1638) removes states and calls onStatesChange (1528).
    [Add l]: add (SystemBase.cpp:866-877), states of the other system that are not there yet are appended.
    [Unitarize l]: unitarize (SystemBase.cpp:762-786), the states are replaced by artificial ones. *)
Inductive op := Build (d : R) | Far | Create (l : list St) | Restrict (keep : St -> bool) | Add (l : list St) | Unitarize (l : list St).
Definition append_new (l new : list St) : list St :=
  fold_left (fun acc s => if existsb (fun t => seqb t s) acc then acc else acc ++ [s]) new l.
Definition step (o : system) (a : op) : system * res (option dbl) :=
  match a with
  | Build d => match states o with [] => (o, Throw) | _ => checkDistance d o end
  | Far => (o, Ok None)
  | Create l => match states o with [] => (System l (radius o), Ok None) | _ => (o, Ok None) end
  | Restrict keep => (System (filter keep (states o)) Dmax, Ok None)
  | Add l => (System (append_new (states o) l) (radius o), Ok None)
  | Unitarize l => (System l (radius o), Ok None)
  end.
(** SystemTwo(...): no states, minimal_le_roy_radius = max (SystemTwo.cpp:33-62) *)
Definition fresh : system := System [] Dmax.
(** a history; the exceptions are caught by the program *)
Fixpoint run (o : system) (h : list op) : system * list (res (option dbl)) :=
  match h with
  | [] => (o, [])
  | a :: h => let (o1, r) := step o a in let (o2, rs) := run o1 h in (o2, r :: rs)
  end.
End LeRoy.
