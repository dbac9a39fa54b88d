(** Model of the loops of SystemTwo::initializeInteraction over the states (SystemTwo.cpp:846-1330) for a
    given table of states: which entries are computed and how the matrix in the canonical basis is
    completed.  No proofs.

    Simplifications: the matrices of the single keys and their factors (addInteraction, lines 1337-1364) are
    added up entry by entry (interaction_entry, TwoModel.v); the values of the matrix elements are the
    functions [el1], [el2] (MEModel.v); if all states are artificial the checks of the
    settings (lines 685-697) are not executed in the model. *)
From Coq Require Import ZArith Bool Reals List.
Import ListNotations.
From Verif Require Import Base StateModel Matrix FieldModel GreenModel TwoModel MEModel.
Set Implicit Arguments.
Local Open Scope R_scope.

(** selectionRulesMultipoleNew(r, c, kappa) of MatrixElementCache.cpp:67-77; artificial states are skipped before *)
Definition selM (a c : state1) (k : nat) : bool :=
  match selMultipole a c (Z.of_nat k) with Ok b => b | _ => false end.

Section M.
Variable kC tol : R.
Variable isreal : bool.
Variable g : geo.
(** getElectricMultipole(row, column, kappa) of the first and of the second atom *)
Variables el1 el2 : state1 -> state1 -> nat -> R.

(** SystemTwo.cpp:861-862: int q = r.getM - c.getM, and the elements used further below *)
Definition pair_data (r c : state2) : pdata :=
  PData (trunc2 (m2 (fst1 r) - m2 (fst1 c))) (trunc2 (m2 (snd1 r) - m2 (snd1 c)))
    (selM (fst1 r) (fst1 c)) (selM (snd1 r) (snd1 c)) (el1 (fst1 r) (fst1 c)) (el2 (snd1 r) (snd1 c)).

(** SystemTwo.cpp:848-857: artificial states do not interact *)
Definition artificial2 (s : state2) : bool := isArtificial (fst1 s) || isArtificial (snd1 s).
Definition pair_entry (r c : state2) : res cx :=
  if artificial2 c || artificial2 r then Ok (0, 0) else interaction_entry kC tol isreal g (pair_data r c).

(** SystemTwo.cpp:847-860: the pairs (row, column) for which entries are computed *)
Definition computed (tbl : list (nat * state2)) : list ((nat * state2) * (nat * state2)) :=
  flat_map (fun c => map (fun r => (r, c)) (filter (fun r => negb (Nat.ltb (fst r) (fst c))) tbl)) tbl.

(** setFromTriplets: sum of the values stored for (r, c) *)
Definition stored (tbl : list (nat * state2)) (r c : nat) : CR :=
  fold_right (fun e acc => if Nat.eqb (fst (fst e)) r && Nat.eqb (fst (snd e)) c
                           then sadd (s := CR) (match pair_entry (snd (fst e)) (snd (snd e)) with Ok v => v | _ => (0, 0) end) acc
                           else acc) (@s0 CR) (computed tbl).

(** SystemTwo.cpp:1276-1329: selfadjointView<Eigen::Lower>; an exception thrown for one entry ends the method *)
Definition pair_matrix (tbl : list (nat * state2)) : res (mat CR) :=
  if forallb (fun e => match pair_entry (snd (fst e)) (snd (snd e)) with Ok _ => true | _ => false end) (computed tbl)
  then Ok (Mat (length tbl) (length tbl)
             (fun r c => if Nat.leb c r then stored tbl r c else sconj (s := CR) (stored tbl c r)))
  else Throw.
End M.
