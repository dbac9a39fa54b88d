(** Model of SystemBase::applySchriefferWolffTransformation (SystemBase.cpp:974-1082).
    No proofs in this file. *)
From Verif Require Import Base Matrix LookupModel SystemModel.
From Coq Require Import ZArith Lia Bool Arith List.
Import ListNotations.
Set Implicit Arguments.

Section SW.
Context {K : StarRing} {State Param Key : Type}.
Variable seqb : State -> State -> bool.
Variable keqb : Key -> Key -> bool.
Variable qvalid : ranges -> State -> bool.
Variable v_init : Param -> @request K State -> list (nat * State) * res (mat K * mat K).
Variable v_keys : Param -> list (Key * K).
Variable v_op : Key -> State -> State -> K.
Notation sysT := (@sys K State Param Key).

(** checkIsUnitary (SystemBase.cpp:1358-1378) and checkIsDiagonal (1344-1356): tests with the
    tolerance 1e-12.  Oracles. *)
Variable isunitary isdiagonal : mat K -> bool.
(** std::nth_element (line 1035): [nth_element k n key] is the rearrangement of 0, ..., n-1 by
    decreasing key, for the position k. *)
Variable nth_element : nat -> nat -> (nat -> K) -> list nat.
(** Eigen's MatrixFunctions: the square root of a matrix; None: the result has NaN as
    first coefficient. *)
Variable msqrt : mat K -> option (mat K).

(** lines 1002-1022: the rows of system0 among the states of the system. *)
Definition embed (tbl tbl0 : list (nat * State)) : res (mat K) :=
  do! l <- fold_left (fun acc e =>
    do! t <- acc ;
    match tfind seqb tbl (snd e) with
    | Some i => Ok (t ++ [(i, fst e, s1)])
    | None => Throw
    end) tbl0 (Ok []) ;
  Ok (mtrip (length tbl) (length tbl0) l).

(** line 1030: overlap of the basis vector b with the vectors B0. *)
Definition overlap (B B0 : mat K) (b : nat) : K :=
  bsum (nc B0) (fun c => smul (sconj (at_ (mmul (madj B) B0) b c)) (at_ (mmul (madj B) B0) b c)).

Definition mneg (A : mat K) : mat K := mscale (sopp s1) A.
(** lines 1061-1064: identity - 2 * projector. *)
Definition reflection (n : nat) (P : mat K) : mat K := madd (mid n) (mneg (mscale (sadd s1 s1) P)).

(** lines 1056-1078, for the selected columns [idx]: the transformator. *)
Definition sw_transformator (n : nat) (B B0 : mat K) (idx : list nat) : option (mat K) :=
  let L := mmul B (msel (nc B) idx) in
  let P0 := mmul B0 (madj B0) in
  let P := mmul L (madj L) in
  match msqrt (mmul (reflection n P0) (reflection n P)) with
  | Some U => Some (mmul (mmul (mmul (madj B) (madj U)) P0) B0)
  | None => None
  end.

(** The whole call.  [isdiag], [U], [D]: as for diagonalize (SystemModel.v).  If there are more vectors in
    system0 than in the system, nth_element and the loop behind it (lines 1033-1043) leave the
    vector of indices: undefined behaviour. *)
Definition schriefferWolff (isdiag : bool) (U D : mat K) (s s0 : sysT) : sysT * sysT * res unit :=
  match diagonalize seqb keqb qvalid v_init v_keys v_op isdiag U D s with
  | (s, Throw) => (s, s0, Throw)
  | (s, UB) => (s, s0, UB)
  | (s, Ok _) =>
    match buildHamiltonian seqb keqb qvalid v_init v_keys v_op s0 with
    | (s0, Throw) => (s, s0, Throw)
    | (s0, UB) => (s, s0, UB)
    | (s0, Ok _) =>
      if negb (isunitary (bv s)) then (s, s0, Throw)
      else if negb (isunitary (bv s0)) then (s, s0, Throw)
      else if negb (isdiagonal (ham s0)) then (s, s0, Throw)
      else match embed (states s) (states s0) with
      | Throw => (s, s0, Throw)
      | UB => (s, s0, UB)
      | Ok E =>
        let B0 := mmul E (bv s0) in
        if nc (bv s) <? nc B0 then (s, s0, UB)
        else
          let idx := firstn (nc B0) (nth_element (nc B0) (nc (bv s)) (overlap (bv s) B0)) in
          match sw_transformator (length (states s)) (bv s) B0 idx with
          | None => (s, s0, Throw)
          | Some T =>
              if negb (right_fits (nc (bv s)) s) then (s, s0, UB)
              else (applyRight T s, s0, Ok tt)
          end
      end
    end
  end.
End SW.
