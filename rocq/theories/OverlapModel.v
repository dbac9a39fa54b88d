(** Model of the look-ups on basis vectors in SystemBase: getOverlap, getConnections,
    getBasisvectorIndex and getMainStates (SystemBase.cpp).  No proofs in this file.

    Scalars are exact (Matrix.v).  Where absolute values are compared (getConnections,
    getBasisvectorIndex, getMainStates) the absolute values are rational numbers: they are the finite
    doubles std::abs or cwiseAbs2 returned.  A sparse matrix of such values is the list of its columns,
    a column the list of its stored entries (row, value) in the order of Eigen's InnerIterator. *)
From Verif Require Import Base Matrix LookupModel SystemModel.
From Coq Require Import ZArith QArith Bool Arith Permutation List.
Import ListNotations.
Set Implicit Arguments.
Local Open Scope nat_scope.

Section Overlap.
Context {K : StarRing} {State Param Key Angle : Type}.
Variables (seqb smatch : State -> State -> bool) (sgen : State -> bool).
Variable qvalid : ranges -> State -> bool.
Variable v_init : Param -> @request K State -> list (nat * State) * res (mat K * mat K).
Variable v_rot : Angle -> list (nat * State) -> list (nat * nat * K).
Notation sysT := (@sys K State Param Key).

(** [std::pow(std::abs(z), 2)] *)
Definition sqabs (z : K) : K := smul (sconj z) z.

(** SystemBase.cpp:286-293: product = basisvectors.adjoint() * overlap_states; squared
    absolute values summed along the rows *)
Definition row_weights (B W : mat K) : list K :=
  map (fun k => bsum (nc W) (fun c => sqabs (at_ (mmul (madj B) W) k c))) (seq 0 (nc B)).

(** SystemBase.cpp:268-283 overlap_states: unit vectors, or (rotateStates, SystemOne.cpp:668-689)
    the columns addRotated produces for the selected states *)
Definition overlap_states (a : option Angle) (s : sysT) (idxs : list nat) : mat K :=
  match a with
  | None => msel (length (states s)) idxs
  | Some a => mmul (rotator v_rot a s) (msel (length (states s)) idxs)
  end.

(** SystemBase.cpp:260-296.  An index outside [states] writes a triplet outside the matrix. *)
Definition getOverlapIdx (a : option Angle) (idxs : list nat) (s : sysT) : sysT * res (list K) :=
  match buildBasis seqb qvalid v_init s with
  | (s1, Ok _) =>
      if existsb (fun i => length (states s1) <=? i) idxs then (s1, UB)
      else (s1, Ok (row_weights (bv s1) (overlap_states a s1 idxs)))
  | (s1, Throw) => (s1, Throw)
  | (s1, UB) => (s1, UB)
  end.

(** SystemBase.cpp:228-257 *)
Definition getOverlap (a : option Angle) (gs : list State) (s : sysT) : sysT * res (list K) :=
  match buildBasis seqb qvalid v_init s with
  | (s1, Ok _) => getOverlapIdx a (overlap_rows seqb smatch sgen (states s1) gs) s1
  | (s1, Throw) => (s1, Throw)
  | (s1, UB) => (s1, UB)
  end.
End Overlap.

(** ** Comparisons of absolute values *)

Definition qlt (a b : Q) : bool := negb (Qle_bool b a).

(** The loops [if (value > maxval) { idx = ...; maxval = value; }], e.g. SystemBase.cpp:424-431.
    [None]: the index is still uninitialised. *)
Fixpoint argmax (cur : option nat) (m : Q) (l : list (nat * Q)) : option nat * Q :=
  match l with
  | [] => (cur, m)
  | (i, v) :: l' => if qlt m v then argmax (Some i) v l' else argmax cur m l'
  end.

Definition spm := list (list (nat * Q)).

(** SystemBase.cpp:416-434 rows_with_maxval *)
Definition rows_with_maxval (M : spm) : list (option nat) :=
  map (fun col => fst (argmax None (-1 # 1)%Q col)) M.

(** SystemBase.cpp:437: the transposed matrix, its [k]-th column with increasing column index *)
Fixpoint row_from (j : nat) (M : spm) (k : nat) : list (nat * Q) :=
  match M with
  | [] => []
  | col :: M' => map (fun e => (j, snd e)) (filter (fun e => fst e =? k) col) ++ row_from (S j) M' k
  end.

(** SystemBase.cpp:442-462.  [idx_from] is the number [k] of the visited column.  Reading an
    uninitialised entry of rows_with_maxval is undefined. *)
Fixpoint connect (M : spm) (t : Q) (ks : list nat) : res (list (nat * nat)) :=
  match ks with
  | [] => Ok []
  | k :: ks' =>
      let '(o, m) := argmax None t (row_from 0 M k) in
      do! here <- (if qlt t m then
                     match o with
                     | None => UB
                     | Some j => match nth_error (rows_with_maxval M) j with
                                 | Some (Some i) => Ok (if i =? k then [(k, j)] else [])
                                 | _ => UB
                                 end
                     end
                   else Ok []) ;
      do! rest <- connect M t ks' ;
      Ok (here ++ rest)
  end.

(** SystemBase.cpp:391-467.  [t] is std::sqrt(threshold), [None] (NaN) for a negative
    threshold: all comparisons are false.  [n] is the number of rows of overlap_sqrt. *)
Definition connections (n : nat) (M : spm) (t : option Q) : res (list (nat * nat)) :=
  match t with
  | None => Ok []
  | Some t => connect M t (seq 0 n)
  end.

Section Connections.
Context {K : StarRing} {State Param Key : Type}.
Variable seqb : State -> State -> bool.
(** std::abs of a coefficient, a double *)
Variable absv : K -> Q.
Notation sysT := (@sys K State Param Key).

(** SystemBase.cpp:400-412 *)
Definition transformator (s s' : sysT) : mat K :=
  mtrip (length (states s)) (length (states s'))
    (flat_map (fun e => match tfind seqb (states s) (snd e) with
                        | Some i => [(i, fst e, s1)]
                        | None => []
                        end) (states s')).

(** SystemBase.cpp:415-416 (all coefficients stored, also zeros) *)
Definition overlap_matrix (s s' : sysT) : mat K := mmul (mmul (madj (bv s)) (transformator s s')) (bv s').
Definition columns (A : mat K) : spm :=
  map (fun j => map (fun i => (i, absv (at_ A i j))) (seq 0 (nr A))) (seq 0 (nc A)).

(** SystemBase.cpp:391-467, both bases being built *)
Definition getConnections (t : option Q) (s s' : sysT) : res (list (nat * nat)) :=
  let M := overlap_matrix s s' in connections (nr M) (columns M) t.
End Connections.

(** ** getBasisvectorIndex *)

(** SystemBase.cpp:1135-1147: stored entries of one row with increasing column; -1 if there is none *)
Definition bestColumn (row : list (nat * Q)) : option nat := fst (argmax None (-1 # 1)%Q row).

(** SystemBase.cpp:1194-1211: one visited column [c], with stored entries [col] *)
Definition take_row (col : list (nat * Q)) (got : list (option nat)) : option nat :=
  fst (argmax None (-1 # 1)%Q
         (filter (fun e => match nth_error got (fst e) with Some None => true | _ => false end) col)).
Fixpoint set_nth (l : list (option nat)) (i : nat) (x : nat) : list (option nat) :=
  match l, i with
  | [], _ => []
  | _ :: l', O => Some x :: l'
  | y :: l', S i' => y :: set_nth l' i' x
  end.
Fixpoint assign (M : spm) (cols : list nat) (got : list (option nat)) : res (list (option nat)) :=
  match cols with
  | [] => Ok got
  | c :: cols' =>
      match take_row (nth c M []) got with
      | None => Throw
      | Some i => assign M cols' (set_nth got i c)
      end
  end.

(** SystemBase.cpp:1186-1213.  [perm] is the order std::nth_element leaves indices_available in;
    its iterator begin() + k lies outside the vector when there are more searched states
    ([k]) than basis vectors. *)
Definition basisvectorIndices (M : spm) (k : nat) (perm : list nat) : res (list (option nat)) :=
  if length M <? k then UB else assign M (firstn k perm) (repeat None k).

(** overlap_total of SystemBase.cpp:1182-1183 *)
Definition total (M : spm) (c : nat) : Q := fold_right (fun e a => (snd e + a)%Q) 0%Q (nth c M []).

(** Guarantee of std::nth_element with the comparison of SystemBase.cpp:1188-1191 *)
Definition nth_element_ok (M : spm) (k : nat) (perm : list nat) : Prop :=
  Permutation perm (seq 0 (length M)) /\
  forall a b, In a (firstn k perm) -> In b (skipn k perm) -> qlt (total M a) (total M b) = false.

Section BasisvectorIndex.
Context {K : StarRing} {State Param Key : Type}.
Variable seqb : State -> State -> bool.
Variable sgen : State -> bool.
(** cwiseAbs2 of a coefficient, a double *)
Variable abs2 : K -> Q.
Notation sysT := (@sys K State Param Key).

(** std::set<State> tmp(...); tmp.size() < searched_states.size() (SystemBase.cpp:1158-1163) *)
Fixpoint dup_states (l : list State) : bool :=
  match l with [] => false | x :: l' => existsb (seqb x) l' || dup_states l' end.

(** SystemBase.cpp:1166-1181: the matrix overlap for the searched states found at [rows] *)
Definition search_overlaps (rows : list nat) (s : sysT) : spm :=
  map (fun j => map (fun e => (fst e, abs2 (at_ (bv s) (snd e) j))) (combine (seq 0 (length rows)) rows))
      (seq 0 (nc (bv s))).

(** SystemBase.cpp:1152-1214, the basis being built *)
Definition getBasisvectorIndices (gs : list State) (perm : list nat) (s : sysT) : res (list (option nat)) :=
  if dup_states gs then Throw
  else
    do! rows <- stateIndices seqb sgen (states s) gs ;
    basisvectorIndices (search_overlaps rows s) (length rows) perm.
End BasisvectorIndex.

(** ** getMainStates *)

(** SystemBase.cpp:364-388: row of the first largest stored entry of every column; a column without
    stored entries leaves row_with_maxval uninitialised, a row outside [states] is an invalid access. *)
Fixpoint mainStates {State : Type} (tbl : list (nat * State)) (M : spm) : res (list State) :=
  match M with
  | [] => Ok []
  | col :: M' =>
      match fst (argmax None (-1 # 1)%Q col) with
      | None => UB
      | Some i => match nth_error tbl i with
                  | None => UB
                  | Some e => do! rest <- mainStates tbl M' ; Ok (snd e :: rest)
                  end
      end
  end.
