(** Model of SystemBase (SystemBase.hpp, SystemBase.cpp): life cycle of a system.
    No proofs in this file.

    Simplifications (see DESIGN.md): scalars are exact (Matrix.v); the
    virtual methods of the derived classes are parameters of the section
    ([v_init], [v_keys], [v_op], [v_rot], [v_compat], [qvalid]); the answers of
    the eigenvalue solver are an argument of the call; std::hash-based
    labels of unitarize are produced by a parameter function [v_label];
    warnings printed to stderr are dropped. *)
From Verif Require Import Base Matrix LookupModel.
From Coq Require Import ZArith Bool Arith List.
Import ListNotations.
Set Implicit Arguments.

(** SystemBase.hpp:295-299: range_n, range_l, range_j, range_m.  The float
    ranges of j and m hold doubled values. *)
Record ranges : Type := Ranges { rg_n : list Z; rg_l : list Z; rg_j : list Z; rg_m : list Z }.

Definition is_nil {A} (l : list A) : bool := match l with [] => true | _ => false end.

(** SystemBase.cpp:538-539: [range_n.empty() && range_l.empty() && ...] *)
Definition ranges_empty (r : ranges) : bool :=
  is_nil (rg_n r) && is_nil (rg_l r) && is_nil (rg_j r) && is_nil (rg_m r).

Definition no_ranges : ranges := Ranges [] [] [] [].

Section System.
Context {K : StarRing} {State Param Key Angle : Type}.

(** State::operator== *)
Variable seqb : State -> State -> bool.
(** isGeneralized (as used by getStateIndex, SystemBase.cpp:1089-1102) *)
Variable sgen : State -> bool.
(** Equality of the keys of the maps interaction_efield, ... *)
Variable keqb : Key -> Key -> bool.

(** Restrictions in force when the basis is built (SystemBase.hpp:295-299). *)
Record request : Type := Request {
  rq_rg : ranges; rq_emin : option K; rq_emax : option K; rq_add : list State }.

(** checkIsQuantumstateValid (SystemBase.cpp:1385-1411); concrete versions in RangeModel.v. *)
Variable qvalid : ranges -> State -> bool.
(** initializeBasis of the derived class: the entries of [states], and the
    matrices unless it threw.  [states] is already filled when it throws
    (SystemOne.cpp:163-331, SystemTwo.cpp:202-649). *)
Variable v_init : Param -> request -> list (nat * State) * res (mat K * mat K).
(** addInteraction of the derived class: the operators that are added to
    the Hamiltonian with their coefficients, for the current parameters
    (SystemOne.cpp:576-627, SystemTwo.cpp:1337-1364). *)
Variable v_keys : Param -> list (Key * K).
(** initializeInteraction: matrix element between two states, zero if one
    of them is artificial (SystemOne.cpp:434-497). *)
Variable v_op : Key -> State -> State -> K.
(** buildStaterotator (SystemOne.cpp:688-713): triplets of the rotator. *)
Variable v_rot : Angle -> list (nat * State) -> list (nat * nat * K).
(** incorporate (SystemOne.cpp:719-768): combined parameters or exception. *)
Variable v_compat : Param -> Param -> res Param.
(** unitarize: label of the artificial state made from the list of states
    and one basis vector (SystemBase.cpp:766-787). *)
Variable v_label : list State -> (nat -> K) -> nat -> State.

(** SystemBase.hpp:292-310, data members.  "Empty" matrices have size 0. *)
Record sys : Type := Sys {
  states : list (nat * State);
  bv : mat K; ham : mat K;
  bv_up : mat K; ham_up : mat K;
  contained : bool; required : bool; memsave : bool;
  rg : ranges; emin : option K; emax : option K; toadd : list State;
  par : Param; ops : list (Key * mat K); thr : K }.

Definition mempty : mat K := mzero 0 0.

(** SystemBase.cpp:1299-1307 constructors, hpp:294-303 default values. *)
Definition new_sys (p : Param) (ms : bool) (th : K) : sys :=
  Sys [] mempty mempty mempty mempty false false ms no_ranges None None [] p [] th.

Definition set_states x s := Sys x (bv s) (ham s) (bv_up s) (ham_up s) (contained s) (required s)
  (memsave s) (rg s) (emin s) (emax s) (toadd s) (par s) (ops s) (thr s).
Definition set_mats b h bu hu s := Sys (states s) b h bu hu (contained s) (required s)
  (memsave s) (rg s) (emin s) (emax s) (toadd s) (par s) (ops s) (thr s).
Definition set_flags c r s := Sys (states s) (bv s) (ham s) (bv_up s) (ham_up s) c r
  (memsave s) (rg s) (emin s) (emax s) (toadd s) (par s) (ops s) (thr s).
Definition set_restr g a b t s := Sys (states s) (bv s) (ham s) (bv_up s) (ham_up s) (contained s) (required s)
  (memsave s) g a b t (par s) (ops s) (thr s).
Definition set_par p s := Sys (states s) (bv s) (ham s) (bv_up s) (ham_up s) (contained s) (required s)
  (memsave s) (rg s) (emin s) (emax s) (toadd s) p (ops s) (thr s).
Definition set_ops o s := Sys (states s) (bv s) (ham s) (bv_up s) (ham_up s) (contained s) (required s)
  (memsave s) (rg s) (emin s) (emax s) (toadd s) (par s) o (thr s).

Definition nonempty (m : mat K) : bool := negb (msize m =? 0)%nat.

(** ** Restrictions *)

(** SystemBase.cpp:89-134 restrictN/L/J/M and restrictEnergy on top of the current ones. *)
Definition restrict (g : ranges) (a b : option K) (s : sys) : sys := set_restr g a b (toadd s) s.

(** SystemBase.cpp:140-148; states_to_add is a std::set ordered by
    operator<; the model keeps insertion order and refuses duplicates. *)
Definition add_states (l : list State) (s : sys) : sys :=
  set_restr (rg s) (emin s) (emax s)
    (fold_left (fun acc x => if existsb (seqb x) acc then acc else acc ++ [x]) l (toadd s)) s.

(** SystemBase.cpp:1545-1553 *)
Definition forget (s : sys) : sys := set_restr no_ranges None None [] s.

(** SystemBase.cpp:1414-1419.  The sentinels lowest()/max() are [None]. *)
Definition energyValid (s : sys) (e : K) : bool :=
  (match emin s with None => true | Some a => sltre a e end) &&
  (match emax s with None => true | Some b => sltre e b end).

(** push_back on the multi_index container: refused if an equal state is present
    (unique hashed index, SystemBase.hpp:60-75). *)
Definition tpush (tbl : list (nat * State)) (i : nat) (x : State) : list (nat * State) :=
  match tfind seqb tbl x with Some _ => tbl | None => tbl ++ [(i, x)] end.

(** ** Transformations (SystemBase.cpp:1421-1498) *)

(** SystemBase.cpp:1436-1445 *)
Definition applyLeft (T : mat K) (s : sys) : sys :=
  set_mats (mmul T (bv s)) (ham s)
    (if nonempty (bv_up s) then mmul T (bv_up s) else bv_up s) (ham_up s) s.

(** transformInteraction (SystemOne.cpp:634-649) *)
Definition transformInteraction (T : mat K) (s : sys) : sys :=
  set_ops (map (fun e => (fst e, mconj T (snd e))) (ops s)) s.

(** deleteInteraction (SystemOne.cpp:655-661) *)
Definition deleteInteraction (s : sys) : sys := set_ops [] s.

(** Eigen requires matching dimensions in products and sums (eigen_assert;
    undefined behaviour when assertions are compiled out).  The products
    and sums of matrices kept by the class for later use, whose dimensions can differ from those
    of the current ones, are guarded by these tests; a violation is outcome [UB]. *)
Definition square (n : nat) (A : mat K) : bool := (nr A =? n)%nat && (nc A =? n)%nat.
Definition ops_fit (n : nat) (s : sys) : bool := forallb (fun e => square n (snd e)) (ops s).
Definition caches_fit (n : nat) (s : sys) : bool :=
  (negb (nonempty (bv_up s)) || (nc (bv_up s) =? n)%nat) &&
  (negb (nonempty (ham_up s)) || square n (ham_up s)).
Definition right_fits (n : nat) (s : sys) : bool := ops_fit n s && caches_fit n s.

(** SystemBase.cpp:1456-1473 *)
Definition applyRight (T : mat K) (s : sys) : sys :=
  let s1 := transformInteraction T s in
  set_mats (mmul (bv s1) T) (mconj T (ham s1))
    (if nonempty (bv_up s1) then mmul (bv_up s1) T else bv_up s1)
    (if nonempty (ham_up s1) then mconj T (ham_up s1) else ham_up s1) s1.

(** SystemBase.cpp:1475-1498: the triplets are (idx_new, entry.idx, 1). *)
Fixpoint enum_push (tbl : list (nat * State)) (i : nat) (l : list (nat * State)) : list (nat * State) :=
  match l with
  | [] => tbl
  | e :: l' => enum_push (tpush tbl i (snd e)) (S i) l'
  end.
Definition removeStates (f : nat * State -> bool) (s : sys) : sys :=
  let kept := filter f (states s) in
  applyLeft (madj (msel (nr (bv s)) (map fst kept))) (set_states (enum_push [] 0 kept) s).

(** SystemBase.cpp:1591-1600: squared norm of a column *)
Definition colsq (B : mat K) (j : nat) : K := bsum (nr B) (fun i => smul (sconj (at_ B i j)) (at_ B i j)).
(** SystemBase.cpp:1612-1619: squared norm of a row *)
Definition rowsq (B : mat K) (i : nat) : K := bsum (nc B) (fun j => smul (sconj (at_ B i j)) (at_ B i j)).

(** SystemBase.cpp:1586-1603: columns that are kept *)
Definition kept_cols (s : sys) : list nat :=
  filter (fun j => energyValid s (at_ (ham s) j j) && sltre (thr s) (colsq (bv s) j))
    (seq 0 (nc (bv s))).

(** SystemBase.cpp:1560-1638.  The request (ranges, window) is read from the
    unchanged members.  onStatesChange only concerns SystemTwo (Le Roy radius). *)
Definition updateEverything (s : sys) : sys * res unit :=
  let s1 := if ranges_empty (rg s) then s
            else removeStates (fun e => qvalid (rg s) (snd e)) s in
  let finish s2 := if is_nil (toadd s2) then (forget s2, Ok tt) else (s2, Throw) in
  if ranges_empty (rg s) && match emin s with None => true | _ => false end
                         && match emax s with None => true | _ => false end
  then finish s1
  else if negb (right_fits (nc (bv s1)) s1) then (s1, UB)
  else
    let t := applyRight (msel (nc (bv s1)) (kept_cols s1)) s1 in
    finish (removeStates (fun e => sltre (thr t) (rowsq (bv t) (fst e))) t).

(** SystemBase.cpp:526-562 *)
Definition buildBasis (s : sys) : sys * res unit :=
  if negb (Bool.eqb (msize (ham s) =? 0)%nat (is_nil (states s))
        && Bool.eqb (msize (ham s) =? 0)%nat (msize (bv s) =? 0)%nat)
  then (s, Throw)
  else if negb (is_nil (states s)) && is_nil (toadd s) && ranges_empty (rg s)
       && match emin s with None => true | _ => false end
       && match emax s with None => true | _ => false end
  then (s, Ok tt)
  else
    let '(s1, r) :=
      if is_nil (states s) then
        match v_init (par s) (Request (rg s) (emin s) (emax s) (toadd s)) with
        | (tbl, Ok (b, h)) => (forget (set_mats b h (bv_up s) (ham_up s) (set_states tbl s)), Ok tt)
        | (tbl, Throw) => (set_states tbl s, Throw)
        | (tbl, UB) => (set_states tbl s, UB)
        end
      else updateEverything s in
    match r with
    | Ok _ => if (nr (bv s1) =? 0)%nat then (s1, Throw)
              else if (nc (bv s1) =? 0)%nat then (s1, Throw) else (s1, Ok tt)
    | _ => (s1, r)
    end.

(** Sequencing: run [g] on the state left by [f] if [f] returned normally. *)
Definition andThen (f : sys -> sys * res unit) (g : sys -> sys * res unit) (s : sys) : sys * res unit :=
  match f s with (s1, Ok _) => g s1 | (s1, r) => (s1, r) end.

(** initializeInteraction (SystemOne.cpp:338-569): operators needed for the
    current parameters that are not stored yet are computed from the
    triplets (r.idx, c.idx, value) and transformed to the current basis.
    Operators of index -q are obtained in the code from the adjoint of
    those of index q; that they agree with their matrix elements is C14/C31. *)
Definition op_matrix (k : Key) (tbl : list (nat * State)) : mat K :=
  mtrip (length tbl) (length tbl)
    (flat_map (fun c => map (fun r => (fst r, fst c, v_op k (snd r) (snd c))) tbl) tbl).
Definition has_op (k : Key) (l : list (Key * mat K)) : bool := existsb (fun e => keqb (fst e) k) l.
Definition initializeInteraction (s : sys) : sys :=
  set_ops
    (fold_left (fun acc k => if has_op k acc then acc
                             else acc ++ [(k, mconj (bv s) (op_matrix k (states s)))])
       (map fst (v_keys (par s))) (ops s)) s.

(** [interaction[k]] (operator[] inserts an empty matrix if absent). *)
Definition get_op (k : Key) (l : list (Key * mat K)) : mat K :=
  match find (fun e => keqb (fst e) k) l with Some e => snd e | None => mempty end.

(** addInteraction (SystemOne.cpp:576-627); adding operators of another
    dimension than the Hamiltonian is UB. *)
Definition keys_fit (s : sys) : bool :=
  forallb (fun e => square (nr (ham s)) (get_op (fst e) (ops s))) (v_keys (par s)).
Definition addInteraction (s : sys) : sys :=
  set_mats (bv s)
    (fold_left (fun h e => madd h (mscale (snd e) (get_op (fst e) (ops s)))) (v_keys (par s)) (ham s))
    (bv_up s) (ham_up s) s.

(** SystemBase.cpp:474-513 *)
Definition buildHamiltonian : sys -> sys * res unit :=
  andThen buildBasis (fun s =>
    if required s then
      let go s1 :=
        let s2 := initializeInteraction s1 in
        if negb (keys_fit s2) then (s2, UB) else
        let s3 := addInteraction s2 in
        let s4 := if memsave s3 then deleteInteraction s3 else s3 in
        (set_flags true false s4, Ok tt) in
      if contained s then
        if memsave s || negb (nonempty (bv_up s)) || negb (nonempty (ham_up s)) then (s, Throw)
        else go (set_mats (bv_up s) (ham_up s) (bv_up s) (ham_up s) s)
      else if memsave s then go s
      else go (set_mats (bv s) (ham s) (bv s) (ham s) s)
    else (s, Ok tt)).

(** SystemBase.cpp:516-523 *)
Definition buildInteraction : sys -> sys * res unit :=
  andThen buildBasis (fun s => (initializeInteraction s, Ok tt)).

(** SystemBase.cpp:694-746 with threshold 0.  [isdiag] is the answer of
    checkIsDiagonal (lines 1344-1356, tolerance 1e-12), [U], [D] are the eigenvectors and the
    diagonal matrix of eigenvalues returned by the solver. *)
Definition diagonalize (isdiag : bool) (U D : mat K) : sys -> sys * res unit :=
  andThen buildHamiltonian (fun s =>
    if isdiag then (s, Ok tt)
    else (set_mats (mmul (bv s) U) D (bv_up s) (ham_up s) s, Ok tt)).

(** SystemBase.cpp:748-759 *)
Definition canonicalize : sys -> sys * res unit :=
  andThen buildHamiltonian (fun s =>
    (set_mats (mmul (bv s) (madj (bv s))) (mmul (mmul (bv s) (ham s)) (madj (bv s)))
              (bv_up s) (ham_up s) s, Ok tt)).

(** SystemBase.cpp:761-805 *)
Fixpoint label_push (lab : nat -> State) (tbl : list (nat * State)) (k : nat) (n : nat) : list (nat * State) :=
  match n with
  | O => tbl
  | S n' => label_push lab (tpush tbl k (lab k)) (S k) n'
  end.
Definition unitarize : sys -> sys * res unit :=
  andThen buildHamiltonian (fun s =>
    let n := nc (bv s) in
    let lab k := v_label (map snd (states s)) (fun i => at_ (bv s) i k) (nr (bv s)) in
    let s1 := set_states (label_push lab [] 0 n) s in
    if negb (n =? length (states s1))%nat then (s1, Throw)
    else (set_mats (mid (length (states s1))) (ham s1) mempty mempty s1, Ok tt)).

(** SystemBase.cpp:814-832 *)
Definition rotator (a : Angle) (s : sys) : mat K :=
  mtrip (length (states s)) (length (states s)) (v_rot a (states s)).
Definition rotate (a : Angle) : sys -> sys * res unit :=
  andThen buildHamiltonian (fun s =>
    if negb (ops_fit (nc (bv s)) s) then (s, UB) else
    let s1 := transformInteraction (madj (bv s)) s in
    let s2 := applyLeft (rotator a s) s1 in
    (transformInteraction (bv s2) s2, Ok tt)).

(** SystemBase.cpp:944-972 *)
Fixpoint has_dup (l : list nat) : bool :=
  match l with [] => false | x :: l' => existsb (Nat.eqb x) l' || has_dup l' end.
Definition constrainBasisvectors (idxs : list nat) : sys -> sys * res unit :=
  andThen buildHamiltonian (fun s =>
    if has_dup idxs then (s, Throw)
    else if existsb (fun i => nc (bv s) <=? i)%nat idxs then (s, Throw)
    else if negb (right_fits (nc (bv s)) s) then (s, UB)
    else (applyRight (msel (nc (bv s)) idxs) s, Ok tt)).

(** SystemBase.cpp:1242-1251.  Eigen's dot() conjugates its first argument. *)
Definition ham_entry (B H : mat K) (i j : nat) : K :=
  bsum (nc B) (fun l => smul (sconj (bsum (nc B) (fun k => smul (at_ B i k) (at_ H k l)))) (at_ B j l)).
Definition getHamiltonianEntry (a b : State) (s : sys) : sys * res K :=
  match buildHamiltonian s with
  | (s1, Ok _) =>
      (s1, do! i <- stateIndex seqb sgen (states s1) a ;
           do! j <- stateIndex seqb sgen (states s1) b ;
           Ok (ham_entry (bv s1) (ham s1) i j))
  | (s1, Throw) => (s1, Throw)
  | (s1, UB) => (s1, UB)
  end.

(** The matrix tmp of SystemBase.cpp:1264-1269 and 1283-1288. *)
Definition entry_tmp (n i j : nat) (v : K) : mat K :=
  mtrip n n ((i, j, v) :: if (i =? j)%nat then [] else [(j, i, sconj v)]).
Definition bump (i j : nat) (v : K) (s : sys) : sys :=
  set_mats (bv s) (madd (ham s) (mconj (bv s) (entry_tmp (length (states s)) i j v)))
           (bv_up s) (ham_up s) s.

(** SystemBase.cpp:1253-1272 *)
Definition setHamiltonianEntry (a b : State) (v : K) : sys -> sys * res unit :=
  andThen buildHamiltonian (fun s =>
    match (do! i <- stateIndex seqb sgen (states s) a ;
           do! j <- stateIndex seqb sgen (states s) b ; Ok (i, j)) with
    | Ok (i, j) => (bump i j (ssub v (ham_entry (bv s) (ham s) i j)) s, Ok tt)
    | Throw => (s, Throw)
    | UB => (s, UB)
    end).

(** SystemBase.cpp:1274-1291 *)
Definition addHamiltonianEntry (a b : State) (v : K) : sys -> sys * res unit :=
  andThen buildHamiltonian (fun s =>
    match (do! i <- stateIndex seqb sgen (states s) a ;
           do! j <- stateIndex seqb sgen (states s) b ; Ok (i, j)) with
    | Ok (i, j) => (bump i j v s, Ok tt)
    | Throw => (s, Throw)
    | UB => (s, UB)
    end).

(** SystemBase.cpp:1216-1240: [|v| > sqrt(0.5)] is written [1 < 2|v|^2]. *)
Definition dominant (v : K) : bool :=
  sltre s1 (sadd (smul (sconj v) v) (smul (sconj v) v)).
Definition main_row (B : mat K) (j : nat) : option nat :=
  find (fun i => dominant (at_ B i j)) (seq 0 (nr B)).
Fixpoint main_triplets (B : mat K) (cols : list nat) : list (nat * nat * K) :=
  match cols with
  | [] => []
  | j :: cols' => match main_row B j with
                  | Some i => (i, j, s1) :: main_triplets B cols'
                  | None => main_triplets B cols'
                  end
  end.
Definition forgetStatemixing (isdiag : bool) (U D : mat K) : sys -> sys * res unit :=
  andThen (diagonalize isdiag U D) (fun s =>
    let tr := main_triplets (bv s) (seq 0 (nc (bv s))) in
    if (length tr <? nc (bv s))%nat then (s, Throw)
    else (set_mats (mtrip (nr (bv s)) (nc (bv s)) tr) (ham s) (bv_up s) (ham_up s) s, Ok tt)).

(** onParameterChange (SystemBase.cpp:1312-1329) followed by the assignment
    of the parameters (SystemOne.cpp:57-132, SystemTwo.cpp:90-141). *)
Definition setParam (p : Param) (s : sys) : sys * res unit :=
  if negb (Bool.eqb (nonempty (bv_up s)) (nonempty (ham_up s))) then (s, Throw)
  else if contained s && negb (nonempty (bv_up s)) then (s, Throw)
  else (set_par p (set_flags (contained s) true s), Ok tt).

(** ** add (SystemBase.cpp:834-942) *)

(** conservativeResize to [n] rows followed by appending the columns of [A2]. *)
Definition mappend (n : nat) (A A2 : mat K) : mat K :=
  Mat n (nc A + nc A2) (fun i j =>
    if (j <? nc A)%nat then (if (i <? nr A)%nat then at_ A i j else s0)
    else at_ A2 i (j - nc A)).

(** lines 866-882: append unknown states, triplets (newidx, entry.idx, 1) *)
Fixpoint merge_states (tbl : list (nat * State)) (l : list (nat * State))
  : list (nat * State) * list (nat * nat * K) :=
  match l with
  | [] => (tbl, [])
  | (i, x) :: l' =>
      match tfind seqb tbl x with
      | Some k => let '(t, tr) := merge_states tbl l' in (t, (k, i, s1) :: tr)
      | None => let k := length tbl in
                let '(t, tr) := merge_states (tbl ++ [(k, x)]) l' in (t, (k, i, s1) :: tr)
      end
  end.

(** lines 911-921 *)
Definition shifter (n m : nat) : mat K :=
  Mat (n + m) m (fun i j => if (i =? n + j)%nat then s1 else s0).

(** [orth] is the outcome of the orthogonality check (lines 902-909: pruned with 1e-12)
    on the enlarged basis.  [other] is the state of the second system after its buildBasis. *)
Definition add (other : sys) (orth : bool) : sys -> sys * res unit :=
  andThen buildBasis (fun s =>
    match v_compat (par s) (par other) with
    | Throw => (s, Throw)
    | UB => (s, UB)
    | Ok p =>
      let s1 := deleteInteraction (set_par p s) in
      if negb (Bool.eqb (memsave s1) (memsave other)) then (s1, Throw)
      else if negb (Bool.eqb (contained s1) (contained other)) then (s1, Throw)
      else if negb (Bool.eqb (required s1) (required other)) then (s1, Throw)
      else
        let '(tbl, tr) := merge_states (states s1) (states other) in
        let T := mtrip (length tbl) (nr (bv other)) tr in
        let s2 := set_mats (mappend (length tbl) (bv s1) (mmul T (bv other))) (ham s1)
                    (bv_up s1) (ham_up s1) (set_states tbl s1) in
        if negb (Bool.eqb (nonempty (bv_up s2)) (nonempty (bv_up other))) then (s2, Throw)
        else
          let s3 := if nonempty (bv_up s2)
                    then set_mats (bv s2) (ham s2)
                           (mappend (length tbl) (bv_up s2) (mmul T (bv_up other))) (ham_up s2) s2
                    else s2 in
          if negb orth then (s3, Throw)
          else
            let Sh := shifter (nr (ham s3)) (nr (ham other)) in
            let s4 := set_mats (bv s3)
                        (mappend (nr (ham s3) + nr (ham other)) (ham s3) (mmul Sh (ham other)))
                        (bv_up s3) (ham_up s3) s3 in
            if negb (Bool.eqb (nonempty (ham_up s4)) (nonempty (ham_up other))) then (s4, Throw)
            else if nonempty (ham_up s4) then
              if negb ((nr (ham_up s4) =? nr (ham s3))%nat && (nr (ham_up other) =? nr (ham other))%nat)
              then (s4, UB) else
              (set_mats (bv s4) (ham s4) (bv_up s4)
                 (mappend (nr (ham_up s4) + nr (ham_up other)) (ham_up s4) (mmul Sh (ham_up other))) s4, Ok tt)
            else (s4, Ok tt)
    end).

(** ** Calls and histories *)

(** A call of the public interface.  The system argument of add() is given
    by its state after system.buildBasis() (line 838). *)
Inductive call : Type :=
| CSet (p : Param)
| CRestrict (g : ranges) (a b : option K)
| CAddStates (l : list State)
| CBasis
| CBuild
| CBuildInt
| CDiag (isdiag : bool) (U D : mat K)
| CCanon
| CUnitarize
| CRotate (a : Angle)
| CConstrain (idxs : list nat)
| CAdd (other : sys) (orth : bool)
| CSetEntry (a b : State) (v : K)
| CAddEntry (a b : State) (v : K)
| CForgetMixing (isdiag : bool) (U D : mat K).

Definition exec (c : call) (s : sys) : sys * res unit :=
  match c with
  | CSet p => setParam p s
  | CRestrict g a b => (restrict g a b s, Ok tt)
  | CAddStates l => (add_states l s, Ok tt)
  | CBasis => buildBasis s
  | CBuild => buildHamiltonian s
  | CBuildInt => buildInteraction s
  | CDiag i U D => diagonalize i U D s
  | CCanon => canonicalize s
  | CUnitarize => unitarize s
  | CRotate a => rotate a s
  | CConstrain l => constrainBasisvectors l s
  | CAdd o b => add o b s
  | CSetEntry a b v => setHamiltonianEntry a b v s
  | CAddEntry a b v => addHamiltonianEntry a b v s
  | CForgetMixing i U D => forgetStatemixing i U D s
  end.

(** Run of a list of calls; an exception is caught by the caller and the
    next call continues with the state it left behind. *)
Fixpoint run (l : list call) (s : sys) : sys * list (res unit) :=
  match l with
  | [] => (s, [])
  | c :: l' => let '(s1, r) := exec c s in
               let '(s2, rs) := run l' s1 in (s2, r :: rs)
  end.

End System.
