(** Model of the restriction of the states in the command line program: HamiltonianTwo.cpp restriction of the one-atom states (186-258),
    symmetries (277-343), list of the necessary pair states (345-387).  No proofs.  j, m and M are doubled integers. *)
From Coq Require Import ZArith Lia Bool List.
Import ListNotations.
From Verif Require Import Base Matrix BasisnamesModel CombineModel.
Set Implicit Arguments.

(** int deltaN, deltaL, deltaJ, deltaM (HamiltonianTwo.hpp:64-67); negative: no restriction *)
Record limits := Limits { dN : Z; dL : Z; dJ : Z; dM : Z }.

(** HamiltonianTwo.cpp:196-214: validN, validL, validJ, validM, each an OR over the initial states *)
Definition valid_state (d : limits) (initial : list one) (s : one) : bool :=
  existsb (fun i => (dN d <? 0) || (Z.abs (n_ s - n_ i) <=? dN d))%Z initial &&
  existsb (fun i => (dL d <? 0) || (Z.abs (l_ s - l_ i) <=? dL d))%Z initial &&
  existsb (fun i => (dJ d <? 0) || (Z.abs (jj s - jj i) <=? 2 * dJ d))%Z initial &&
  existsb (fun i => (dM d <? 0) || (Z.abs (mm s - mm i) <=? 2 * dM d))%Z initial.
(** necessary1 (194, 216-219): std::vector<bool>, written at state.idx *)
Fixpoint mark_valid (p : one -> bool) (names : list one) (mask : list bool) : res (list bool) :=
  match names with
  | [] => Ok mask
  | s :: names =>
      if p s then (if (idx s <? 0)%Z then UB else do! mask <- set_vec mask (Z.to_nat (idx s)) true; mark_valid p names mask)
      else mark_valid p names mask
  end.
Fixpoint map_res {A B} (f : A -> res B) (l : list A) : res (list B) :=
  match l with [] => Ok [] | x :: l => do! y <- f x; do! r <- map_res f l; Ok (y :: r) end.
(** Hamiltonian::removeUnnecessaryStates (Hamiltonian.hpp:38-43) after the loop of HamiltonianTwo.cpp:192-221: the names and the
    Hamiltonians of all steps *)
Definition restrict_one {K : StarRing} (d : limits) (b : names_one) (mats : list (hmat K)) : res (names_one * list (hmat K)) :=
  do! mask <- mark_valid (valid_state d (initial1 b)) (names1 b) (repeat false (length (names1 b)));
  do! b' <- remove1 b mask;
  do! mats' <- map_res (fun h => remove_states h mask) mats;
  Ok (b', mats').

(** HamiltonianOne.cpp:118-150: the energies relative to the mean energy [e0] of the initial states, the states within deltaE; entry idx of the
    diagonal Hamiltonian, idx counts the states that are kept.  [level] s is energy_level(species, n, l, j), [keep] the comparison
    with deltaE.  The basis is the identity. *)
Fixpoint energy_loop {K : StarRing} (keep : K -> bool) (level : one -> K) (e0 : K) (names : list one) (mask : list bool) : res (list bool * list K) :=
  match names with
  | [] => Ok (mask, [])
  | s :: names =>
      let v := ssub (level s) e0 in
      if keep v then
        (if (idx s <? 0)%Z then UB else
         do! mask <- set_vec mask (Z.to_nat (idx s)) true;
         do! r <- energy_loop keep level e0 names mask; Ok (fst r, v :: snd r))
      else energy_loop keep level e0 names mask
  end.
Definition unit_columns {K : StarRing} (n : nat) : list (list (nat * K)) := map (fun i => [(i, s1)]) (seq 0 n).
Definition one_atom {K : StarRing} (keep : K -> bool) (level : one -> K) (e0 : K) (b : names_one) : res (names_one * hmat K) :=
  do! r <- energy_loop keep level e0 (names1 b) (repeat false (length (names1 b)));
  do! b' <- remove1 b (fst r);
  (** compress(dim, dim): an entry outside is undefined *)
  if (Z.of_nat (length (snd r)) <=? dim1 b')%Z then Ok (b', HMat (Z.to_nat (dim1 b')) (unit_columns (length (snd r))) (snd r)) else UB.

(** HamiltonianTwo.cpp:351-359 without threads: one step after the other *)
Fixpoint all_steps {K : StarRing} (keep : K -> bool) (steps : list (hmat K * hmat K)) (m : list bool) : res (list bool) :=
  match steps with
  | [] => Ok m
  | (l, r) :: steps => do! m <- energycutoff keep l r m; all_steps keep steps m
  end.

(** The same with threads (#pragma omp parallel for): the bit [w] of a std::vector<bool> is bit w mod W of the word w / W;
    necessary[w] = true loads the word, sets the bit and stores the word.  A thread has a list of bits to set and possibly a
    loaded word.  (For the language standard two such writes are a data race and the behaviour is undefined; this is what
    the machine does.) *)
Definition memory := nat -> nat -> bool.
Definition setbit (v : nat -> bool) (i : nat) : nat -> bool := fun j => if Nat.eqb j i then true else v j.
Definition setword (m : memory) (a : nat) (v : nat -> bool) : memory := fun b => if Nat.eqb b a then v else m b.
Definition thread := (list nat * option (nat -> bool))%type.
Definition tstep (W : nat) (m : memory) (t : thread) : memory * thread :=
  match t with
  | ([], p) => (m, ([], p))
  | (w :: ws, None) => (m, (w :: ws, Some (m (w / W))))
  | (w :: ws, Some v) => (setword m (w / W) (setbit v (w mod W)), (ws, None))
  end.
Fixpoint upd_nth {A} (l : list A) (i : nat) (x : A) : list A :=
  match l, i with [], _ => [] | _ :: l, O => x :: l | y :: l, S i => y :: upd_nth l i x end.
(** a schedule: the numbers of the threads that take the next step *)
Fixpoint schedule (W : nat) (m : memory) (ts : list thread) (s : list nat) : memory * list thread :=
  match s with
  | [] => (m, ts)
  | i :: s => match nth_error ts i with
              | Some t => let '(m, t) := tstep W m t in schedule W m (upd_nth ts i t) s
              | None => schedule W m ts s
              end
  end.
Definition finished (ts : list thread) : bool := forallb (fun t => match fst t with [] => true | _ => false end) ts.
Definition bit (W : nat) (m : memory) (r : nat) : bool := m (r / W) (r mod W).
(** threads with the given writes, nothing loaded; all bits false *)
Definition start_threads (ws : list (list nat)) : list thread := map (fun w => (w, None)) ws.
Definition cleared : memory := fun _ _ => false.

(** parity_t initalParityL (HamiltonianTwo.cpp:281), the product sym.inversion * sym.permutation with EVEN = 1, ODD = -1 (Symmetry.hpp:26) *)
Definition pnum (p : par) : Z := match p with EVEN => 1%Z | ODD => (-1)%Z | NA => 2147483647%Z end.
(** HamiltonianTwo.cpp:361-386: is the pair state accepted by the symmetry? *)
Definition accepted (sametrafo : bool) (initpar : Z) (sym : symmetry) (t : two) : bool :=
  let M2 := (mm (fst_ t) + mm (snd_ t))%Z in
  negb (match rot sym with
        | Some R => negb (2 * R =? M2)%Z && (negb (used (ref sym)) || negb (2 * R =? - M2)%Z)
        | None => false
        end) &&
  negb (used (inv sym) && used (per sym) && negb (sg (l_ (fst_ t) + l_ (snd_ t)) =? initpar)%Z && sametrafo).
Fixpoint necessary_loop (sametrafo : bool) (initpar : Z) (syms : list symmetry) (tmp : list bool) (names : list two) (m : list bool) : res (list bool) :=
  match names with
  | [] => Ok m
  | t :: names =>
      if existsb (fun s => accepted sametrafo initpar s t) syms then
        (if (idx2 t <? 0)%Z then UB else
         do! b <- at_vec tmp (Z.to_nat (idx2 t));
         do! m <- set_vec m (Z.to_nat (idx2 t)) b;
         necessary_loop sametrafo initpar syms tmp names m)
      else necessary_loop sametrafo initpar syms tmp names m
  end.
(** HamiltonianTwo.cpp:345-387 *)
Definition necessary {K : StarRing} (keep : K -> bool) (sametrafo : bool) (initpar : Z) (syms : list symmetry) (names : list two)
    (steps : list (hmat K * hmat K)) : res (list bool) :=
  do! tmp <- all_steps keep steps (repeat false (length names));
  necessary_loop sametrafo initpar syms tmp names (repeat false (length names)).

(** The symmetries (HamiltonianTwo.cpp:279-343); lists sym_inversion, sym_permutation, sym_reflection from the settings (137-170).
    float m[0] + m[1] assigned to an int is truncated *)
Definition rotations (conserveM sametrafo zerotheta : bool) (initial : two) (names : list two) : list (option Z) :=
  if conserveM then
    if negb sametrafo then map (fun t => Some (Z.quot (mm (fst_ t) + mm (snd_ t)) 2)) names
    else if negb zerotheta then
      let J := Z.quot (jj (fst_ initial) + jj (snd_ initial)) 2 in
      map (fun k => Some (Z.of_nat k - J)%Z) (seq 0 (Z.to_nat (2 * J + 1)))
    else [Some (Z.quot (mm (fst_ initial) + mm (snd_ initial)) 2)]
  else [None].
Definition peqb (a b : par) : bool := match a, b with NA, NA | EVEN, EVEN | ODD, ODD => true | _, _ => false end.
Definition initparity (initial : two) : Z := sg (l_ (fst_ initial) + l_ (snd_ initial)).
(** the loops 304-341; the std::set sorts and removes duplicates, which is left out: the model is the list of the insertions *)
Definition symmetries (sametrafo : bool) (initial : two) (invs pers refs : list par) (rots : list (option Z)) : list symmetry :=
  let samestates := oeqb (fst_ initial) (snd_ initial) in
  flat_map (fun i =>
    if peqb i EVEN && samestates && sametrafo then [] else
    flat_map (fun p =>
      if peqb p EVEN && samestates && sametrafo then [] else
      if used i && used p && sametrafo && negb (pnum i * pnum p =? initparity initial)%Z then [] else
      flat_map (fun r => map (fun m => Sym i r p (if used r then option_map Z.abs m else m)) rots) refs) pers) invs.
