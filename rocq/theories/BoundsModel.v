(** Model of SystemBase::diagonalize with energy bounds and with a threshold (SystemBase.cpp:564-746).  No proofs in this file.

    Scalars are complex numbers over R (exact); the rest as in SystemModel.v.  Intel's FEAST solver is an oracle. *)
From Coq Require Import ZArith Bool Arith Reals List.
Import ListNotations.
From Verif Require Import Base Matrix LookupModel SystemModel FieldModel SparseModel.
Set Implicit Arguments.
Local Open Scope R_scope.

(** std::norm *)
Definition abs2 (z : CR) : R := fst z * fst z + snd z * snd z.
(** std::abs *)
Definition absC (z : CR) : R := sqrt (abs2 z).

(** Eigen's pruned(reference, 1) (lines 680, 742): coefficients with |x| <= |reference| are removed *)
Definition prune (t : R) (A : mat CR) : mat CR :=
  Mat (nr A) (nc A) (fun i j => if Rle_dec (abs2 (at_ A i j)) (t * t) then ((0, 0) : CR) else at_ A i j).
(** lines 677-681, 739-743 *)
Definition newBasis (threshold : R) (B X : mat CR) : mat CR :=
  if Req_EM_T threshold 0 then mmul B X else prune threshold (mmul B X).

(** lines 581-596: std::max over the stored coefficients of column k that are not on the diagonal, starting with 0 *)
Definition diagonal_max (H : mat CR) (k : nat) : R :=
  fold_left (fun m i => if Nat.eqb i k then m else Rmax m (absC (at_ H i k))) (seq 0 (nr H)) 0.
Definition Rltb (a b : R) : bool := if Rlt_dec a b then true else false.
(** lines 598-611: the number m0 of eigenvalues FEAST has to expect *)
Definition estimate (H : mat CR) (lo hi : R) : nat :=
  let d k := fst (at_ H k k) in let r := diagonal_max H in
  (length (filter (fun k => Rltb (d k) hi && Rltb lo (d k)) (seq 0 (nc H))) +
   length (filter (fun k => (negb (Rltb (d k) hi) || negb (Rltb lo (d k))) && Rltb (d k) (hi + r k) && Rltb (lo - r k) (d k)) (seq 0 (nc H))))%nat.

(** The arrays of a compressed matrix (Eigen::SparseMatrix). *)
Definition nonzero (z : CR) : bool := if Req_EM_T (abs2 z) 0 then false else true.
Definition stored (A : mat CR) (j : nat) : list nat := filter (fun i => nonzero (at_ A i j)) (seq 0 (nr A)).
Definition arrays (A : mat CR) : csc CR :=
  Csc (nr A) (nc A) (map (fun j => length (flat_map (stored A) (seq 0 j))) (seq 0 (S (nc A))))
    (flat_map (stored A) (seq 0 (nc A))) (flat_map (fun j => map (fun i => at_ A i j) (stored A j)) (seq 0 (nc A))).
Definition mtrans (A : mat CR) : mat CR := Mat (nc A) (nr A) (fun i j => at_ A j i).
(** lines 614-621: the transposed matrix, one-based indices *)
Definition onebased (c : csc CR) : csc CR := Csc (m_rows c) (m_cols c) (map S (m_outer c)) (map S (m_inner c)) (m_vals c).
(** What every product and every InnerIterator loop does: read all columns.  Indices outside the arrays or the matrix are undefined. *)
Fixpoint read_from (c : csc CR) (p n : nat) : res (list (nat * CR)) :=
  match n with
  | O => Ok []
  | S n' => match nth_error (m_inner c) p, nth_error (m_vals c) p with
            | Some i, Some v => if (i <? m_rows c)%nat then do! l <- read_from c (S p) n' ; Ok ((i, v) :: l) else UB
            | _, _ => UB
            end
  end.
Fixpoint read_cols (c : csc CR) (js : list nat) : res (list (list (nat * CR))) :=
  match js with
  | [] => Ok []
  | j :: js' => match nth_error (m_outer c) j, nth_error (m_outer c) (S j) with
                | Some a, Some b => do! l <- read_from c a (b - a) ; do! r <- read_cols c js' ; Ok (l :: r)
                | _, _ => UB
                end
  end.

Section Bounds.
Context {State Param Key : Type}.
Variable seqb : State -> State -> bool.
Variable keqb : Key -> Key -> bool.
Variable qvalid : ranges -> State -> bool.
Variable v_init : Param -> @request CR State -> list (nat * State) * res (mat CR * mat CR).
Variable v_keys : Param -> list (Key * CR).
Variable v_op : Key -> State -> State -> CR.
Notation sysT := (@sys CR State Param Key).

(** diagonalize(threshold) (694-746); [isdiag], [U], [D] as in SystemModel.v *)
Definition diagonalizeT (threshold : R) (isdiag : bool) (U D : mat CR) : sysT -> sysT * res unit :=
  andThen (buildHamiltonian seqb keqb qvalid v_init v_keys v_op) (fun s =>
    if isdiag then (s, Ok tt)
    else (set_mats (newBasis threshold (bv s) U) D (bv_up s) (ham_up s) s, Ok tt)).

(** WITH_INTEL_MKL *)
Variable mkl : bool.
(** feast_csrev: eigenvalues and eigenvectors, or nothing if info is not zero; arguments: the matrix, the bounds and m0 *)
Variable feast : mat CR -> R -> R -> nat -> option (list R * mat CR).

(** The call ends, or it ends with an exception and leaves a Hamiltonian whose arrays are as given. *)
Inductive ended := Done (s : sysT) (r : res unit) | Damaged (s : sysT) (H : csc CR).
Definition diag (es : list R) : mat CR := Mat (length es) (length es) (fun i j => if Nat.eqb i j then ofR (nth i es 0) else (0, 0)).

(** diagonalize(energy_lower_bound, energy_upper_bound, threshold) (569-687).  &e[0] of an empty vector (m0 = 0) is undefined. *)
Definition diagonalizeWindow (lo hi threshold : R) (isdiag : bool) (s : sysT) : ended :=
  if negb mkl then Done s Throw
  else
    match buildHamiltonian seqb keqb qvalid v_init v_keys v_op s with
    | (s1, Ok _) =>
        if isdiag then Done s1 (Ok tt)
        else if Nat.eqb (estimate (ham s1) lo hi) 0 then Done s1 UB
        else
          match feast (ham s1) lo hi (estimate (ham s1) lo hi) with
          | None => Damaged s1 (onebased (arrays (mtrans (ham s1))))
          | Some (es, X) => Done (set_mats (newBasis threshold (bv s1) X) (diag es) (bv_up s1) (ham_up s1) s1) (Ok tt)
          end
    | (s1, r) => Done s1 r
    end.
End Bounds.
