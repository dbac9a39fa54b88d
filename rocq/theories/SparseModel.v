(** Model of how sparse matrices are stored: Hamiltonianmatrix::doSerialization / doDeserialization
    (Hamiltonianmatrix.cpp:341-477) and serialization_eigen.hpp.  No proofs.

    A compressed column-major Eigen::SparseMatrix is the lists outerIndex (cols+1 entries), innerIndex and values
    (Eigen, SparseMatrix.h; modelled from its documented storage scheme as Eigen is not part of /repo). *)
From Verif Require Import Base SerModel.
From Coq Require Import ZArith Bool List.
Import ListNotations.
Set Implicit Arguments.

Section M.
Variable V : Type.
Record csc := Csc { m_rows : nat; m_cols : nat; m_outer : list nat; m_inner : list nat; m_vals : list V }.

(** The entries stored in column [c]: (row, value) in storage order. *)
Definition column (m : csc) (c : nat) : list (nat * V) :=
  let a := nth c (m_outer m) 0 in let b := nth (S c) (m_outer m) 0 in
  firstn (b - a) (skipn a (combine (m_inner m) (m_vals m))).

(** What Eigen guarantees of a compressed matrix. *)
Definition compressed (m : csc) : Prop :=
  length (m_outer m) = S (m_cols m) /\ nth 0 (m_outer m) 0 = 0 /\
  (forall c, c < m_cols m -> nth c (m_outer m) 0 <= nth (S c) (m_outer m) 0) /\
  nth (m_cols m) (m_outer m) 0 = length (m_vals m) /\ length (m_inner m) = length (m_vals m) /\
  Forall (fun r => r < m_rows m) (m_inner m).

(** Number of elements of a list without its trailing zeros. *)
Fixpoint kept (l : list nat) : nat :=
  match l with [] => 0 | x :: l => match kept l with 0 => if Nat.eqb x 0 then 0 else 1 | S k => S (S k) end end.

(** SparseMatrix::finalize(): the outer index from the end back to the last nonzero one is set to the number of values. *)
Definition finalize (m : csc) : csc :=
  let k := kept (m_outer m) in
  Csc (m_rows m) (m_cols m) (firstn k (m_outer m) ++ repeat (length (m_vals m)) (length (m_outer m) - k)) (m_inner m) (m_vals m).

(** SparseMatrix(rows, cols); resizeNonZeros; copy of the three arrays; finalize
    (Hamiltonianmatrix.cpp:459-465).  Copying more than allocated is undefined; the new innerIndex is modelled as 0. *)
Definition rebuild (rows cols : nat) (indptr inner : list nat) (vals : list V) : res csc :=
  if Nat.ltb (length vals) (length inner) || Nat.ltb (S cols) (length indptr) then UB
  else Ok (finalize (Csc rows cols (indptr ++ repeat 0 (S cols - length indptr))
                         (inner ++ repeat 0 (length vals - length inner)) vals)).

(** serialization_eigen.hpp:52-88: an archive is the list of what is written; all outerSize+1 indices are stored. *)
Inductive token := TInt (z : nat) | TIdx (l : list nat) | TVal (l : list V).
Definition cereal_save (m : csc) : list token :=
  [TInt (m_rows m); TInt (m_cols m); TInt (length (m_vals m)); TIdx (m_inner m); TIdx (m_outer m); TVal (m_vals m)].
Definition cereal_load (ts : list token) : res csc :=
  match ts with
  | [TInt r; TInt c; TInt k; TIdx inner; TIdx outer; TVal vals] =>
      if Nat.eqb (length inner) k && Nat.eqb (length outer) (S c) && Nat.eqb (length vals) k
      then Ok (finalize (Csc r c outer inner vals)) else UB
  | _ => Throw
  end.
End M.

(** Values: images of the real and the imaginary part; real scalars have no imaginary part. *)
Definition value := (list Z * list Z)%type.
Local Open Scope Z_scope.

Section H.
(** utils::is_complex<Scalar> *)
Variable cx : bool.
Variable fconv : ty -> ty -> list Z -> list Z.

Definition i32 (n : nat) : list Z := le 4 (num32 n).

(** Hamiltonianmatrix.cpp:346-363, 385-393 (one of the two matrices): flags, rows, cols, data_real, [data_imag],
    indices, indptr.  Only outerSize (not outerSize+1) outer indices are stored (line 363). *)
Definition ser_one (m : csc value) : list item :=
  [Scalar U8 [if cx then 2 else 0]; Scalar I32 (i32 (m_rows m)); Scalar I32 (i32 (m_cols m)); Vector F64 (map fst (m_vals m))]
  ++ (if cx then [Vector F64 (map snd (m_vals m))] else [])
  ++ [Vector I32 (map i32 (m_inner m)); Vector I32 (map i32 (firstn (m_cols m) (m_outer m)))].

(** A Hamiltonianmatrix: (entries_, basis_). *)
Definition ser (p : csc value * csc value) : list item := ser_one (fst p) ++ ser_one (snd p).

(** bits & complex_not_real (Hamiltonianmatrix.hpp:43) *)
Definition flag_cx (img : list Z) : bool := Z.odd (unle img / 2).

Variable base : Z.
Variable bytes : list Z.
Notation rd := (reads fconv base bytes).

(** The data read for one matrix: flags, rows, cols, real, imag, indices, indptr (lines 429-446).
    idx_t is uint32_t (StateOld.hpp:33). *)
Record raw := Raw { r_cx : bool; r_rows : Z; r_cols : Z; r_re : list (list Z); r_im : list (list Z); r_ind : list Z; r_ptr : list Z }.
Definition read_raw (pos : nat) : res (raw * nat) :=
  match rd [SScalar U8; SScalar I32; SScalar I32; SVector F64] pos with
  | Ok ([Scalar _ fl; Scalar _ r; Scalar _ c; Vector _ re], p1) =>
      match rd (if flag_cx fl then [SVector F64] else []) p1 with
      | Ok (im, p2) =>
          match rd [SVector U32; SVector U32] p2 with
          | Ok ([Vector _ ind; Vector _ ptr], p3) =>
              Ok (Raw (flag_cx fl) (int_val I32 r) (int_val I32 c) re
                    (match im with [Vector _ v] => v | _ => [] end) (map (int_val U32) ind) (map (int_val U32) ptr), p3)
          | Ok _ => UB | Throw => Throw | UB => UB
          end
      | Throw => Throw | UB => UB
      end
  | Ok _ => UB | Throw => Throw | UB => UB
  end.

(** mergeComplex (Hamiltonianmatrix.hpp:116-132): reads imag beyond its end if it is shorter *)
Definition merge (re im : list (list Z)) : res (list value) :=
  if cx then (if Nat.ltb (length im) (length re) then UB else Ok (combine re im))
  else Ok (map (fun x => (x, [])) re).

(** lines 457-465; negative sizes are undefined, as is an index that does not fit Eigen's int *)
Definition build_one (w : raw) : res (csc value) :=
  match merge (r_re w) (r_im w) with
  | Ok vals => if (r_rows w <? 0) || (r_cols w <? 0) then UB
               else rebuild (Z.to_nat (r_rows w)) (Z.to_nat (r_cols w)) (map Z.to_nat (r_ptr w)) (map Z.to_nat (r_ind w)) vals
  | Throw => Throw | UB => UB
  end.

(** Hamiltonianmatrix.cpp:414-477 *)
Definition deser : res (csc value * csc value) :=
  match read_raw 0 with
  | Ok (a, p) =>
      match read_raw p with
      | Ok (b, _) =>
          if xorb (r_cx a) cx || xorb (r_cx b) cx then Throw
          else match build_one a, build_one b with
               | Ok x, Ok y => Ok (x, y)
               | Throw, _ => Throw | UB, _ => UB
               | _, Throw => Throw | _, UB => UB
               end
      | Throw => Throw | UB => UB
      end
  | Throw => Throw | UB => UB
  end.
End H.
