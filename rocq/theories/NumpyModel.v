(** Model of NumpyUtils.hpp, conversion of vectors and matrices between C++ and Python, and of the typemaps of Interface.i:115-142.  An exception of a conversion to
    Python is outside of the try block of Interface.i:56-62, so that it ends the process; here it is Throw.
    No proofs.  numpy, scipy and Eigen are modelled as far as the conversion uses them: memory blocks, shapes, strides, flags. *)
From Coq Require Import ZArith Bool List Lia.
Import ListNotations.
From Verif Require Import Base.
Set Implicit Arguments.

Section Numpy.
(** the scalar type (double or std::complex<double>) *)
Variable V : Type.
(** one element of a memory block; Unset: never written *)
Inductive cell := CI (z : Z) | CV (v : V) | Unset.
(** the blocks of memory; None: freed *)
Definition heap := list (option (list cell)).
Definition block (h : heap) (a : nat) : option (list cell) := nth a h None.
Definition alloc (h : heap) (cs : list cell) : heap * nat := (h ++ [Some cs], length h).
Fixpoint set_nth {A} (l : list A) (i : nat) (x : A) : list A :=
  match l, i with [], _ => [] | _ :: l, O => x :: l | y :: l, S i => y :: set_nth l i x end.
Definition free (h : heap) (a : nat) : heap := set_nth h a None.
(** reading an element: undefined if freed, out of bounds or never written *)
Definition load (h : heap) (a : nat) (i : Z) : res cell :=
  match block h a with
  | None => UB
  | Some cs => if (i <? 0)%Z then UB else match nth_error cs (Z.to_nat i) with Some Unset | None => UB | Some c => Ok c end
  end.

(** element types: NPY_INT, NPY_LONG, the type of the scalar, others *)
Inductive dtype := TInt | TLong | TScalar | TOther.
Definition dtype_dec (a b : dtype) : {a = b} + {a <> b}.
Proof. decide equality. Defined.
(** a numpy array: data pointer (block and offset), shape and strides (in elements), type, flags *)
Record array := Array { buf : nat; off : Z; shape : list Z; strides : list Z; ty : dtype; aligned : bool; writeable : bool; owns : bool }.
(** a[i1, ..., ik] in Python *)
Fixpoint dot (idx st : list Z) : Z := match idx, st with i :: idx, s :: st => i * s + dot idx st | _, _ => 0 end%Z.
Definition item (h : heap) (a : array) (idx : list Z) : res cell := load h (buf a) (off a + dot idx (strides a)).
(** column-major strides *)
Fixpoint fstrides (s : Z) (dims : list Z) : list Z := match dims with [] => [] | d :: dims => s :: fstrides (s * d) dims end.
Definition product (dims : list Z) : Z := fold_left Z.mul dims 1%Z.
(** NPY_ARRAY_F_CONTIGUOUS as numpy determines it (strides of dimensions of length 1 do not matter; empty arrays are contiguous) *)
Fixpoint fcontig_from (s : Z) (dims st : list Z) : bool :=
  match dims, st with
  | [], _ => true
  | d :: dims, x :: st => if (d =? 1)%Z then fcontig_from s dims st else (x =? s)%Z && fcontig_from (s * d) dims st
  | _, [] => false
  end.
Definition fcontig (a : array) : bool := existsb (Z.eqb 0) (shape a) || fcontig_from 1 (shape a) (strides a).

(** ** C++ to Python *)
(** conversion to int *)
Definition int (z : Z) : Z := ((z + 2 ^ 31) mod 2 ^ 32 - 2 ^ 31)%Z.
(** std::accumulate(..., int{1}, int * int) (114): undefined on overflow *)
Fixpoint int_product (acc : Z) (dims : list Z) : option Z :=
  match dims with
  | [] => Some acc
  | d :: dims => let x := (acc * int d)%Z in if (- 2 ^ 31 <=? x)%Z && (x <? 2 ^ 31)%Z then int_product x dims else None
  end.
(** check_array_sanity (106-116) *)
Definition check_array_sanity (len : Z) (nd : nat) (dims : list Z) : res unit :=
  if (len <? 1)%Z then Throw
  else if negb (Nat.eqb nd (length dims)) then Throw
  else match int_product 1 dims with None => UB | Some p => if (p <? len)%Z then Throw else Ok tt end.
Inductive view_or_copy := View | Copy.
(** memcpy of len elements into a new block of [n] elements *)
Definition copied (cs : list cell) (len n : nat) : list cell := firstn n (firstn len cs ++ repeat Unset n).
(** internal::convert and convert_impl (134-201): [a] is the block with the data, [size] = std::distance(begin, end) *)
Definition convert (v : view_or_copy) (const : bool) (t : dtype) (h : heap) (a : nat) (size : Z) (nd : nat) (dims : list Z) : res (heap * array) :=
  let len := int size in
  do! _ <- check_array_sanity len nd dims;
  match v with
  | View => Ok (h, Array a 0 dims (fstrides 1 dims) t true (negb const) false)
  | Copy =>
      match block h a with
      | None => UB
      | Some cs =>
          if (Z.of_nat (length cs) <? len)%Z then UB
          else let (h', b) := alloc h (copied cs (Z.to_nat len) (Z.to_nat (product dims))) in
               Ok (h', Array b 0 dims (fstrides 1 dims) t true true true)
      end
  end.
(** convert of Eigen::Matrix (251-258), of Eigen::Vector, std::vector, std::array, a range of pointers (234-241, 268-311) *)
Definition convert_matrix v const (h : heap) (a : nat) (rows cols : Z) : res (heap * array) := convert v const TScalar h a (rows * cols) 2 [rows; cols].
Definition convert_vector v const t (h : heap) (a : nat) (size : Z) : res (heap * array) := convert v const t h a size 1 [size].

(** Eigen::SparseMatrix (column-major, int indices): rows, columns, outerIndexPtr, innerIndexPtr, valuePtr, nonZeros *)
Record sparse := Sparse { srows : Z; scols : Z; outer : nat; inner : nat; vals : nat; nnz : Z; compressed : bool }.
(** scipy.sparse.csc_matrix((data, indices, indptr), shape): keeps the arrays without copying (copy=False, int indices) *)
Record csc := Csc { data : array; indices : array; indptr : array; crows : Z; ccols : Z }.
(** sparse_impl (328-361) *)
Definition convert_sparse (v : view_or_copy) (const : bool) (h : heap) (m : sparse) : res (heap * csc) :=
  if negb (compressed m) then Throw
  else
    do! p <- convert_vector v const TInt h (outer m) (scols m + 1);
    do! q <- convert_vector v const TInt (fst p) (inner m) (nnz m);
    do! r <- convert_vector v const TScalar (fst q) (vals m) (nnz m);
    Ok (fst r, Csc (snd r) (snd q) (snd p) (int (srows m)) (int (scols m))).

(** ** Python to C++ *)
(** check_order_and_alignment (392-398) *)
Definition order_and_alignment (a : array) : bool := fcontig a && aligned a.
(** Eigen::Map<Matrix const>: data pointer, rows, columns; element (i, j) *)
Record map_ := Map { mbuf : nat; moff : Z; mrows : Z; mcols : Z }.
Definition coeff (h : heap) (m : map_) (i j : Z) : res cell := load h (mbuf m) (moff m + i + j * mrows m).
(** as_dense_impl (408-423) *)
Definition as_dense_impl (a : array) : res unit :=
  if order_and_alignment a then if dtype_dec (ty a) TScalar then Ok tt else Throw else Throw.
(** as<Matrix> (446-457): dims[0] is read even if there are no dimensions *)
Definition as_matrix (a : array) : res map_ :=
  do! _ <- as_dense_impl a;
  match shape a with
  | [] => UB
  | [r] => Ok (Map (buf a) (off a) r 1)
  | [r; c] => Ok (Map (buf a) (off a) r c)
  | _ => Throw
  end.
(** as<Vector> (478-489) *)
Definition as_vector (a : array) : res map_ :=
  do! _ <- as_dense_impl a;
  match shape a with [] => UB | [r] => Ok (Map (buf a) (off a) r 1) | _ => Throw end.
(** Eigen::Map<SparseMatrix const>: the pointers are reinterpreted as pointers to int and to the scalar *)
Record smap := SMap { mr : Z; mc : Z; mnnz : Z; pouter : array; pinner : array; pval : array }.
(** as<SparseMatrix> (509-551) for a csc_matrix *)
Definition as_sparse (m : csc) : res smap :=
  if order_and_alignment (data m) && order_and_alignment (indices m) && order_and_alignment (indptr m) then
    match shape (data m) with
    | [] => UB
    | n :: _ => if dtype_dec (ty (data m)) TScalar then Ok (SMap (crows m) (ccols m) n (indptr m) (indices m) (data m)) else Throw
    end
  else Throw.
(** reading element q through a pointer to int: for a block of 64 bit integers the halves (little endian) *)
Definition read_int (h : heap) (a : array) (q : Z) : res Z :=
  match ty a with
  | TInt => match load h (buf a) (off a + q) with Ok (CI z) => Ok z | _ => UB end
  | TLong =>
      match load h (buf a) (off a + q / 2) with
      | Ok (CI z) => Ok (if Z.even q then int z else int (z / 2 ^ 32))%Z
      | _ => UB
      end
  | _ => UB
  end.
Definition read_val (h : heap) (a : array) (q : Z) : res V := match load h (buf a) (off a + q) with Ok (CV v) => Ok v | _ => UB end.
(** the stored entries (row, column, value), column by column *)
Fixpoint mapR_ {A B} (f : A -> res B) (l : list A) : res (list B) :=
  match l with [] => Ok [] | x :: l => do! y <- f x; do! ys <- mapR_ f l; Ok (y :: ys) end.
Definition zrange (a b : Z) : list Z := map (fun k => (a + Z.of_nat k)%Z) (seq 0 (Z.to_nat (b - a))).
Definition entries (readp : Z -> res Z) (readi : Z -> res Z) (readv : Z -> res V) (cols : Z) : res (list (Z * Z * V)) :=
  do! l <- mapR_ (fun j =>
    do! a <- readp j; do! b <- readp (j + 1)%Z;
    mapR_ (fun p => do! i <- readi p; do! v <- readv p; Ok (i, j, v)) (zrange a b)) (zrange 0 cols);
  Ok (concat l).
(** as Eigen sees a sparse matrix of its own, and one that is mapped *)
Definition load_int (h : heap) (a : nat) (q : Z) : res Z := match load h a q with Ok (CI z) => Ok z | _ => UB end.
Definition load_val (h : heap) (a : nat) (q : Z) : res V := match load h a q with Ok (CV v) => Ok v | _ => UB end.
Definition sparse_entries (h : heap) (m : sparse) : res (list (Z * Z * V)) :=
  entries (load_int h (outer m)) (load_int h (inner m)) (load_val h (vals m)) (scols m).
Definition smap_entries (h : heap) (m : smap) : res (list (Z * Z * V)) :=
  entries (read_int h (pouter m)) (read_int h (pinner m)) (read_val h (pval m)) (mc m).
(** as Python sees a csc_matrix *)
Definition item_int (h : heap) (a : array) (q : Z) : res Z := match item h a [q] with Ok (CI z) => Ok z | _ => UB end.
Definition item_val (h : heap) (a : array) (q : Z) : res V := match item h a [q] with Ok (CV v) => Ok v | _ => UB end.
Definition csc_entries (h : heap) (m : csc) : res (list (Z * Z * V)) :=
  entries (item_int h (indptr m)) (item_int h (indices m)) (item_val h (data m)) (ccols m).

(** ** lifetimes: a system and the objects that Python has got *)
Inductive pyobj := PyVector (a : array) | PyMatrix (m : csc).
(** the heap, the matrix of the system (None: the system has been destroyed), the Python objects *)
Record world := World { hp : heap; ham : option sparse; objs : list pyobj }.
(** contents of a sparse matrix: row and column number, outer index, inner index, values *)
Record content := Content { nr_ : Z; nc_ : Z; couter : list Z; cinner : list Z; cvals : list V }.
Definition place (h : heap) (c : content) : heap * sparse :=
  let (h, a) := alloc h (map CI (couter c)) in let (h, b) := alloc h (map CI (cinner c)) in let (h, d) := alloc h (map CV (cvals c)) in
  (h, Sparse (nr_ c) (nc_ c) a b d (Z.of_nat (length (cvals c))) true).
Definition write (h : heap) (a : nat) (i : nat) (x : cell) : heap :=
  match block h a with Some cs => set_nth h a (Some (set_nth cs i x)) | None => h end.
Inductive event :=
| GetMatrix                              (* getHamiltonian(), getBasisvectors(): return a reference (SystemBase.hpp:205-207, Interface.i:118) *)
| GetVector (xs : list V)                (* getOverlap(...) and others: return by value (Interface.i:117) *)
| Recompute (c : content) (reuse : bool) (* the member is assigned; Eigen may keep the memory or replace it *)
| Destroy                                (* the system is garbage collected or goes out of scope *)
| PyWrite (k : nat) (i : nat) (v : V).   (* Python assigns to element i of the data of object k *)
Definition step (w : world) (e : event) : res world :=
  match e with
  | GetMatrix =>
      match ham w with
      | None => Throw
      | Some m => do! r <- convert_sparse View false (hp w) m; Ok (World (fst r) (ham w) (objs w ++ [PyMatrix (snd r)]))
      end
  | GetVector xs =>
      let (h, a) := alloc (hp w) (map CV xs) in
      do! r <- convert_vector Copy false TScalar h a (Z.of_nat (length xs));
      Ok (World (free (fst r) a) (ham w) (objs w ++ [PyVector (snd r)]))
  | Recompute c reuse =>
      match ham w with
      | None => Throw
      | Some m =>
          if reuse then
            let h := set_nth (hp w) (outer m) (Some (map CI (couter c))) in
            let h := set_nth h (inner m) (Some (map CI (cinner c))) in
            let h := set_nth h (vals m) (Some (map CV (cvals c))) in
            Ok (World h (Some (Sparse (nr_ c) (nc_ c) (outer m) (inner m) (vals m) (Z.of_nat (length (cvals c))) true)) (objs w))
          else
            let (h, m') := place (free (free (free (hp w) (outer m)) (inner m)) (vals m)) c in
            Ok (World h (Some m') (objs w))
      end
  | Destroy =>
      match ham w with
      | None => Throw
      | Some m => Ok (World (free (free (free (hp w) (outer m)) (inner m)) (vals m)) None (objs w))
      end
  | PyWrite k i v =>
      match nth_error (objs w) k with
      | None => Throw
      | Some o =>
          let a := match o with PyVector a => a | PyMatrix m => data m end in
          if writeable a then
            match shape a with
            | [n] => if (Z.of_nat i <? n)%Z then match block (hp w) (buf a) with None => UB | Some _ => Ok (World (write (hp w) (buf a) i (CV v)) (ham w) (objs w)) end else Throw
            | _ => Throw
            end
          else Throw
      end
  end.
Fixpoint history (w : world) (es : list event) : res world := match es with [] => Ok w | e :: es => do! w' <- step w e; history w' es end.
End Numpy.
