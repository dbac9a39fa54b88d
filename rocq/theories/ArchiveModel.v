(** Model of binary archives: cereal::BinaryOutputArchive / BinaryInputArchive as used for pickling
    (Interface.i:69-88) and serialization_eigen.hpp.  No proofs.

    Bytes are integers 0..255, little-endian.  Class version numbers (constant 0, written once per class and
    archive by cereal) are left out.  Doubles and floats are represented by their bit patterns.  Reading
    behind the end throws (cereal::Exception from loadBinary). *)
From Verif Require Import Base.
From Coq Require Import ZArith Bool String Ascii List.
Import ListNotations.
Set Implicit Arguments.
Local Open Scope Z_scope.

Notation bytes := (list Z).

(** Little-endian representation of z modulo 256^k. *)
Fixpoint le (k : nat) (z : Z) : bytes := match k with O => [] | S k' => z mod 256 :: le k' (z / 256) end.
Fixpoint unle (bs : bytes) : Z := match bs with [] => 0 | b :: bs' => b + 256 * unle bs' end.
(** loadBinary: exactly k bytes or an exception *)
Fixpoint take (k : nat) (bs : bytes) : res (bytes * bytes) :=
  match k, bs with
  | O, _ => Ok ([], bs)
  | S k', b :: bs' => do! (x, r) <- take k' bs' ; Ok (b :: x, r)
  | S _, [] => Throw
  end.

(** What serialize does for a type when saving and when loading; [okc]: the values of the C++ type. *)
Record codec (A : Type) : Type := Codec { enc : A -> bytes; dec : bytes -> res (A * bytes); okc : A -> Prop }.

(** Unsigned and signed integers of k bytes; enums are saved as int. *)
Definition cuint (k : nat) : codec Z :=
  Codec (le k) (fun bs => do! (x, r) <- take k bs ; Ok (unle x, r)) (fun z => 0 <= z < 256 ^ Z.of_nat k).
Definition csint (k : nat) : codec Z :=
  Codec (le k)
        (fun bs => do! (x, r) <- take k bs ; let z := unle x in
                   Ok (if z <? 256 ^ Z.of_nat k / 2 then z else z - 256 ^ Z.of_nat k, r))
        (fun z => - (256 ^ Z.of_nat k / 2) <= z < 256 ^ Z.of_nat k / 2).
Definition cint : codec Z := csint 4.
Definition cdouble : codec Z := cuint 8.   (* bit pattern *)
Definition cfloat : codec Z := cuint 4.    (* bit pattern *)
Definition csize : codec Z := cuint 8.     (* size_type, size_t *)
(** bool: one byte; any nonzero byte is read as true. *)
Definition cbool : codec bool :=
  Codec (fun b : bool => [if b then 1 else 0]) (fun bs => do! (x, r) <- take 1 bs ; Ok (negb (unle x =? 0), r))
        (fun _ : bool => True).

Definition cpair {A B} (a : codec A) (b : codec B) : codec (A * B) :=
  Codec (fun x => enc a (fst x) ++ enc b (snd x))
        (fun bs => do! (x, r) <- dec a bs ; do! (y, r') <- dec b r ; Ok ((x, y), r'))
        (fun x => okc a (fst x) /\ okc b (snd x)).
(** Exactly n elements without a size: std::array. *)
Fixpoint dec_n {A} (c : codec A) (n : nat) (bs : bytes) : res (list A * bytes) :=
  match n with
  | O => Ok ([], bs)
  | S n' => do! (x, r) <- dec c bs ; do! (xs, r') <- dec_n c n' r ; Ok (x :: xs, r')
  end.
Definition enc_all {A} (c : codec A) (xs : list A) : bytes := flat_map (enc c) xs.
Definition carr {A} (n : nat) (c : codec A) : codec (list A) :=
  Codec (enc_all c) (dec_n c n) (fun xs => List.length xs = n /\ Forall (okc c) xs).
(** Size, then the elements: std::string, std::vector, std::set, std::unordered_map, std::unordered_set, and states
    (SystemBase.hpp:93-114).  Sets and maps are listed in the order of iteration. *)
Definition clist {A} (c : codec A) : codec (list A) :=
  Codec (fun xs => le 8 (Z.of_nat (List.length xs)) ++ enc_all c xs)
        (fun bs => do! (n, r) <- dec csize bs ; dec_n c (Z.to_nat n) r)
        (fun xs => Z.of_nat (List.length xs) < 256 ^ 8 /\ Forall (okc c) xs).
Definition cmap {A B} (f : A -> B) (g : B -> A) (c : codec A) : codec B :=
  Codec (fun b => enc c (g b)) (fun bs => do! (x, r) <- dec c bs ; Ok (f x, r)) (fun b => okc c (g b)).
Definition cchar : codec ascii := Codec (fun a : ascii => [Z.of_N (N_of_ascii a)])
  (fun bs => do! (x, r) <- take 1 bs ; Ok (ascii_of_N (Z.to_N (unle x)), r))
  (fun _ : ascii => True).
Definition cstring : codec string := cmap string_of_list_ascii list_ascii_of_string (clist cchar).
(** std::complex: real and imaginary part *)
Definition ccomplex : codec (Z * Z) := cpair cdouble cdouble.

(** Eigen::SparseMatrix in compressed form. *)
Record sparse (S : Type) : Type := Sparse { inner : Z; outer : Z; idx : list Z; ptr : list Z; val : list S }.
(** SparseMatrix::finalize: from the last nonzero outer index on, the number of entries. *)
Fixpoint fill (nnz : Z) (xs : list Z) : list Z :=
  match xs with [] => [] | x :: xs' => if x =? 0 then nnz :: fill nnz xs' else xs end.
Definition finalize (nnz : Z) (p : list Z) : list Z := rev (fill nnz (rev p)).
(** The size tags of the arrays are written, but the value read is dropped (make_size_tag of a temporary,
    serialization_eigen.hpp:40); the sizes in innerSize, outerSize, valuesSize are used (51-79).  A number of columns
    below -1 makes resize throw std::bad_alloc, a negative number of entries makes loadBinary throw. *)
Definition csparse {S} (c : codec S) : codec (sparse S) :=
  Codec (fun m => let nnz := Z.of_nat (List.length (val m)) in
           le 4 (inner m) ++ le 4 (outer m) ++ le 4 nnz ++
           le 8 nnz ++ enc_all cint (idx m) ++ le 8 (outer m + 1) ++ enc_all cint (ptr m) ++ le 8 nnz ++ enc_all c (val m))
        (fun bs =>
           do! (i, bs) <- dec cint bs ; do! (o, bs) <- dec cint bs ; do! (nnz, bs) <- dec cint bs ;
           if o <? -1 then Throw else
           do! (_, bs) <- dec csize bs ; if nnz <? 0 then Throw else
           do! (ix, bs) <- dec_n cint (Z.to_nat nnz) bs ;
           do! (_, bs) <- dec csize bs ; do! (p, bs) <- dec_n cint (Z.to_nat (o + 1)) bs ;
           do! (_, bs) <- dec csize bs ; do! (v, bs) <- dec_n c (Z.to_nat nnz) bs ;
           Ok (Sparse i o ix (finalize nnz p) v, bs))
        (fun m => okc cint (inner m) /\ 0 <= outer m /\ okc cint (outer m) /\ okc cint (Z.of_nat (List.length (val m))) /\
           List.length (idx m) = List.length (val m) /\ Z.of_nat (List.length (ptr m)) = outer m + 1 /\
           Forall (okc cint) (idx m) /\ Forall (okc cint) (ptr m) /\ Forall (okc c) (val m) /\
           (exists p, ptr m = p ++ [Z.of_nat (List.length (val m))] /\ Forall (fun x => 0 <= x <= Z.of_nat (List.length (val m))) p)).
