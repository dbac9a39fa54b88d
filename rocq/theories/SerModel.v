(** Model of Serializer (Serializable.hpp).  No proofs.

    A byte is an integer in [0,256).  A value of a registered C++ type is its memory image: the list of its
    bytes (little endian, x86-64).  Addresses are integers modulo 2^64; the byte string that is read lies at [base].
    Forming an address outside the string wraps as on the machine (the C++ standard leaves it undefined;
    DESIGN.md), reading a byte outside the string is [UB]. *)
From Verif Require Import Base.
From Coq Require Import ZArith Bool List.
Import ListNotations.
Set Implicit Arguments.
Local Open Scope Z_scope.

Definition W64 := 2 ^ 64.

(** Serializable.hpp:44-57: the registered types *)
Inductive ty := I8 | I16 | I32 | I64 | U8 | U16 | U32 | U64 | F32 | F64 | CH | BO.

Definition ty_id (t : ty) : Z :=
  match t with
  | I8 => 1008 | I16 => 1016 | I32 => 1032 | I64 => 1064
  | U8 => 1108 | U16 => 1116 | U32 => 1132 | U64 => 1164
  | F32 => 2032 | F64 => 2064 | CH => 3000 | BO => 4000
  end.
(** sizeof *)
Definition ty_size (t : ty) : nat :=
  match t with
  | I8 | U8 | CH | BO => 1 | I16 | U16 => 2 | I32 | U32 | F32 => 4 | I64 | U64 | F64 => 8
  end.
Definition ty_all : list ty := [I8; I16; I32; I64; U8; U16; U32; U64; F32; F64; CH; BO].
Definition ty_eqb (a b : ty) : bool := ty_id a =? ty_id b.
(** Serializable.hpp:151-260: the chain of comparisons with type_ids *)
Definition ty_of_id (z : Z) : option ty := find (fun t => ty_id t =? z) ty_all.

(** little-endian image of an integer in [k] bytes, and back *)
Fixpoint le (k : nat) (z : Z) : list Z :=
  match k with O => [] | S k => z mod 256 :: le k (z / 256) end.
Fixpoint unle (bs : list Z) : Z :=
  match bs with [] => 0 | b :: bs => b + 256 * unle bs end.

(** Value of an integer type (char is signed on x86-64). *)
Definition signed (t : ty) : bool := match t with I8 | I16 | I32 | I64 | CH => true | _ => false end.
Definition is_float (t : ty) : bool := match t with F32 | F64 => true | _ => false end.
Definition int_val (t : ty) (bs : list Z) : Z :=
  let u := unle bs in
  let m := 256 ^ Z.of_nat (ty_size t) in
  if signed t && (m / 2 <=? u) then u - m else u.
Definition int_img (t : ty) (z : Z) : list Z :=
  match t with BO => [if z =? 0 then 0 else 1] | _ => le (ty_size t) z end.

Section S.
(** Conversions that involve a floating point type. *)
Variable fconv : ty -> ty -> list Z -> list Z.

(** Assignment of an element of type [src] to a variable of type [dst] (std::copy / insert). *)
Definition conv (src dst : ty) (bs : list Z) : list Z :=
  if ty_eqb src dst then bs
  else if is_float src || is_float dst then fconv src dst bs
  else int_img dst (int_val src bs).

(** What is written: a scalar or a std::vector of a registered type (lines 103-121). *)
Inductive item := Scalar (t : ty) (img : list Z) | Vector (t : ty) (imgs : list (list Z)).

(** storage_idx_t buffer_nums: the length is stored in an int32_t (lines 34, 120). *)
Definition num32 (n : nat) : Z :=
  let u := Z.of_nat n mod 2 ^ 32 in if 2 ^ 31 <=? u then u - 2 ^ 32 else u.

(** buffer_nums[i] * buffer_sizes[i] as size_t *)
Definition nbytes (n : nat) (t : ty) : Z := (num32 n * Z.of_nat (ty_size t)) mod W64.

(** Bytes that save() writes for one item (lines 75-83); copying more bytes than the vector
    owns is undefined (in practice the preceding bytes.resize(size()) throws; only for 2^31 elements or more). *)
Definition enc (i : item) : res (list Z) :=
  match i with
  | Scalar t img => Ok (le 2 (ty_id t) ++ img)
  | Vector t imgs =>
      if Z.of_nat (length (concat imgs)) <? nbytes (length imgs) t then UB
      else Ok (le 2 (ty_id I32) ++ le 4 (num32 (length imgs)) ++ le 2 (ty_id t) ++
               firstn (Z.to_nat (nbytes (length imgs) t)) (concat imgs))
  end.
(** Serializable.hpp:65-92 save *)
Fixpoint save (l : list item) : res (list Z) :=
  match l with
  | [] => Ok []
  | i :: l => match enc i, save l with
              | Ok a, Ok b => Ok (a ++ b)
              | UB, _ | _, UB => UB
              | _, _ => Throw
              end
  end.

(** Reading. [pos] is cpbytes - cpbytes_start. *)
Variable base : Z.
Variable bytes : list Z.

(** cpbytes + d > cpbytes_end, compared as addresses *)
Definition beyond (pos : nat) (d : Z) : bool :=
  base + Z.of_nat (length bytes) <? (base + Z.of_nat pos + d) mod W64.

(** the bytes [pos, pos + d) *)
Definition fetch (pos : nat) (d : Z) : res (list Z) :=
  if Z.of_nat pos + d <=? Z.of_nat (length bytes) then Ok (firstn (Z.to_nat d) (skipn pos bytes)) else UB.

(** The type id (lines 163-172) *)
Definition read_type (pos : nat) : res ty :=
  if beyond pos 2 then Throw
  else match fetch pos 2 with
       | Ok bs => match ty_of_id (unle bs) with Some t => Ok t | None => Throw end
       | Throw => Throw | UB => UB
       end.

(** deserialize(T& data, 1) (lines 160-266) *)
Definition read_scalar (dst : ty) (pos : nat) : res (list Z * nat) :=
  match read_type pos with
  | Ok src =>
      let d := Z.of_nat (ty_size src) in
      if beyond (pos + 2) d then Throw
      else match fetch (pos + 2) d with
           | Ok bs => Ok (conv src dst bs, (pos + 2 + ty_size src)%nat)
           | Throw => Throw | UB => UB
           end
  | Throw => Throw | UB => UB
  end.

Fixpoint chop (k : nat) (n : nat) (bs : list Z) : list (list Z) :=
  match n with O => [] | S n => firstn k bs :: chop k n (skipn k bs) end.

(** deserialize(std::vector<T>& data, num) (lines 269-388).  The temporary vector is built from the pointers p and
    p + num: std::vector throws if the distance is negative (i.e. larger than max_size as an unsigned number). *)
Definition read_elems (dst : ty) (num : Z) (pos : nat) : res (list (list Z) * nat) :=
  match read_type pos with
  | Ok src =>
      let d := (Z.of_nat (ty_size src) * num) mod W64 in
      if beyond (pos + 2) d then Throw
      else if 2 ^ 63 <=? d then Throw
      else match fetch (pos + 2) d with
           | Ok bs => let k := Z.to_nat (d / Z.of_nat (ty_size src)) in
                      Ok (map (conv src dst) (chop (ty_size src) k bs), (pos + 2 + Z.to_nat d)%nat)
           | Throw => Throw | UB => UB
           end
  | Throw => Throw | UB => UB
  end.

(** operator>> for vectors (lines 128-133): the length is read into a size_t; the elements are appended. *)
Definition read_vector (dst : ty) (old : list (list Z)) (pos : nat) : res (list (list Z) * nat) :=
  match read_scalar U64 pos with
  | Ok (len, pos1) =>
      match read_elems dst (unle len) pos1 with
      | Ok (new, pos2) => Ok (old ++ new, pos2)
      | Throw => Throw | UB => UB
      end
  | Throw => Throw | UB => UB
  end.

(** A reading program: variables in order; vectors are empty at first. *)
Inductive slot := SScalar (t : ty) | SVector (t : ty).
Fixpoint reads (l : list slot) (pos : nat) : res (list item * nat) :=
  match l with
  | [] => Ok ([], pos)
  | SScalar t :: l =>
      match read_scalar t pos with
      | Ok (v, p) => match reads l p with Ok (r, q) => Ok (Scalar t v :: r, q) | Throw => Throw | UB => UB end
      | Throw => Throw | UB => UB
      end
  | SVector t :: l =>
      match read_vector t [] pos with
      | Ok (v, p) => match reads l p with Ok (r, q) => Ok (Vector t v :: r, q) | Throw => Throw | UB => UB end
      | Throw => Throw | UB => UB
      end
  end.
End S.

Definition slot_of (i : item) : slot := match i with Scalar t _ => SScalar t | Vector t _ => SVector t end.
