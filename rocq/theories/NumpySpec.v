(** What a sparse matrix contains, independently of memory and of the conversions. *)
From Coq Require Import ZArith Bool List Lia.
Import ListNotations.
From Verif Require Import Base NumpyModel.
Set Implicit Arguments.

Section Spec.
Variable V : Type.
Notation content := (content V).
Definition at_ (l : list Z) (j : nat) : Z := nth j l 0%Z.
(** compressed column storage: column j consists of the positions outer(j) .. outer(j+1)-1 *)
Definition well_formed (c : content) : Prop :=
  (0 <= nr_ c < 2 ^ 31 /\ 0 <= nc_ c < 2 ^ 31 - 1)%Z /\ length (couter c) = S (Z.to_nat (nc_ c)) /\ length (cinner c) = length (cvals c) /\
  (Z.of_nat (length (cvals c)) < 2 ^ 31)%Z /\
  (forall j, (j < Z.to_nat (nc_ c))%nat -> (0 <= at_ (couter c) j <= at_ (couter c) (S j) /\ at_ (couter c) (S j) <= Z.of_nat (length (cvals c)))%Z).
(** the entries (row, column, value), column by column *)
Definition slice {A} (l : list A) (a b : Z) : list A := firstn (Z.to_nat (b - a)) (skipn (Z.to_nat a) l).
Definition triples (c : content) : list (Z * Z * V) :=
  flat_map (fun j => map (fun p => (fst p, Z.of_nat j, snd p)) (slice (combine (cinner c) (cvals c)) (at_ (couter c) j) (at_ (couter c) (S j)))) (seq 0 (Z.to_nat (nc_ c))).
(** the matrix of C++ at some place in memory has this content; the blocks may be longer than needed *)
Definition holds (h : heap V) (m : sparse) (c : content) : Prop :=
  srows m = nr_ c /\ scols m = nc_ c /\ nnz m = Z.of_nat (length (cvals c)) /\ compressed m = true /\
  (exists r, block h (outer m) = Some (map (@CI V) (couter c) ++ r)) /\ (exists r, block h (inner m) = Some (map (@CI V) (cinner c) ++ r)) /\
  (exists r, block h (vals m) = Some (map (@CV V) (cvals c) ++ r)).
(** the matrix that Python sees has this content *)
Definition sees (h : heap V) (m : csc) (c : content) : Prop :=
  crows m = nr_ c /\ ccols m = nc_ c /\ csc_entries h m = Ok (triples c).
(** an ordinary one-dimensional array of n elements *)
Definition vector (a : array) (n : Z) : Prop := shape a = [n] /\ exists s, strides a = [s].
(** what is live when a program starts: the matrix of the system and the objects lie in memory *)
Definition within (w : world V) : Prop :=
  (forall m, ham w = Some m -> outer m < length (hp w) /\ inner m < length (hp w) /\ vals m < length (hp w)) /\
  (forall o, In o (objs w) -> match o with PyVector a => buf a < length (hp w) | PyMatrix m => buf (data m) < length (hp w) end).
End Spec.
