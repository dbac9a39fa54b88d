(** Small one-atom systems over a + b sqrt 2 (PairDemo.R2) for the examples of PropCombine2.v. *)
From Coq Require Import QArith Qcanon ZArith Lia Bool List.
Import ListNotations.
From Verif Require Import Base Matrix PairDemo BasisnamesModel CombineModel CombineSpec.
Local Open Scope nat_scope.

Definition any (x : R2) : bool := true.
Definition names_of (l : list one) : names_one := NamesOne (Z.of_nat (length l)) l [].
(** n S_1/2, n P_1/2 *)
Definition Sp : one := One 0 10 0 1 1.
Definition Pp : one := One 1 10 1 1 1.
Definition Sm : one := One 1 10 0 1 (-1).
Definition SP : names_one := names_of [Sp; Pp].
Definition SS : names_one := names_of [Sp; Sm].
Definition h : R2 := half_sqrt.
Definition mh : R2 := sopp half_sqrt.
(** unmixed states, states mixed by a field *)
Definition plain : hmat R2 := HMat 2 [[(0, s1)]; [(1, s1)]] [q2 0; q2 1].
Definition mixed : hmat R2 := HMat 2 [[(0, h); (1, h)]; [(0, h); (1, mh)]] [q2 0; q2 1].
Definition pairnames (b1 b2 : names_one) : list two := names2 (build2 (Sp, Sp) b1 b2).
Definition run (lhs rhs : hmat R2) (b1 b2 : names_one) (s : symmetry) : res (hmat R2) := combine half_sqrt any lhs rhs (pairnames b1 b2) s.
(** squared lengths; the basis vectors *)
Definition sq_lengths (r : res (hmat R2)) : list r2 :=
  match r with Ok M => map (fun k => inner (coords M) (bvec M k) (bvec M k) : r2) (seq 0 (dim M)) | _ => [] end.
Definition vectors (r : res (hmat R2)) : list (list r2) :=
  match r with Ok M => map (fun k => map (fun c => bvec M k c : r2) (seq 0 (coords M))) (seq 0 (dim M)) | _ => [] end.
Definition energies (r : res (hmat R2)) : list r2 := match r with Ok M => ediag M | _ => [] end.
Definition isUB {A} (r : res A) : bool := match r with UB => true | _ => false end.

Definition c0 : r2 := @Matrix.s0 R2.
Definition c1 : r2 := @Matrix.s1 R2.
Definition ch : r2 := half_sqrt.
Definition cm : r2 := mh.
(** S_1/2 and P_1/2 with both m *)
Definition full : names_one := names_of [Sp; Sm; One 2 10 1 1 1; One 3 10 1 1 (-1)].
(** an electric field in z direction: definite m, mixed parity *)
Definition stark4 : hmat R2 := HMat 4 [[(0, h); (2, h)]; [(0, h); (2, mh)]; [(1, h); (3, h)]; [(1, h); (3, mh)]] [q2 0; q2 1; q2 0; q2 1].
Definition plain4 : hmat R2 := HMat 4 [[(0, s1)]; [(1, s1)]; [(2, s1)]; [(3, s1)]] [q2 0; q2 0; q2 1; q2 1].
