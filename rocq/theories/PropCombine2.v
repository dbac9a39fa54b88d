(** C76: where the hypotheses of the theorems of PropCombine.v are met, and where the pair basis is wrong without them. *)
From Coq Require Import QArith Qcanon ZArith Lia Bool List.
Import ListNotations.
From Verif Require Import Base Matrix PairDemo BasisnamesModel CombineModel CombineSpec CombineDemo PropCombine.
Local Open Scope nat_scope.

Lemma r2_eq : forall x y : r2, this (fst x) = this (fst y) -> this (snd x) = this (snd y) -> x = y.
Proof. intros [a b] [a' b'] H1 H2; cbn in *. f_equal; apply Qc_is_canon; [rewrite H1|rewrite H2]; reflexivity. Qed.
Definition raw (x : r2) : Q * Q := (this (fst x), this (snd x)).
Lemma raw_inj : forall x y, raw x = raw y -> x = y. Proof. intros x y H. injection H as H1 H2. apply r2_eq; assumption. Qed.
Lemma list_eq : forall l l' : list r2, map raw l = map raw l' -> l = l'.
Proof. induction l as [|x l IH]; intros [|y l'] H; try discriminate; [reflexivity|]. cbn [map] in H. injection H as H1 H2 H3. f_equal; [apply r2_eq; assumption|auto]. Qed.
Lemma list_eq2 : forall l l' : list (list r2), map (map raw) l = map (map raw) l' -> l = l'.
Proof. induction l as [|x l IH]; intros [|y l'] H; try discriminate; [reflexivity|]. cbn [map] in H. injection H as H1 H2. f_equal; [apply list_eq; assumption|auto]. Qed.
Ltac same := first [apply list_eq2|apply list_eq|idtac]; vm_compute; reflexivity.
Lemma half_sqrt_ok : sadd (s := R2) (smul (s := R2) half_sqrt half_sqrt) (smul (s := R2) half_sqrt half_sqrt) = s1.
Proof. apply r2_eq; reflexivity. Qed.

(** The hypotheses of the theorems: two S/P states that are unmixed (definite parity and m), orthonormal; every theorem applies. *)
Lemma plain_over : over plain SP /\ half SP /\ small SP SP /\
  (forall k, k < dim plain -> definite plain SP (fun s => sg (l_ s)) k (if Nat.eqb k 0 then 1%Z else (-1)%Z)) /\
  (forall k, k < dim plain -> definite plain SP mm k 1%Z).
Proof.
  repeat split; try reflexivity.
  - intros E. repeat (destruct H as [<-|H]; [discriminate|]); contradiction.
  - intros e I. cbn in H. destruct H as [<-|[<-|[]]]; destruct I as [<-|[]]; cbn; lia.
  - cbn in H. destruct H as [<-|[<-|[]]]; reflexivity.
  - cbn in H. destruct H as [<-|[<-|[]]]; reflexivity.
  - intros k Hk e s I N. cbn in Hk. destruct k as [|[|k]]; [| |lia]; cbn in I; destruct I as [<-|[]]; cbn in N; injection N as <-; reflexivity.
  - intros k Hk e s I N. cbn in Hk. destruct k as [|[|k]]; [| |lia]; cbn in I; destruct I as [<-|[]]; cbn in N; injection N as <-; reflexivity.
Qed.
Lemma plain_orthonormal : orthonormal plain.
Proof. intros a b Ha Hb. cbn in Ha, Hb. destruct a as [|[|a]], b as [|[|b]]; try lia; apply r2_eq; reflexivity. Qed.
Example C76_permutation_nonvacuous : exists M, run plain plain SP SP (Sym NA NA ODD None) = Ok M /\ dim M = 3 /\ orthonormal M.
Proof.
  destruct plain_over as (O & H & S & _).
  destruct (@C76_permutation R2 half_sqrt any plain SP (Sp, Sp) ODD) as (M & E & _ & D & _ & _ & _ & On);
    [exact half_sqrt_ok|reflexivity|discriminate|assumption..|]. exists M. repeat split; [exact E|exact D|apply On, plain_orthonormal].
Qed.
Example C76_inversion_nonvacuous : exists M, run plain plain SP SP (Sym EVEN NA NA None) = Ok M /\ dim M = 1 /\ orthonormal M.
Proof.
  destruct plain_over as (O & H & S & Q & _).
  destruct (@C76_inversion_partial R2 half_sqrt any plain SP (Sp, Sp) EVEN (fun k => if Nat.eqb k 0 then 1%Z else (-1)%Z) half_sqrt_ok eq_refl) as (M & E & _ & D & _ & _ & _ & On);
    [discriminate|assumption..|]. exists M. repeat split; [exact E|exact D|apply On, plain_orthonormal].
Qed.
Example C76_values :
  vectors (run plain plain SP SP (Sym NA NA ODD None)) = [[c1; c0; c0; c0]; [c0; ch; ch; c0]; [c0; c0; c0; c1]] /\
  vectors (run plain plain SP SP (Sym NA NA EVEN None)) = [[c0; cm; ch; c0]] /\
  vectors (run plain plain SP SP (Sym ODD NA NA None)) = [[c1; c0; c0; c0]; [c0; cm; ch; c0]; [c0; c0; c0; c1]] /\
  vectors (run plain plain SP SP (Sym EVEN NA NA None)) = [[c0; ch; ch; c0]] /\
  vectors (run plain plain SS SS (Sym NA EVEN NA (Some 0%Z))) = [[c0; ch; cm; c0]] /\
  vectors (run plain plain SS SS (Sym NA ODD NA (Some 1%Z))) = [[ch; c0; c0; cm]].
Proof. repeat split; same. Qed.
(** reflection: S_1/2 with both m *)
Lemma plain_full : over plain SS /\ half SS /\ small SS SS /\ closed SS /\
  (forall k, k < dim plain -> definite plain SS mm k (if Nat.eqb k 0 then 1%Z else (-1)%Z)).
Proof.
  repeat split; try reflexivity.
  - intros E. repeat (destruct H as [<-|H]; [discriminate|]); contradiction.
  - intros e I. cbn in H. destruct H as [<-|[<-|[]]]; destruct I as [<-|[]]; cbn; lia.
  - cbn in H. destruct H as [<-|[<-|[]]]; reflexivity.
  - cbn in H. destruct H as [<-|[<-|[]]]; reflexivity.
  - repeat constructor; cbn; intuition discriminate.
  - intros s I. cbn in I. destruct I as [<-|[<-|[]]]; [exists Sm|exists Sp]; split; cbn; auto.
  - intros k Hk e s I N. cbn in Hk. destruct k as [|[|k]]; [| |lia]; cbn in I; destruct I as [<-|[]]; cbn in N; injection N as <-; reflexivity.
Qed.
Example C76_reflection_nonvacuous : exists M, run plain plain SS SS (Sym NA EVEN NA (Some 0%Z)) = Ok M /\ dim M = 1 /\ orthonormal M.
Proof.
  destruct plain_full as (O & H & S & C & D).
  destruct (@C76_reflection_partial R2 half_sqrt any plain plain SS SS (Sp, Sp) EVEN (Some 0%Z) (fun k => if Nat.eqb k 0 then 1%Z else (-1)%Z) (fun k => if Nat.eqb k 0 then 1%Z else (-1)%Z) half_sqrt_ok eq_refl) as (M & E & _ & Dm & _ & _ & _ & On);
    [discriminate|assumption..|]. exists M. repeat split; [exact E|exact Dm|apply On; apply plain_orthonormal].
Qed.

(** Inversion symmetry and one-atom states of mixed parity (an electric field): the vectors of the one-atom basis are orthonormal,
    but EVEN yields a zero vector as basis vector with an energy, and ODD a vector of squared length 2. *)
Theorem C76_inversion_mixed_refuted :
  (exists M, run mixed mixed SP SP (Sym EVEN NA NA None) = Ok M /\ dim M = 1 /\ energy M 0 = q2 1 /\ forall r, r < 4 -> bvec M 0 r = Matrix.s0) /\
  sq_lengths (run mixed mixed SP SP (Sym ODD NA NA None)) = [c1; q2 2; c1] /\ sq_lengths (Ok mixed) = [c1; c1].
Proof.
  split; [|split; same].
  assert (V : vectors (run mixed mixed SP SP (Sym EVEN NA NA None)) = [[c0; c0; c0; c0]]) by (same).
  assert (L : energies (run mixed mixed SP SP (Sym EVEN NA NA None)) = [q2 1]) by (same).
  destruct (run mixed mixed SP SP (Sym EVEN NA NA None)) as [M| |]; try discriminate. exists M. split; [reflexivity|].
  cbn [vectors energies] in *. destruct (dim M) as [|[|d]] eqn:D; try discriminate. split; [reflexivity|]. split.
  - unfold energy. rewrite L. reflexivity.
  - cbn [seq map] in V. injection V as V. destruct (coords M) as [|[|[|[|[|c]]]]]; try discriminate. cbn [seq map] in V. injection V as V0 V1 V2 V3.
    intros r Hr. destruct r as [|[|[|[|r]]]]; [assumption..|lia].
Qed.
(** Total magnetic quantum number and one-atom states of mixed m: the pair states are truncated and not normalised (nor orthogonal) *)
Theorem C76_rotation_mixed_refuted :
  let hf := q2 (1 # 2) in let mf := q2 (-1 # 2) in
  vectors (run mixed mixed SS SS (Sym NA NA NA (Some 0%Z))) = [[c0; hf; hf; c0]; [c0; mf; hf; c0]; [c0; hf; mf; c0]; [c0; mf; mf; c0]] /\
  sq_lengths (run mixed mixed SS SS (Sym NA NA NA (Some 0%Z))) = [hf; hf; hf; hf].
Proof. split; same. Qed.
(** Reflection symmetry and states without partner of opposite m: an entry of the table of mirrored states that was never written (-1) is
    used as a row of the matrix. *)
Theorem C76_reflection_open_refuted : isUB (run plain plain SP SP (Sym NA EVEN NA None)) = true /\ isUB (run plain plain SP SP (Sym NA ODD NA None)) = true.
Proof. split; same. Qed.
(** Reflection and permutation symmetry together and one-atom states of mixed parity and definite m (an electric field in z
    direction, which both symmetries allow): basis vectors of squared length 1/2; without the field the lengths are 1. *)
Theorem C76_reflection_permutation_refuted :
  let hf := q2 (1 # 2) in
  sq_lengths (run stark4 stark4 full full (Sym NA EVEN EVEN None)) = [c1; hf; hf; hf; hf] /\
  sq_lengths (run plain4 plain4 full full (Sym NA EVEN EVEN None)) = [c1; c1; c1; c1].
Proof. split; same. Qed.

Print Assumptions C76_product. Print Assumptions C76_rotation_partial. Print Assumptions C76_permutation. Print Assumptions C76_inversion_partial.
Print Assumptions C76_inversion_permutation_partial. Print Assumptions C76_permutation_complete. Print Assumptions C76_inversion_complete_partial.
Print Assumptions C76_reflection_partial. Print Assumptions C76_inversion_mixed_refuted. Print Assumptions C76_rotation_mixed_refuted.
Print Assumptions C76_reflection_open_refuted. Print Assumptions C76_reflection_permutation_refuted.
