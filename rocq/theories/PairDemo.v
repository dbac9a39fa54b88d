(** A concrete scalar field with a square root of 2, and small one-atom systems, for the examples of PropPair.v. *)
From Verif Require Import Base StateModel Matrix SystemModel RangeModel PairModel PairSpec.
From Coq Require Import QArith Qcanon ZArith Bool String List.
Import ListNotations.
Local Open Scope string_scope.
Local Open Scope list_scope.

(** a + b sqrt 2 *)
Definition r2 : Type := (Qc * Qc)%type.
Definition r2_add (x y : r2) : r2 := (fst x + fst y, snd x + snd y)%Qc.
Definition r2_sub (x y : r2) : r2 := (fst x - fst y, snd x - snd y)%Qc.
Definition r2_opp (x : r2) : r2 := (- fst x, - snd x)%Qc.
Definition r2_mul (x y : r2) : r2 := (fst x * fst y + Q2Qc (2 # 1) * (snd x * snd y), fst x * snd y + snd x * fst y)%Qc.
(** a + b sqrt 2 > 0 *)
Definition qc_lt (x y : Qc) : bool := match (x ?= y)%Qc with Lt => true | _ => false end.
Definition qc_le (x y : Qc) : bool := negb (qc_lt y x).
Definition r2_pos (x : r2) : bool :=
  let '(a, b) := x in let z := Q2Qc 0 in
  if qc_le z a then if qc_le z b then negb (qc_le a z && qc_le b z) else qc_lt (Q2Qc (2 # 1) * (b * b))%Qc (a * a)%Qc
  else if qc_le b z then false else qc_lt (a * a)%Qc (Q2Qc (2 # 1) * (b * b))%Qc.
Lemma r2_ring : ring_theory (Q2Qc 0, Q2Qc 0) (Q2Qc 1, Q2Qc 0) r2_add r2_mul r2_sub r2_opp eq.
Proof.
  constructor; intros; repeat match goal with x : r2 |- _ => destruct x end;
  apply injective_projections; unfold r2_add, r2_mul, r2_sub, r2_opp; cbn [fst snd]; ring.
Qed.
Definition R2 : StarRing.
Proof.
  refine (@Build_StarRing r2 (Q2Qc 0, Q2Qc 0) (Q2Qc 1, Q2Qc 0) r2_add r2_mul r2_sub r2_opp (fun x => x)
    (fun x y => r2_pos (r2_sub y x)) r2_ring _ _ _); auto.
Defined.
Definition q2 (a : Q) : R2 := (Q2Qc a, Q2Qc 0).
(** 1/sqrt 2 = sqrt 2 / 2 *)
Definition half_sqrt : R2 := (Q2Qc 0, Q2Qc (1 # 2)).
Definition thr2 : R2 := q2 (5 # 100).

Definition st (n l j2 m2 : Z) : state1 := St1 "Rb" "Rb" n l j2 m2 1 0.
Definition arti (label : string) : state1 := St1 label "" 0 0 0 0 0 0.
Definition sS : state1 := st 10 0 1 1.
Definition sP : state1 := st 10 1 1 1.
Definition sD : state1 := st 10 2 3 1.
Definition sSm : state1 := st 10 0 1 (-1).

(** Unmixed states; two states mixed by an electric field (parity not conserved); a state of
    definite parity mixing S and D. *)
Definition pure (ss : list state1) : @onesys R2 :=
  OneSys ss (map (fun r => [(r, s1)]) (seq 0 (length ss))) (map (fun r => q2 (inject_Z (Z.of_nat r))) (seq 0 (length ss))).
Definition stark : @onesys R2 := OneSys [sS; sP] [[(0%nat, half_sqrt); (1%nat, half_sqrt)]; [(0%nat, half_sqrt); (1%nat, sopp half_sqrt)]] [q2 0; q2 1].
Definition mixedSD : @onesys R2 :=
  OneSys [sS; sP; sD] [[(0%nat, half_sqrt); (2%nat, half_sqrt)]; [(1%nat, s1)]; [(0%nat, half_sqrt); (2%nat, sopp half_sqrt)]] [q2 0; q2 1; q2 2].
Definition free2 : @request R2 state2 := Request (K:=R2) (State:=state2) (Ranges [] [] [] []) None None [].
Definition h0 {A} : A -> N := fun _ => 0%N.
Definition noE (s : state1) : res R2 := Ok s0.
Definition run2 (s1 s2 : @onesys R2) (sinv sref sperm : parity) (srot : option (list Z)) (chosen : list (nat * nat)) :=
  initBasis2 (K:=R2) h0 h0 h0 half_sqrt noE s1 s2 "Rb" "Rb" sinv sref sperm srot chosen thr2 free2.
(** Squared lengths of the columns of the result. *)
Definition lengths (r : list (nat * state2) * res (mat R2 * mat R2)) : list r2 :=
  match snd r with Ok (b, _) => map (fun k => colsq b k : r2) (seq 0 (nc b)) | _ => [] end.
Definition rows2 (r : list (nat * state2) * res (mat R2 * mat R2)) : list (list r2) :=
  match snd r with Ok (b, _) => map (fun i => map (fun k => at_ b i k : r2) (seq 0 (nc b))) (seq 0 (nr b)) | _ => [] end.
