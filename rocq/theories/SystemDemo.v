(** A small computable instance of the system model, used for examples and counterexamples:
    states and keys are numbers, the basis consists of the states added by the user,
    the energy of state n is n, operator k couples states at distance k. *)
From Verif Require Import Base Matrix LookupModel SystemModel.
From Coq Require Import ZArith Bool Arith List.
Import ListNotations.

Definition dparam := list (nat * Z).
Definition d_init (p : dparam) (rq : @request ZR nat) : list (nat * nat) * res (mat ZR * mat ZR) :=
  match rq_add rq with
  | [] => ([], Throw)
  | l => if has_dup l then ([], Throw) else
         let n := length l in
         (combine (seq 0 n) l,
          Ok (mid n, Mat (K:=ZR) n n (fun i j => if (i =? j)%nat then Z.of_nat (nth i l 0) else 0%Z)))
  end.
Definition d_keys (p : dparam) : list (nat * ZR) := p.
(** zero between artificial states (labels from 100 on) *)
Definition d_op (k a b : nat) : ZR :=
  if (((a =? b + k) || (b =? a + k)) && (a <? 100) && (b <? 100))%nat then 1%Z else 0%Z.
(** one angle only: the identity rotation *)
Definition d_rot (a : unit) (l : list (nat * nat)) : list (nat * nat * ZR) :=
  map (fun e => (fst e, fst e, 1%Z)) l.
Fixpoint d_same (p q : dparam) : bool :=
  match p, q with
  | [], [] => true
  | (a, x) :: p', (b, y) :: q' => (a =? b)%nat && (x =? y)%Z && d_same p' q'
  | _, _ => false
  end.
Definition d_compat (p q : dparam) : res dparam := if d_same p q then Ok p else Throw.
(** label of an artificial state: 100 + the first coefficient of the vector *)
Definition d_label (l : list nat) (f : nat -> ZR) (n : nat) : nat := (100 + Z.to_nat (f 0%nat))%nat.
Definition d_valid (g : ranges) (x : nat) : bool :=
  is_nil (rg_n g) || existsb (Z.eqb (Z.of_nat x)) (rg_n g).

Notation dsys := (@sys ZR nat dparam nat).
Notation dcall := (@call ZR nat dparam nat unit).
Definition dexec (c : dcall) (s : dsys) := exec Nat.eqb (fun _ => false) Nat.eqb d_valid d_init d_keys d_op d_rot d_compat d_label c s.
Definition drun (l : list dcall) (s : dsys) := run Nat.eqb (fun _ => false) Nat.eqb d_valid d_init d_keys d_op d_rot d_compat d_label l s.
Definition dnew (p : dparam) : dsys := new_sys p false (0%Z : ZR).
(** The part of a system that can be printed: states, matrices as lists, flags. *)
Definition mrows (A : mat ZR) : list (list Z) :=
  map (fun i => map (fun j => at_ A i j : Z) (seq 0 (nc A))) (seq 0 (nr A)).
Definition view (s : dsys) := (map snd (states s), mrows (bv s), mrows (ham s)).

(** ** A second instance with rational numbers and two states *)
From Coq Require Import QArith Qcanon.
Definition qlt (x y : Qc) : bool := match (x ?= y)%Qc with Lt => true | _ => false end.
Definition QR : StarRing.
Proof.
  refine (@Build_StarRing Qc (Q2Qc 0) (Q2Qc 1) Qcplus Qcmult Qcminus Qcopp (fun x => x) qlt _ _ _ _).
  - exact Qcrt.
  - auto.
  - auto.
  - auto.
Defined.
Definition q (a : Z) (b : positive) : QR := Q2Qc (a # b).

Definition qparam := list (nat * QR).
(** states 0 and 1 with energies 16 and 9 *)
Definition q_init (p : qparam) (rq : @request QR nat) : list (nat * nat) * res (mat QR * mat QR) :=
  ([(0, 0); (1, 1)]%nat, Ok (mid 2, mlist 2 2 [[q 16 1; q 0 1]; [q 0 1; q 9 1]])).
(** operator 0: off-diagonal -12; operator 1: off-diagonal 1 *)
Definition q_op (k a b : nat) : QR :=
  if (a =? b)%nat then q 0 1 else if (k =? 0)%nat then q (-12) 1 else q 1 1.
(** rotation of the plane by an angle given by cosine and sine *)
Definition q_rot (a : QR * QR) (l : list (nat * nat)) : list (nat * nat * QR) :=
  [(0, 0, fst a); (0, 1, sopp (snd a)); (1, 0, snd a); (1, 1, fst a)]%nat.
Notation qsys := (@sys QR nat qparam nat).
Notation qcall := (@call QR nat qparam nat (QR * QR)).
Definition qrun (l : list qcall) (s : qsys) :=
  run Nat.eqb (fun _ => false) Nat.eqb (fun _ _ => true) q_init (fun p => p) q_op q_rot (fun p _ => Ok p) (fun _ _ n => n) l s.
Definition qexec (c : qcall) (s : qsys) :=
  exec Nat.eqb (fun _ => false) Nat.eqb (fun _ _ => true) q_init (fun p => p) q_op q_rot (fun p _ => Ok p) (fun _ _ n => n) c s.
Definition qnew : qsys := new_sys ([] : qparam) false (q 0 1).
Definition qrows (A : mat QR) : list (list Q) :=
  map (fun i => map (fun j => this (at_ A i j)) (seq 0 (nc A))) (seq 0 (nr A)).
(** With operator 0 and coefficient 1, H = ((16, -12), (-12, 9)) has the eigenvalues 0 and 25. *)
Definition Uq : mat QR := mlist 2 2 [[q 3 5; q (-4) 5]; [q 4 5; q 3 5]].
Definition Dq : mat QR := mlist 2 2 [[q 0 1; q 0 1]; [q 0 1; q 25 1]].
