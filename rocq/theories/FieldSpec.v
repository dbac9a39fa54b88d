(** Specification vocabulary for C30, C31, C62: spherical components, Cartesian forms,
    histories of setters, and the instance with the library's matrix elements.  No proofs. *)
From Verif Require Import Base StateModel MEModel Racah MESpec Matrix SystemModel FieldModel FieldProofs.
From Coq Require Import ZArith Bool Reals String List.
Import ListNotations.
Set Implicit Arguments.
Local Open Scope R_scope.

(** Spherical components of a real vector: v_0 = z, v_{+1} = -(x+iy)/sqrt 2, v_{-1} = (x-iy)/sqrt 2. *)
Definition spherical (v : vec) : sph :=
  Sph (vx v / sqrt 2, - vy v / sqrt 2) (vz v, 0) (- vx v / sqrt 2, - vy v / sqrt 2).
Definition vdot (a b : vec) : R := vx a * vx b + vy a * vy b + vz a * vz b.
Definition vcross (a b : vec) : vec :=
  (vy a * vz b - vz a * vy b, vz a * vx b - vx a * vz b, vx a * vy b - vy a * vx b).
(** r^2 C_{k,q}(r): solid harmonics in Racah normalisation, times r^(2-k). *)
Definition C00 (r : vec) : cx := (vdot r r, 0).
Definition C20 (r : vec) : cx := ((2 * vz r * vz r - vx r * vx r - vy r * vy r) / 2, 0).
Definition C21 (r : vec) : cx := (- (sqrt (3/2) * (vx r * vz r)), - (sqrt (3/2) * (vy r * vz r))).
Definition C2m1 (r : vec) : cx := (sqrt (3/2) * (vx r * vz r), - (sqrt (3/2) * (vy r * vz r))).
Definition C22 (r : vec) : cx := (sqrt (3/8) * (vx r * vx r - vy r * vy r), sqrt (3/8) * (2 * (vx r * vy r))).
Definition C2m2 (r : vec) : cx := (sqrt (3/8) * (vx r * vx r - vy r * vy r), - (sqrt (3/8) * (2 * (vx r * vy r)))).

(** The value is exactly zero or above the tolerance. *)
Definition crisp (tol : R) (x : cx) : Prop := x = (0, 0) \/ tol * tol < fst x * fst x + snd x * snd x.

Inductive fevent : Type := FSet (c : setter) | FInit.
Definition no_ops : opsT := Ops [] [] [] [].

Section Inst.
Variable radial : string -> Z -> string -> Z -> Z -> Z -> Z -> Z -> Z -> Z -> res R.
Variables (e_charge minus_muB gL gS : R).
Variables (dn : string) (mth : Z).
Variables (cdia cion tol : R).

Definition isT (r : res bool) : bool := match r with Ok true => true | _ => false end.
Definition val (r : res R) : R := match r with Ok v => v | _ => 0 end.
Definition iselE (k q : Z) (a b : state1) : bool := isT (selMultipoleQ a b k q).
Definition iselB (q : Z) (a b : state1) : bool := isT (selMomentumQ a b q).
Definition iselM (o : nat) (a b : state1) : bool := isT (selMultipole a b (Z.of_nat o)).
Definition idE (a b : state1) : R := val (multipole radial e_charge dn mth a b 1 1).
Definition idB (a b : state1) : R := val (magnetic radial minus_muB gL gS dn mth a b).
(** getDiamagnetism, MatrixElementCache.cpp:359-362 *)
Definition idD (k : Z) (a b : state1) : R := 2 / 3 * e_charge * val (multipole radial e_charge dn mth a b 2 k).
Definition idM (o : nat) (a b : state1) : R := val (multipole radial e_charge dn mth a b (Z.of_nat o) (Z.of_nat o)).

Definition initOne := initInt isArtificial m2 iselE iselB iselM idE idB idD idM cdia cion tol.
(** Operator elements: zero if forbidden by the selection rule, else the library's element. *)
Definition elem := vop isArtificial m2 iselE iselB iselM idE idB idD idM cdia cion.

(** Setters and (re)computation of the interaction, in any order, on a fixed basis. *)
Definition fstep (isreal : bool) (tbl : list (nat * state1)) (B : mat CR) (e : fevent) (x : one * opsT) : one * opsT :=
  match e with
  | FSet c => (fst (set_one isreal c (fst x)), snd x)
  | FInit => (fst x, initOne (fst x) tbl B (snd x))
  end.
Definition frun isreal tbl B (l : list fevent) (x : one * opsT) : one * opsT :=
  fold_left (fun x e => fstep isreal tbl B e x) l x.

(** States of one atom, listed with consecutive indices; artificial states are allowed. *)
Definition one_atom (sp : string) (sp2 : Z) (a : state1) : Prop :=
  isArtificial a = true \/ (physical a /\ species a = sp /\ s2 a = sp2).
Definition good_table sp sp2 (tbl : list (nat * state1)) : Prop :=
  map fst tbl = seq 0 (length tbl) /\ forall e, In e tbl -> one_atom sp sp2 (snd e).

(** Sum over the multipole orders 1 ... om of charge * element / distance^(order+1); no ion: None. *)
Definition ionSum (ch : Z) (om : nat) (d : option R) (a b : state1) : cx :=
  match d with
  | None => (0, 0)
  | Some r => fold_right (fun o acc => cadd (cmul (IZR ch / r ^ (o + 1), 0) (elem (KM o) a b)) acc) (0, 0) (seq 1 om)
  end.
(** -E.d - B.mu + diamagnetic term + ion term between the states a and b. *)
Definition interaction (E Bf : vec) (dm : bool) (ch : Z) (om : nat) (d : option R) (a b : state1) : cx :=
  let e := spherical E in let b0 := spherical Bf in
  let t := diaTerms b0 in
  cadd (cadd (copp (cmul (s_0 e) (elem (KE 0) a b)))
             (cadd (cmul (s_m e) (elem (KE 1) a b)) (cmul (s_p e) (elem (KE (-1)) a b))))
 (cadd (cadd (copp (cmul (s_0 b0) (elem (KB 0) a b)))
             (cadd (cmul (s_m b0) (elem (KB 1) a b)) (cmul (s_p b0) (elem (KB (-1)) a b))))
 (cadd (if dm then
          cadd (cmul (t00 t) (elem (KD 0 0) a b))
         (cadd (copp (cmul (t20 t) (elem (KD 2 0) a b)))
         (cadd (cmul (sqrt 3, 0) (cadd (cmul (t21 t) (elem (KD 2 1) a b)) (cmul (t2m1 t) (elem (KD 2 (-1)) a b))))
               (copp (cmul (sqrt (3/2), 0) (cadd (cmul (t22 t) (elem (KD 2 2) a b)) (cmul (t2m2 t) (elem (KD 2 (-2)) a b)))))))
        else (0, 0))
       (ionSum ch om d a b))).
End Inst.
