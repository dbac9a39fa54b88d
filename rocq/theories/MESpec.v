(** Specification vocabulary for C13-C18: physical states, the Racah-formula instance of the
    matrix-element model, fresh caches, and what a history must not do.  No proofs. *)
From Verif Require Import Base StateModel MEModel Racah.
From Coq Require Import ZArith Reals Bool String List.
Local Open Scope list_scope.
Local Open Scope Z_scope.
Set Implicit Arguments.

(** Quantum numbers as produced by coupling an orbital angular momentum l with a spin s:
    l + s - j and j - m are integers, |m| <= j, |l - s| <= j <= l + s. *)
Definition physical (a : state1) : Prop :=
  isArtificial a = false /\ 0 <= l a /\ 0 <= s2 a /\
  Z.even (2 * l a + s2 a - j2 a) = true /\ Z.even (j2 a - m2 a) = true /\
  Z.abs (m2 a) <= j2 a /\ Z.abs (2 * l a - s2 a) <= j2 a <= 2 * l a + s2 a.

(** Two states of the same atom. *)
Definition same_atom (a b : state1) : Prop := species a = species b /\ s2 a = s2 b.

(** A cache object without database file that has not been used, with the given settings. *)
Definition fresh (V : Type) (ddbn : string) (mth : Z) : cache V :=
  Cache (@nil (ckey * V)) nil mth ddbn false (Dbf (@nil (ckey * V)) None).

Section Real.
  Variable radial : string -> Z -> string -> Z -> Z -> Z -> Z -> Z -> Z -> Z -> res R.
  Variables (e_charge minus_muB gL gS : R).
  Definition sqrtZ (z : Z) : R := sqrt (IZR z).
  Definition sqrtL (x : Z) : R := sqrt (IZR (x * (x + 1) * (2 * x + 1))).
  Definition sqrtSpin (x2 : Z) : R := sqrt (IZR (x2 * (x2 + 2) * (x2 + 1)) / 4).
  Definition asis (l : list ckey) := l.
  Definition never (_ _ : rows R) := false.

  Definition multipole (ddbn : string) (mth : Z) (a b : state1) (kr ka : Z) : res R :=
    snd (getElectricMultipole 0%R 1%R Rmult Ropp W3j W6j sqrtZ radial asis e_charge (fresh R ddbn mth) a b kr ka).
  Definition magnetic (ddbn : string) (mth : Z) (a b : state1) : res R :=
    snd (getMagneticDipole 0%R 1%R Rplus Rmult Ropp W3j W6j sqrtZ radial asis minus_muB gL gS sqrtSpin sqrtL (fresh R ddbn mth) a b).

  (** The radial matrix element does not depend on the order of the two states; the code always asks
      for it in the order of the smaller (n, l, j) first. *)
  Definition radial_of (ddbn : string) (mth : Z) (a b : state1) (k : Z) : res R :=
    if (n a <? n b) || ((n a =? n b) && ((l a <? l b) || ((l a =? l b) && (j2 a <=? j2 b))))
    then radial ddbn mth (species a) k (n a) (n b) (l a) (l b) (j2 a) (j2 b)
    else radial ddbn mth (species a) k (n b) (n a) (l b) (l a) (j2 b) (j2 a).

  (** (-1)^((x2)/2) for an even doubled exponent. *)
  Definition phase (x2 : Z) : R := rsgn (x2 / 2).

  (** The textbook factors, for the states in the order in which they were given. *)
  Definition wigner_eckart (a b : state1) (k : Z) : R :=
    (phase (j2 a - m2 a) * W3j (j2 a) (2 * k) (j2 b) (- m2 a) (m2 a - m2 b) (m2 b))%R.
  Definition reduced_orbital (a b : state1) (k : Z) : R :=
    (phase (2 * l a + s2 a + j2 b + 2 * k) * sqrt (IZR ((j2 a + 1) * (j2 b + 1))) *
     W6j (2 * l a) (j2 a) (s2 a) (j2 b) (2 * l b) (2 * k))%R.
  Definition reduced_spin (a b : state1) (k : Z) : R :=
    (phase (2 * l a + s2 a + j2 a + 2 * k) * sqrt (IZR ((j2 a + 1) * (j2 b + 1))) *
     W6j (s2 a) (j2 a) (2 * l a) (j2 b) (s2 b) (2 * k))%R.
  Definition reduced_Ck (a b : state1) (k : Z) : R :=
    (rsgn (l a) * sqrt (IZR ((2 * l a + 1) * (2 * l b + 1))) * W3j (2 * l a) (2 * k) (2 * l b) 0 0 0)%R.

  Definition multipole_textbook (ddbn : string) (mth : Z) (a b : state1) (kr ka : Z) : res R :=
    do! r <- radial_of ddbn mth a b kr ;
    Ok (e_charge * r * wigner_eckart a b ka * reduced_orbital a b ka * reduced_Ck a b ka)%R.
  Definition magnetic_textbook (ddbn : string) (mth : Z) (a b : state1) : res R :=
    do! r <- radial_of ddbn mth a b 0 ;
    Ok (minus_muB * r * wigner_eckart a b 1 *
        (gL * reduced_orbital a b 1 * sqrtL (l a) + gS * reduced_spin a b 1 * sqrtSpin (s2 a)))%R.
End Real.

(** ** Histories (C15-C18).  Life of a cache object: not used yet; every request answered;
    precalculated or failed work pending. *)
Inductive life := Virgin | Settled | Pending.
Section Hist.
  Variable V : Type.
  (** [rs] are the results the requests of [h] returned.  [None]: the history contains a step for
      which the claim is not made: setDefectDB after first use, or setMethod while work is pending. *)
  Fixpoint track (p : life) (h : list (event V)) (rs : list (res V)) : option life :=
    match h with
    | [] => Some p
    | EPre _ _ _ _ _ _ _ _ :: h' => track Pending h' rs
    | ESetMethod _ _ :: h' => match p with Pending => None | _ => track p h' rs end
    | ESetDefect _ _ :: h' => match p with Virgin => track Virgin h' rs | _ => None end
    | EExtern _ :: h' => track p h' rs
    | ERestart _ :: h' => track Virgin h' rs
    | _ :: h' =>
        match rs with
        | Ok _ :: rs' => track Settled h' rs'
        | _ :: rs' => track Pending h' rs'
        | [] => None
        end
    end.
  (** The settings in force after a history. *)
  Fixpoint settings (dn : string) (mth : Z) (h : list (event V)) : string * Z :=
    match h with
    | [] => (dn, mth)
    | ESetMethod _ m :: h' => settings dn m h'
    | ESetDefect _ d :: h' => settings d mth h'
    | ERestart _ :: h' => settings EmptyString 0 h'
    | _ :: h' => settings dn mth h'
    end.
  (** Rows of a database file that hold the values the default settings give for their keys;
      a radial row belongs to the method written in the row. *)
  Definition kmeth (d : Z) (k : ckey) : Z := match k with KRad m _ _ _ _ _ _ _ _ => m | _ => d end.
  Definition rows_correct (calc : string -> Z -> ckey -> res V) (r : rows V) : Prop :=
    forall k v, In (k, v) r -> forall d, calc EmptyString (kmeth d k) k = Ok v.
End Hist.
