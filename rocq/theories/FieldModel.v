(** Model of the fields of SystemOne: setters, spherical components,
    initializeInteraction and addInteraction (SystemOne.cpp).  No proofs except
    the ring laws of the complex numbers. *)
From Verif Require Import Base Matrix.
From Coq Require Import ZArith Lia Bool Arith Reals List.
Import ListNotations.
Set Implicit Arguments.
Local Open Scope R_scope.

(** std::complex<double>, exact; also used for the scalar type double (imaginary part 0). *)
Definition cx := (R * R)%type.
Definition cadd (x y : cx) : cx := (fst x + fst y, snd x + snd y).
Definition cmul (x y : cx) : cx := (fst x * fst y - snd x * snd y, fst x * snd y + snd x * fst y).
Definition csub (x y : cx) : cx := (fst x - fst y, snd x - snd y).
Definition copp (x : cx) : cx := (- fst x, - snd x).
Definition cconj (x : cx) : cx := (fst x, - snd x).
Definition cltre (x y : cx) : bool := if Rlt_dec (fst x) (fst y) then true else false.

Lemma cx_ring : ring_theory (0, 0) (1, 0) cadd cmul csub copp eq.
Proof.
  constructor; intros; repeat match goal with x : cx |- _ => destruct x end;
  apply injective_projections; unfold cadd, cmul, csub, copp; cbn [fst snd]; ring.
Qed.

Definition CR : StarRing.
Proof.
  refine (@Build_StarRing cx (0, 0) (1, 0) cadd cmul csub copp cconj cltre cx_ring _ _ _);
  intros; repeat match goal with x : cx |- _ => destruct x end;
  apply injective_projections; unfold cadd, cmul, cconj; cbn [fst snd]; ring.
Defined.

Definition ofR (x : R) : CR := (x, 0).

(** ** Fields *)

Definition vec := (R * R * R)%type.
Definition vx (v : vec) : R := fst (fst v).
Definition vy (v : vec) : R := snd (fst v).
Definition vz (v : vec) : R := snd v.

(** efield_spherical, bfield_spherical: maps with the keys -1, 0, +1. *)
Record sph : Type := Sph { s_m : CR; s_0 : CR; s_p : CR }.
Definition sph0 : sph := Sph (0, 0) (0, 0) (0, 0).

(** SystemOne.cpp:828-846 changeToSphericalbasis; [isreal]: Scalar = double. *)
Definition toSpherical (isreal : bool) (v : vec) : res sph :=
  if isreal then
    if Req_EM_T (vy v) 0 then Ok (Sph (ofR (vx v / sqrt 2)) (ofR (vz v)) (ofR (- vx v / sqrt 2)))
    else Throw
  else Ok (Sph (vx v / sqrt 2, - vy v / sqrt 2) (vz v, 0) (- vx v / sqrt 2, - vy v / sqrt 2)).

(** diamagnetism_terms (SystemOne.cpp:73-80) *)
Record dterms : Type := DTerms { t00 : CR; t20 : CR; t21 : CR; t2m1 : CR; t22 : CR; t2m2 : CR }.
Definition diaTerms (b : sph) : dterms :=
  DTerms (csub (cmul (s_0 b) (s_0 b)) (cmul (cmul (s_p b) (s_m b)) (2, 0)))
         (cadd (cmul (s_0 b) (s_0 b)) (cmul (s_p b) (s_m b)))
         (cmul (s_0 b) (s_m b)) (cmul (s_0 b) (s_p b))
         (cmul (s_m b) (s_m b)) (cmul (s_p b) (s_p b)).
Definition dterms0 : dterms := DTerms (0, 0) (0, 0) (0, 0) (0, 0) (0, 0) (0, 0).

Inductive par3 := PNA | PEVEN | PODD.

(** Members of SystemOne (SystemOne.hpp:115-166, constructors SystemOne.cpp:25-47) and the flags of
    SystemBase the setters look at.  [f_built]: states nonempty; [f_cached]: the unperturbed
    data are kept; [f_incons]: only one of the two is kept.
    sym_rotation: [None] is {ARB}; otherwise doubled momenta. *)
Record one : Type := One {
  f_contained : bool; f_cached : bool; f_incons : bool; f_required : bool; f_built : bool;
  efield : vec; esph : sph; bfield : vec; bsph : sph; dia : dterms; diamag : bool;
  charge : Z; ordermax : nat; distance : option R;
  refl : par3; rot : option (list Z) }.

Definition one_set_required (s : one) : one :=
  One (f_contained s) (f_cached s) (f_incons s) true (f_built s) (efield s) (esph s) (bfield s) (bsph s)
      (dia s) (diamag s) (charge s) (ordermax s) (distance s) (refl s) (rot s).
Definition one_set_e (v : vec) (e : sph) (s : one) : one :=
  One (f_contained s) (f_cached s) (f_incons s) (f_required s) (f_built s) v e (bfield s) (bsph s)
      (dia s) (diamag s) (charge s) (ordermax s) (distance s) (refl s) (rot s).
Definition one_set_b (v : vec) (b : sph) (d : dterms) (s : one) : one :=
  One (f_contained s) (f_cached s) (f_incons s) (f_required s) (f_built s) (efield s) (esph s) v b
      d (diamag s) (charge s) (ordermax s) (distance s) (refl s) (rot s).
Definition one_set_misc (dm : bool) (c : Z) (o : nat) (d : option R) (s : one) : one :=
  One (f_contained s) (f_cached s) (f_incons s) (f_required s) (f_built s) (efield s) (esph s) (bfield s) (bsph s)
      (dia s) dm c o d (refl s) (rot s).
Definition one_set_sym (p : par3) (r : option (list Z)) (s : one) : one :=
  One (f_contained s) (f_cached s) (f_incons s) (f_required s) (f_built s) (efield s) (esph s) (bfield s) (bsph s)
      (dia s) (diamag s) (charge s) (ordermax s) (distance s) p r.

(** SystemBase.cpp:1312-1329 *)
Definition onParameterChange (s : one) : one * res unit :=
  if f_incons s then (s, Throw)
  else if f_contained s && negb (f_cached s) then (s, Throw)
  else (one_set_required s, Ok tt).
(** SystemBase.cpp:1331-1337 *)
Definition onSymmetryChange (s : one) : one * res unit :=
  if f_built s then (s, Throw) else (s, Ok tt).

(** SystemOne.cpp:876-889 isRefelectionAndRotationCompatible *)
Definition compatible (p : par3) (r : option (list Z)) : bool :=
  match r, p with
  | None, _ => true
  | _, PNA => true
  | Some l, _ => forallb (fun m => existsb (Z.eqb (- m)%Z) l) l
  end.

Inductive setter : Type :=
| SetE (v : vec) | SetB (v : vec) | SetDia (b : bool)
| SetCharge (c : Z) | SetOrder (o : nat) | SetDist (d : R)
| SetRefl (p : par3)
| SetRot (arb : bool) (l : list Z).

(** SystemOne.cpp:56-156.  The argument of setConservedMomentaUnderRotation is the set [l],
    with ARB in addition if [arb]. *)
Definition set_one (isreal : bool) (c : setter) (s : one) : one * res unit :=
  match c with
  | SetE v =>
      match onParameterChange s with
      | (s1, Ok _) =>
          match toSpherical isreal v with
          | Ok e => (one_set_e v e s1, Ok tt)
          | Throw => (one_set_e v (esph s1) s1, Throw)
          | UB => (s1, UB)
          end
      | r => r
      end
  | SetB v =>
      match onParameterChange s with
      | (s1, Ok _) =>
          match toSpherical isreal v with
          | Ok b => (one_set_b v b (diaTerms b) s1, Ok tt)
          | Throw => (one_set_b v (bsph s1) (dia s1) s1, Throw)
          | UB => (s1, UB)
          end
      | r => r
      end
  | SetDia b =>
      match onParameterChange s with
      | (s1, Ok _) => (one_set_misc b (charge s1) (ordermax s1) (distance s1) s1, Ok tt)
      | r => r
      end
  | SetCharge z =>
      match onParameterChange s with
      | (s1, Ok _) => (one_set_misc (diamag s1) z (ordermax s1) (distance s1) s1, Ok tt)
      | r => r
      end
  | SetOrder o =>
      match onParameterChange s with
      | (s1, Ok _) => (one_set_misc (diamag s1) (charge s1) o (distance s1) s1, Ok tt)
      | r => r
      end
  | SetDist d =>
      match onParameterChange s with
      | (s1, Ok _) => (one_set_misc (diamag s1) (charge s1) (ordermax s1) (Some d) s1, Ok tt)
      | r => r
      end
  | SetRefl p =>
      match onSymmetryChange s with
      | (s1, Ok _) => let s2 := one_set_sym p (rot s1) s1 in
                      if compatible p (rot s1) then (s2, Ok tt) else (s2, Throw)
      | r => r
      end
  | SetRot arb l =>
      if arb && negb (match l with [] => true | _ => false end) then (s, Throw)
      else
        match onSymmetryChange s with
        | (s1, Ok _) => let r := if arb then None else Some l in
                        let s2 := one_set_sym (refl s1) r s1 in
                        if compatible (refl s1) r then (s2, Ok tt) else (s2, Throw)
        | r => r
        end
  end.

(** Fresh SystemOne (SystemOne.cpp:25-47). *)
Definition new_one : one :=
  One false false false false false (0, 0, 0) sph0 (0, 0, 0) sph0 dterms0 true 0 0 None PNA None.

(** ** Operators *)
Section Ops.
Context {State : Type}.
(** State::isArtificial, and the doubled magnetic quantum number *)
Variable artificial : State -> bool.
Variable m2 : State -> Z.
(** selectionRulesMultipoleNew(r, c, kappa, q), selectionRulesMomentumNew(r, c, q), and
    selectionRulesMultipoleNew(r, c, kappa) without q. *)
Variable selE : Z -> Z -> State -> State -> bool.
Variable selB : Z -> State -> State -> bool.
Variable selM : nat -> State -> State -> bool.
(** getElectricDipole, getMagneticDipole, getDiamagnetism, getElectricMultipole (all real). *)
Variable dE dB : State -> State -> R.
Variable dD : Z -> State -> State -> R.
Variable dM : nat -> State -> State -> R.
(** 1/(8 m_e) and -k_C e *)
Variable cdia cion : R.

Definition tbl_t := list (nat * State).

(** setFromTriplets of all (r.idx, c.idx, f r c) with [keep] (SystemOne.cpp:431-497). *)
Definition trips (tbl : tbl_t) (keep : nat * State -> nat * State -> bool) (f : State -> State -> R)
  : list (nat * nat * CR) :=
  flat_map (fun c => if artificial (snd c) then [] else
    flat_map (fun r => if artificial (snd r) then [] else
      if keep r c then [(fst r, fst c, ofR (f (snd r) (snd c)))] else []) tbl) tbl.

(** Lines 446-456: the E-field triplets of index [i]; [erange] is the list of indices that are
    computed in this call, in the order of the unordered_map; the loop stops at the first hit. *)
Fixpoint hit (erange : list Z) (sel : Z -> bool) (lower : bool) : option Z :=
  match erange with
  | [] => None
  | i :: l => if (i =? 0)%Z && negb lower then hit l sel lower
              else if sel i then Some i else hit l sel lower
  end.
Definition keepE (erange : list Z) (i : Z) (r c : nat * State) : bool :=
  match hit erange (fun q => selE 1 q (snd r) (snd c)) (fst c <=? fst r)%nat with
  | Some q => (q =? i)%Z | None => false end.
(** Lines 459-469 *)
Definition keepB (brange : list Z) (i : Z) (r c : nat * State) : bool :=
  match hit brange (fun q => selB q (snd r) (snd c)) (fst c <=? fst r)%nat with
  | Some q => (q =? i)%Z | None => false end.
(** Lines 472-482 (no break) *)
Definition keepD (k i : Z) (r c : nat * State) : bool :=
  negb ((i =? 0)%Z && (fst r <? fst c)%nat) && selE k i (snd r) (snd c).
(** Lines 485-496 ([int q = r.m - c.m], both half-integral) *)
Definition keepM (o : nat) (r c : nat * State) : bool :=
  ((m2 (snd r) - m2 (snd c)) ÷ 2 =? 0)%Z && selM o (snd r) (snd c).

(** Eigen's selfadjointView<Lower> *)
Definition lowerView (A : mat CR) : mat CR :=
  Mat (nr A) (nc A) (fun i j => if (j <=? i)%nat then at_ A i j else sconj (at_ A j i)).

(** Lines 503-563: the operators of one index pair (i, -i), i >= 0. *)
Definition store (B : mat CR) (n : nat) (i : Z) (tr : list (nat * nat * CR)) : list (Z * mat CR) :=
  let A := mtrip n n tr in
  if (i =? 0)%Z then [(0%Z, mconj B (lowerView A))]
  else let X := mconj B A in
       [(i, X); ((- i)%Z, mscale (if Z.even i then ((1, 0) : CR) else ((-1, 0) : CR)) (madj X))].

Definition initE (tbl : tbl_t) (B : mat CR) (erange : list Z) : list (Z * mat CR) :=
  flat_map (fun i => store B (length tbl) i (trips tbl (keepE erange i) dE)) erange.
Definition initB (tbl : tbl_t) (B : mat CR) (brange : list Z) : list (Z * mat CR) :=
  flat_map (fun i => store B (length tbl) i (trips tbl (keepB brange i) dB)) brange.
Definition initD (tbl : tbl_t) (B : mat CR) (drange : list (Z * Z)) : list (Z * Z * mat CR) :=
  flat_map (fun ki => map (fun e => ((fst ki, fst e), snd e))
    (store B (length tbl) (snd ki)
       (trips tbl (keepD (fst ki) (snd ki)) (fun r c => (cdia * dD (fst ki) r c)%R)))) drange.
Definition initM (tbl : tbl_t) (B : mat CR) (orange : list nat) : list (nat * mat CR) :=
  map (fun o => (o, mconj B (mtrip (length tbl) (length tbl)
     (trips tbl (keepM o) (fun r c => (cion * dM o r c)%R))))) orange.

(** std::abs(x) > 1e-24 *)
Variable tol : R.
Definition big (x : CR) : bool :=
  if Rlt_dec (tol * tol) (fst x * fst x + snd x * snd x) then true else false.

Definition lookup {X} (eqb : X -> X -> bool) (k : X) (l : list (X * mat CR)) : mat CR :=
  match find (fun e => eqb (fst e) k) l with Some e => snd e | None => mzero 0 0 end.
Definition eqb2 (a b : Z * Z) : bool := ((fst a =? fst b) && (snd a =? snd b))%Z.

Record opsT : Type := Ops { oE : list (Z * mat CR); oB : list (Z * mat CR);
  oD : list (Z * Z * mat CR); oM : list (nat * mat CR) }.

(** Lines 345-380: what has to be computed.  [ord] stands for the iteration order of the unordered maps. *)
Definition has {X} (eqb : X -> X -> bool) (k : X) (l : list (X * mat CR)) : bool := existsb (fun e => eqb (fst e) k) l.
Definition erange_of (f : sph) (l : list (Z * mat CR)) : list Z :=
  filter (fun i => big (if (i =? 0)%Z then s_0 f else s_p f) && negb (has Z.eqb (- i)%Z l)) [0; 1]%Z.
Definition drange_of (dm : bool) (t : dterms) (l : list (Z * Z * mat CR)) : list (Z * Z) :=
  filter (fun ki => dm && big (if eqb2 ki (0, 0)%Z then t00 t else if eqb2 ki (2, 0)%Z then t20 t
                               else if eqb2 ki (2, 1)%Z then t21 t else t22 t)
                    && negb (has eqb2 ki l)) [(0, 0); (2, 0); (2, 1); (2, 2)]%Z.
Definition orange_of (c : Z) (o : nat) (l : list (nat * mat CR)) : list nat :=
  if (c =? 0)%Z then [] else filter (fun k => negb (has Nat.eqb k l)) (seq 1 o).

(** initializeInteraction *)
Definition initInt (s : one) (tbl : tbl_t) (B : mat CR) (l : opsT) : opsT :=
  Ops (oE l ++ initE tbl B (erange_of (esph s) (oE l)))
      (oB l ++ initB tbl B (erange_of (bsph s) (oB l)))
      (oD l ++ initD tbl B (drange_of (diamag s) (dia s) (oD l)))
      (oM l ++ initM tbl B (orange_of (charge s) (ordermax s) (oM l))).

(** addInteraction (SystemOne.cpp:576-627): H plus the listed terms. *)
Definition terms (s : one) (l : opsT) : list (CR * mat CR) :=
  let e i := lookup Z.eqb i (oE l) in let b i := lookup Z.eqb i (oB l) in
  let d k i := lookup eqb2 (k, i) (oD l) in
  (if big (s_0 (esph s)) then [(copp (s_0 (esph s)), e 0%Z)] else []) ++
  (if big (s_m (esph s)) then [(s_m (esph s), e 1%Z)] else []) ++
  (if big (s_p (esph s)) then [(s_p (esph s), e (-1)%Z)] else []) ++
  (if big (s_0 (bsph s)) then [(copp (s_0 (bsph s)), b 0%Z)] else []) ++
  (if big (s_m (bsph s)) then [(s_m (bsph s), b 1%Z)] else []) ++
  (if big (s_p (bsph s)) then [(s_p (bsph s), b (-1)%Z)] else []) ++
  (if diamag s && big (t00 (dia s)) then [(t00 (dia s), d 0%Z 0%Z)] else []) ++
  (if diamag s && big (t20 (dia s)) then [(copp (t20 (dia s)), d 2%Z 0%Z)] else []) ++
  (if diamag s && big (t21 (dia s)) then [(cmul (t21 (dia s)) (ofR (sqrt 3)), d 2%Z 1%Z)] else []) ++
  (if diamag s && big (t2m1 (dia s)) then [(cmul (t2m1 (dia s)) (ofR (sqrt 3)), d 2%Z (-1)%Z)] else []) ++
  (if diamag s && big (t22 (dia s)) then [(copp (cmul (t22 (dia s)) (ofR (sqrt (3/2)))), d 2%Z 2%Z)] else []) ++
  (if diamag s && big (t2m2 (dia s)) then [(copp (cmul (t2m2 (dia s)) (ofR (sqrt (3/2)))), d 2%Z (-2)%Z)] else []) ++
  (if negb (charge s =? 0)%Z then
     match distance s with
     | None => []
     | Some r => map (fun o => (ofR (IZR (charge s) * (/ r ^ (o + 1))), lookup Nat.eqb o (oM l))) (seq 1 (ordermax s))
     end
   else []).
Definition addInt (s : one) (l : opsT) (H : mat CR) : mat CR :=
  fold_left (fun h e => madd h (mscale (fst e) (snd e))) (terms s l) H.
End Ops.
