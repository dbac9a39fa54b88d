(** Model of the settings that determine the basis of a system of two atoms: setConservedParityUnderPermutation/Inversion/Reflection,
    setConservedMomentaUnderRotation, setOneAtomBasisvectors (SystemTwo.cpp:143-195), onSymmetryChange (SystemBase.cpp:1331-1337),
    isRefelectionAndRotationCompatible (SystemTwo.cpp:1598-1612), on top of the life cycle of a system (SystemModel.v) and the construction
    of the pair basis (PairModel.v).  No proofs in this file. *)
From Coq Require Import ZArith Bool String Arith List.
Import ListNotations.
From Verif Require Import Base StateModel Matrix LookupModel SystemModel RangeModel PairModel.
Set Implicit Arguments.

(** sym_permutation, sym_inversion, sym_reflection, sym_rotation ([None] is {ARB}), one_atom_basisvectors_indices (SystemTwo.hpp:95-101, 110) *)
Record settings := Settings { g_perm : parity; g_inv : parity; g_refl : parity; g_rot : option (list Z); g_pairs : list (nat * nat) }.
(** SystemTwo.cpp:33-62: the values of a new system *)
Definition no_settings : settings := Settings NA NA NA None [].

(** SystemTwo.cpp:1598-1612; sym_rotation.count(-s) for all s *)
Definition mirror_compatible (p : parity) (r : option (list Z)) : bool :=
  match r, p with
  | None, _ => true
  | _, NA => true
  | Some l, _ => forallb (fun m => existsb (Z.eqb (- m)%Z) l) l
  end.

Section Settings.
Context {K : StarRing} {P Key : Type}.
Variables (hs : string -> N) (hi hf : Z -> N) (rt : K) (energy : state1 -> res K) (sys1 sys2 : @onesys K) (species1 species2 : string).
Variable qvalid : ranges -> state2 -> bool.
(** the settings, together with all other parameters *)
Definition param : Type := (settings * P)%type.
Notation psys := (@sys K state2 param Key).
(** threshold_for_sqnorm (SystemBase.cpp:1299-1307): a constant of the object *)
Variable sq_thr : K.
(** SystemTwo.cpp:202-649: initializeBasis, with the settings of the moment *)
Definition init_pair (p : param) (rq : @request K state2) : list (nat * state2) * res (mat K * mat K) :=
  initBasis2 hs hi hf rt energy sys1 sys2 species1 species2 (g_inv (fst p)) (g_refl (fst p)) (g_perm (fst p)) (g_rot (fst p)) (g_pairs (fst p)) sq_thr rq.

(** What can happen to the object: the setters, restrictions, addStates, getting the basis, and any other method [f], none of which assigns
    the members above (SystemTwo.cpp, SystemBase.cpp) *)
Inductive event : Type :=
| SetPermutation (p : parity) | SetInversion (p : parity) | SetReflection (p : parity) | SetRotation (arb : bool) (l : list Z)
| SetPairs (ps : list (nat * nat))
| Restrict (g : ranges) (a b : option K) | AddStates (l : list state2)
| BuildBasis
| Other (f : psys -> psys * res unit) (keeps : forall s, fst (par (fst (f s))) = fst (par s)).

Definition with_settings (g : settings) (s : psys) : psys := set_par (g, snd (par s)) s.
(** SystemBase.cpp:1331-1337 *)
Definition onSymmetryChange (s : psys) : res unit := if is_nil (states s) then Ok tt else Throw.

Definition step (e : event) (s : psys) : psys * res unit :=
  let g := fst (par s) in
  match e with
  | SetPermutation p =>      (* 143-147 *)
      match onSymmetryChange s with
      | Ok _ => (with_settings (Settings p (g_inv g) (g_refl g) (g_rot g) (g_pairs g)) s, Ok tt) | r => (s, r) end
  | SetInversion p =>        (* 149-153 *)
      match onSymmetryChange s with
      | Ok _ => (with_settings (Settings (g_perm g) p (g_refl g) (g_rot g) (g_pairs g)) s, Ok tt) | r => (s, r) end
  | SetReflection p =>       (* 155-166: assigned before the check *)
      match onSymmetryChange s with
      | Ok _ => (with_settings (Settings (g_perm g) (g_inv g) p (g_rot g) (g_pairs g)) s,
                 if mirror_compatible p (g_rot g) then Ok tt else Throw)
      | r => (s, r) end
  | SetRotation arb l =>     (* 168-180: the set contains ARB if [arb]; assigned before the check *)
      if arb && negb (is_nil l) then (s, Throw)
      else let r := if arb then None else Some l in
      match onSymmetryChange s with
      | Ok _ => (with_settings (Settings (g_perm g) (g_inv g) (g_refl g) r (g_pairs g)) s,
                 if mirror_compatible (g_refl g) r then Ok tt else Throw)
      | r => (s, r) end
  | SetPairs ps =>           (* 182-195 *)
      let (x, r) := setOneAtomBasisvectors ps (g_pairs g) in
      (with_settings (Settings (g_perm g) (g_inv g) (g_refl g) (g_rot g) x) s, r)
  | Restrict a b c => (restrict a b c s, Ok tt)
  | AddStates l => (add_states eq2 l s, Ok tt)
  | BuildBasis => buildBasis eq2 qvalid init_pair s
  | Other f _ => f s
  end.
Fixpoint history (es : list event) (s : psys) : psys :=
  match es with [] => s | e :: es => history es (fst (step e s)) end.
End Settings.
