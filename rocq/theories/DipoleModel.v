(** Model of MatrixElementCache::loadElectricDipoleDB (MatrixElementCache.cpp:137-204): dipole elements of a user's file.  No proofs.

    Simplifications: a line is given by its fields (boost::escaped_list_separator with ";"; an empty line has no fields); std::stoi, std::stof and
    std::stod are oracles; std::stof gives 2j (half-integers only); a file that cannot be opened has no lines.  The rest as in MEModel.v;
    [vdiv] is the division of doubles (for a zero divisor an infinity or NaN). *)
From Coq Require Import ZArith Bool String Ascii List.
From Verif Require Import Base StateModel MEModel.
Local Open Scope string_scope.
Local Open Scope list_scope.
Local Open Scope Z_scope.
Set Implicit Arguments.

(** result of std::stoi etc.: a number, std::invalid_argument, std::out_of_range *)
Inductive parsed (A : Type) := Num (x : A) | Invalid | TooLarge.
Arguments Num {A} x.
Arguments Invalid {A}.
Arguments TooLarge {A}.

(** 139-142: 2s; species.back() of an empty name is undefined *)
Definition species_spin (sp : string) : res Z :=
  match str_last sp with
  | None => UB
  | Some c => let d := Z.of_N (N_of_ascii c) in Ok (if (48 <=? d) && (d <=? 57) then d - 48 - 1 else 1)
  end.

Section Load.
  Variable V : Type.
  Variables (v0 v1 : V) (vmul vdiv : V -> V -> V) (vopp : V -> V).
  Variables (w3j w6j : Z -> Z -> Z -> Z -> Z -> Z -> V).
  Variable sqrtZ : Z -> V.
  Variable radial : string -> Z -> string -> Z -> Z -> Z -> Z -> Z -> Z -> Z -> res V.
  Variable order : list ckey -> list ckey.
  Variables (stoi stof : string -> parsed Z) (stod : string -> parsed V).
  Variable au2um : V.

  (** one line of numbers: n1, l1, 2 j1, n2, l2, 2 j2, value *)
  Record entry := Entry { en1 : Z; el1 : Z; ej1 : Z; en2 : Z; el2 : Z; ej2 : Z; evalue : V }.
  (** what happens to a line: used, skipped (151-190: invalid_argument is caught), the exception leaves the function, undefined *)
  Inductive outcome (A : Type) := Good (x : A) | Skip | Raise | Undefined.
  Arguments Good {A} x.
  Arguments Skip {A}.
  Arguments Raise {A}.
  Arguments Undefined {A}.
  (** tk_vec[i] is not checked *)
  Definition field (A B : Type) (conv : string -> parsed A) (tk : list string) (i : nat) (next : A -> outcome B) : outcome B :=
    match nth_error tk i with
    | None => Undefined
    | Some t => match conv t with Num x => next x | Invalid => Skip | TooLarge => Raise end
    end.
  (** 156-163 *)
  Definition parse (tk : list string) : outcome entry :=
    field stoi tk 0 (fun a => field stoi tk 1 (fun b => field stof tk 2 (fun c =>
    field stoi tk 3 (fun d => field stoi tk 4 (fun e => field stof tk 5 (fun f =>
    field stod tk 6 (fun v => Good (Entry a b c d e f v)))))))).

  (** insert into a set of missing keys, whether or not the value is known already *)
  Definition pend (c : cache V) (k : ckey) : cache V :=
    Cache (mem c) (sput (missing c) k) (method c) (ddb c) (usedb c) (file c).
  (** 168-180: key1 and the value in um; the angular expressions are noted *)
  Definition use (sp : string) (s : Z) (c : cache V) (e : entry) : cache V * (ckey * V) :=
    (pend (pend c (fst (mkComS s 1 (el1 e) (el2 e) (ej1 e) (ej2 e)))) (fst (mkMul 1 (el1 e) (el2 e))),
     (mkRad (method c) sp 1 (en1 e) (en2 e) (el1 e) (el2 e) (ej1 e) (ej2 e), vmul (evalue e) au2um)).
  (** 146-190: the loop over the lines *)
  Fixpoint read (sp : string) (s : Z) (c : cache V) (lines : list (list string)) : cache V * res (list (ckey * V)) :=
    match lines with
    | [] => (c, Ok [])
    | tk :: lines =>
        match parse tk with
        | Good e => let (c1, kv) := use sp s c e in
                    match read sp s c1 lines with (c2, Ok kvs) => (c2, Ok (kv :: kvs)) | r => r end
        | Skip => read sp s c lines
        | Raise => (c, Throw)
        | Undefined => (c, UB)
        end
    end.
  (** operator[] of std::unordered_map for reading: zero if there is nothing *)
  Definition at_ (m : rows V) (k : ckey) : V := match rget m k with Some v => v | None => v0 end.
  (** 194-203; the states in the order of key1 *)
  Definition reduce (s : Z) (m : rows V) (kv : ckey * V) : rows V :=
    match fst kv with
    | KRad _ _ _ _ _ a b c d =>
        let (key3, g3) := mkComS s 1 a b c d in
        let (key4, g4) := mkMul 1 a b in
        (fst kv, vdiv (snd kv) (vmul (vmul (vmul (sgn v1 vopp g3) (at_ m key3)) (sgn v1 vopp g4)) (at_ m key4))) :: m
    | _ => m
    end.
  (** the whole function; rows in front replace the later ones *)
  Definition loadElectricDipoleDB (c : cache V) (lines : list (list string)) (sp : string) : cache V * res unit :=
    match species_spin sp with
    | Ok s =>
        match read sp s c lines with
        | (c1, Ok kvs) =>
            match update v0 v1 vmul vopp w3j w6j sqrtZ radial order c1 with
            | (c2, Ok _) => (Cache (fold_left (reduce s) kvs (mem c2)) (missing c2) (method c2) (ddb c2) (usedb c2) (file c2), Ok tt)
            | (c2, Throw) => (c2, Throw)
            | (c2, UB) => (c2, UB)
            end
        | (c1, Throw) => (c1, Throw)
        | (c1, UB) => (c1, UB)
        end
    | Throw => (c, Throw)
    | UB => (c, UB)
    end.

  (** ** Histories: the calls of MEModel.v and loading *)
  Variables (vadd : V -> V -> V) (rehashed : rows V -> rows V -> bool) (e_charge minus_muB gL gS : V) (sqrtSpin sqrtL : Z -> V).
  Inductive call := Call (e : event V) | Load (lines : list (list string)) (sp : string).
  Definition stepD (c : cache V) (x : call) : cache V * res unit :=
    match x with
    | Call e => (fst (stepE v0 v1 vadd vmul vopp w3j w6j sqrtZ radial order rehashed e_charge minus_muB gL gS sqrtSpin sqrtL c e), Ok tt)
    | Load lines sp => loadElectricDipoleDB c lines sp
    end.
  Fixpoint runD (c : cache V) (h : list call) : cache V :=
    match h with [] => c | x :: h => runD (fst (stepD c x)) h end.
End Load.
