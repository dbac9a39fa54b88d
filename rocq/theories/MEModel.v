(** Model of MatrixElementCache.{hpp,cpp}: selection rules, canonical keys, the values of the
    constituents, the in-memory cache with its sets of missing keys, the SQLite file, and the
    public queries.  No proofs in this file.

    Simplifications: double values are elements of an arbitrary commutative ring ([V] with
    [vadd], [vmul], ... ; rounding is not modelled); j, m, s are doubled integers; the Wigner
    symbols, square roots and radial integrals are oracles; the order in which an
    unordered_set is traversed and whether an insertion rehashes an unordered_map are oracles;
    the reopening of the database after a fork (update, lines 640-654) is not modelled;
    loadElectricDipoleDB is in DipoleModel.v; database errors (busy, disk full) are not modelled. *)
From Verif Require Import Base StateModel.
From Coq Require Import ZArith Bool String Ascii List.
Local Open Scope string_scope.
Local Open Scope list_scope.
Local Open Scope Z_scope.
Set Implicit Arguments.

(** int(x) for a float x given by its doubled value: truncation toward zero. *)
Definition trunc2 (x2 : Z) : Z := Z.quot x2 2.

(** ** Selection rules, MatrixElementCache.cpp 39-77.  The getters throw on artificial states. *)
Definition validL_mult (a b : state1) (k : Z) : bool :=
  (Z.abs (l a - l b) <=? k) && (Z.rem k 2 =? Z.rem (Z.abs (l a - l b)) 2).
Definition validJ_mult (a b : state1) (k : Z) : bool :=
  (Z.abs (j2 a - j2 b) <=? 2 * k) && (2 * k <=? j2 a + j2 b).
Definition noZero (a b : state1) (k : Z) : bool :=
  negb ((k =? 2) && (j2 a =? j2 b) && (j2 b =? 3) && (m2 a =? - m2 b) && (Z.abs (m2 a - m2 b) =? 2)).

Definition guard2 (a b : state1) (r : bool) : res bool :=
  if isArtificial a || isArtificial b then Throw else Ok r.

(** 39-45 *)
Definition selMomentumQ (a b : state1) (q : Z) : res bool :=
  guard2 a b ((l a =? l b) && (Z.abs (j2 a - j2 b) <=? 2) && (m2 a =? m2 b + 2 * q) && (Z.abs q <=? 1)).
(** 47-52 *)
Definition selMomentum (a b : state1) : res bool :=
  guard2 a b ((l a =? l b) && (Z.abs (j2 a - j2 b) <=? 2) && (Z.abs (m2 a - m2 b) <=? 2)).
(** 54-65 *)
Definition selMultipoleQ (a b : state1) (k q : Z) : res bool :=
  guard2 a b (validL_mult a b k && validJ_mult a b k && (m2 a =? m2 b + 2 * q) && (Z.abs q <=? k) && noZero a b k).
(** 67-77 *)
Definition selMultipole (a b : state1) (k : Z) : res bool :=
  guard2 a b (validL_mult a b k && validJ_mult a b k && (Z.abs (m2 a - m2 b) <=? 2 * k) && noZero a b k).

(** ** Keys (hpp 103-184, cpp 210-265); the sign is not part of a key's identity. *)
Inductive ckey : Type :=
| KRad (method : Z) (sp : string) (kappa n1 n2 l1 l2 j1 jj2 : Z)
| KAng (kappa j1 jj2 m1 mm2 : Z)
| KComS (s kappa l1 l2 j1 jj2 : Z)
| KComL (s kappa l1 l2 j1 jj2 : Z)
| KMul (kappa l1 l2 : Z).

Definition ckey_eqb (a b : ckey) : bool :=
  match a, b with
  | KRad m sp k n1 n2 l1 l2 j1 j2', KRad m' sp' k' n1' n2' l1' l2' j1' j2'' =>
      (m =? m') && String.eqb sp sp' && (k =? k') && (n1 =? n1') && (n2 =? n2') && (l1 =? l1') &&
      (l2 =? l2') && (j1 =? j1') && (j2' =? j2'')
  | KAng k j1 j2' m1 m2', KAng k' j1' j2'' m1' m2'' =>
      (k =? k') && (j1 =? j1') && (j2' =? j2'') && (m1 =? m1') && (m2' =? m2'')
  | KComS s k l1 l2 j1 j2', KComS s' k' l1' l2' j1' j2'' =>
      (s =? s') && (k =? k') && (l1 =? l1') && (l2 =? l2') && (j1 =? j1') && (j2' =? j2'')
  | KComL s k l1 l2 j1 j2', KComL s' k' l1' l2' j1' j2'' =>
      (s =? s') && (k =? k') && (l1 =? l1') && (l2 =? l2') && (j1 =? j1') && (j2' =? j2'')
  | KMul k l1 l2, KMul k' l1' l2' => (k =? k') && (l1 =? l1') && (l2 =? l2')
  | _, _ => false
  end.

(** Each constructor returns the key and its sign exponent: the sign is (-1)^e. *)
Definition mkRad (method : Z) (sp : string) (k n1 n2 l1 l2 j1 jj2 : Z) : ckey :=
  if (n1 <? n2) || ((n1 =? n2) && ((l1 <? l2) || ((l1 =? l2) && (j1 <=? jj2))))
  then KRad method sp k n1 n2 l1 l2 j1 jj2
  else KRad method sp k n2 n1 l2 l1 jj2 j1.
Definition mkAng (k j1 jj2 m1 mm2 : Z) : ckey * Z :=
  if (j1 <? jj2) || ((j1 =? jj2) && (m1 <=? mm2)) then (KAng k j1 jj2 m1 mm2, 0)
  else (KAng k jj2 j1 mm2 m1, trunc2 (j1 - m1 + jj2 - mm2)).
Definition swapCom (l1 l2 j1 jj2 : Z) : bool :=
  negb ((l1 <? l2) || ((l1 =? l2) && (j1 <=? jj2))).
Definition mkComS (s k l1 l2 j1 jj2 : Z) : ckey * Z :=
  if swapCom l1 l2 j1 jj2 then (KComS s k l2 l1 jj2 j1, trunc2 (2 * l1 + j1 + 2 * l2 + jj2 + 2 * s))
  else (KComS s k l1 l2 j1 jj2, 0).
Definition mkComL (s k l1 l2 j1 jj2 : Z) : ckey * Z :=
  if swapCom l1 l2 j1 jj2 then (KComL s k l2 l1 jj2 j1, trunc2 (2 * l1 + j1 + 2 * l2 + jj2 + 2 * s))
  else (KComL s k l1 l2 j1 jj2, 0).
Definition mkMul (k l1 l2 : Z) : ckey * Z :=
  if l1 <=? l2 then (KMul k l1 l2, 0) else (KMul k l2 l1, k).

Section Values.
  Variable V : Type.
  Variables (v0 v1 : V) (vadd vmul : V -> V -> V) (vopp : V -> V).
  Variables (w3j w6j : Z -> Z -> Z -> Z -> Z -> Z -> V).    (* Wigner symbols, doubled arguments *)
  Variable sqrtZ : Z -> V.                                  (* std::sqrt of an integer-valued product *)
  (** QuantumDefect + calcRadialElement (lines 532-544, 785-787) for a defect database:
      may throw (unknown species, method MISSING). *)
  Variable radial : string -> Z -> string -> Z -> Z -> Z -> Z -> Z -> Z -> Z -> res V.

  Definition sgn (e : Z) : V := if Z.even e then v1 else vopp v1.   (* std::pow(-1, e) *)

  (** update(), 815-822: angular part. *)
  Definition angular_val (k j1 jj2 m1 mm2 : Z) : V :=
    vmul (sgn (trunc2 (j1 - m1))) (w3j j1 (2 * k) jj2 (- m1) (m1 - mm2) mm2).
  (** update(), 849-868 *)
  Definition triS (s k l1 l2 j1 jj2 : Z) : bool :=
    (Z.abs (j1 - s) <=? 2 * l1) && (2 * l1 <=? j1 + s) &&
    (Z.abs (2 * l2 - 2 * k) <=? 2 * l1) && (2 * l1 <=? 2 * l2 + 2 * k) &&
    (Z.abs (j1 - 2 * k) <=? jj2) && (jj2 <=? j1 + 2 * k) &&
    (Z.abs (2 * l2 - s) <=? jj2) && (jj2 <=? 2 * l2 + s).
  Definition comS_val (s k l1 l2 j1 jj2 : Z) : V :=
    if triS s k l1 l2 j1 jj2
    then vmul (vmul (sgn (trunc2 (2 * l1 + s + jj2 + 2 * k))) (sqrtZ ((j1 + 1) * (jj2 + 1))))
              (w6j (2 * l1) j1 s jj2 (2 * l2) (2 * k))
    else v0.
  (** update(), 895-914: only l[0] occurs. *)
  Definition triL (s k l1 j1 jj2 : Z) : bool :=
    (Z.abs (j1 - 2 * l1) <=? s) && (s <=? j1 + 2 * l1) &&
    (Z.abs (s - 2 * k) <=? s) && (s <=? s + 2 * k) &&
    (Z.abs (j1 - 2 * k) <=? jj2) && (jj2 <=? j1 + 2 * k) &&
    (Z.abs (s - 2 * l1) <=? jj2) && (jj2 <=? s + 2 * l1).
  Definition comL_val (s k l1 l2 j1 jj2 : Z) : V :=
    if triL s k l1 j1 jj2
    then vmul (vmul (sgn (trunc2 (2 * l1 + s + j1 + 2 * k))) (sqrtZ ((j1 + 1) * (jj2 + 1))))
              (w6j s j1 (2 * l1) jj2 s (2 * k))
    else v0.
  (** update(), 941-946 *)
  Definition mul_val (k l1 l2 : Z) : V :=
    vmul (vmul (sgn l1) (sqrtZ ((2 * l1 + 1) * (2 * l2 + 1)))) (w3j (2 * l1) (2 * k) (2 * l2) 0 0 0).

  (** The value computed by update() (777-946) for a missing key.  Lines 532-538, 785-787:
      calcRadialElement looks at the current method of the object, [mth], not at the method stored in
      the key. *)
  Definition calc (ddb : string) (mth : Z) (c : ckey) : res V :=
    match c with
    | KRad _ sp k n1 n2 l1 l2 j1 j2' => radial ddb mth sp k n1 n2 l1 l2 j1 j2'
    | KAng k j1 j2' m1 m2' => Ok (angular_val k j1 j2' m1 m2')
    | KComS s k l1 l2 j1 j2' => Ok (comS_val s k l1 l2 j1 j2')
    | KComL s k l1 l2 j1 j2' => Ok (comL_val s k l1 l2 j1 j2')
    | KMul k l1 l2 => Ok (mul_val k l1 l2)
    end.
  Definition is_rad (c : ckey) : bool := match c with KRad _ _ _ _ _ _ _ _ _ => true | _ => false end.

  (** ** Cache object and database file *)
  Definition rows := list (ckey * V).
  Fixpoint rget (m : rows) (c : ckey) : option V :=
    match m with
    | [] => None
    | (c', v) :: m' => if ckey_eqb c' c then Some v else rget m' c
    end.
  (** unordered_map::insert and "insert or ignore" keep an existing entry. *)
  Definition rput (m : rows) (c : ckey) (v : V) : rows :=
    match rget m c with Some _ => m | None => (c, v) :: m end.
  Definition has (m : rows) (c : ckey) : bool := match rget m c with Some _ => true | None => false end.
  Definition sput (l : list ckey) (c : ckey) : list ckey := if existsb (ckey_eqb c) l then l else c :: l.

  (** Database file: committed rows and the rows of an open transaction, if any. *)
  Record dbfile := Dbf { committed : rows; open_tx : option rows }.
  Definition dbget (d : dbfile) (c : ckey) : option V :=
    match open_tx d with
    | Some t => match rget t c with Some v => Some v | None => rget (committed d) c end
    | None => rget (committed d) c
    end.

  (** hpp 186-207; [usedb]: dbname is not empty. *)
  Record cache := Cache {
    mem : rows; missing : list ckey; method : Z; ddb : string; usedb : bool; file : dbfile }.

  (** cpp 83-122 *)
  Definition newCache (withdb : bool) (f : dbfile) : cache := Cache [] [] 0 EmptyString withdb f.
  (** 124-130 *)
  Definition setDefectDB (c : cache) (path : string) : cache :=
    Cache (mem c) (missing c) (method c) path false (file c).
  (** 132-135 *)
  Definition setMethod (c : cache) (m : Z) : cache :=
    Cache (mem c) (missing c) m (ddb c) (usedb c) (file c).

  Variable order : list ckey -> list ckey.           (* traversal order of an unordered_set *)
  Variable rehashed : rows -> rows -> bool.          (* an insertion invalidated iterators *)

  Definition note (c : cache) (k : ckey) : cache :=
    if has (mem c) k then c
    else Cache (mem c) (sput (missing c) k) (method c) (ddb c) (usedb c) (file c).

  (** update(), 656-768: look the missing keys up in the database. *)
  Fixpoint load (d : dbfile) (m : rows) (ms : list ckey) : rows * list ckey :=
    match ms with
    | [] => (m, [])
    | k :: ms' =>
        match dbget d k with
        | Some v => load d (rput m k v) ms'
        | None => let (m', left) := load d m ms' in (m', k :: left)
        end
    end.

  Definition txput (usedb : bool) (d : dbfile) (k : ckey) (v : V) : dbfile :=
    if usedb then
      match open_tx d with
      | Some t => Dbf (committed d) (Some (match rget (committed d) k with Some _ => t | None => rput t k v end))
      | None => d
      end
    else d.

  (** One of the five loops "for (auto &cached : ..._missing)": stops at the first exception. *)
  Fixpoint fill (ddbn : string) (mth : Z) (usedb : bool) (d : dbfile) (m : rows) (ms : list ckey)
    : dbfile * rows * res unit :=
    match ms with
    | [] => (d, m, Ok tt)
    | k :: ms' =>
        match calc ddbn mth k with
        | Ok v => fill ddbn mth usedb (txput usedb d k v) (rput m k v) ms'
        | Throw => (d, m, Throw)
        | UB => (d, m, UB)
        end
    end.

  (** 628-966; result true iff something was missing. *)
  Definition update (c : cache) : cache * res bool :=
    match missing c with
    | [] => (c, Ok false)
    | _ =>
        let (m1, ms1) := if usedb c then load (file c) (mem c) (missing c) else (mem c, missing c) in
        let c1 := Cache m1 ms1 (method c) (ddb c) (usedb c) (file c) in
        match (if usedb c then open_tx (file c) else None) with
        | Some _ => (c1, Throw)       (* "cannot start a transaction within a transaction" *)
        | None =>
            let d0 := if usedb c then Dbf (committed (file c)) (Some []) else file c in
            let rad := order (filter is_rad ms1) in
            let oth := order (filter (fun k => negb (is_rad k)) ms1) in
            match fill (ddb c) (method c) (usedb c) d0 m1 rad with
            | (d1, m2, Ok _) =>
                match fill (ddb c) (method c) (usedb c) d1 m2 oth with
                | (d2, m3, Ok _) =>
                    let d3 := if usedb c then
                                match open_tx d2 with
                                | Some t => Dbf (t ++ committed d2) None
                                | None => d2
                                end
                              else d2 in
                    (Cache m3 [] (method c) (ddb c) (usedb c) d3, Ok true)
                | (d2, m3, e) =>
                    (Cache m3 (filter (fun k => negb (is_rad k)) ms1) (method c) (ddb c) (usedb c) d2,
                     match e with UB => UB | _ => Throw end)
                end
            | (d1, m2, e) =>
                (Cache m2 ms1 (method c) (ddb c) (usedb c) d1, match e with UB => UB | _ => Throw end)
            end
        end
    end.

  (** Reading iter->second after update; a missing entry would be a dereferenced end(). *)
  Definition deref (m : rows) (k : ckey) : res V :=
    match rget m k with Some v => Ok v | None => UB end.

  Variables (e_charge minus_muB gL gS : V).
  Variable sqrtSpin : Z -> V.                         (* sqrt(s(s+1)(2s+1)) as a function of 2s *)
  Variable sqrtL : Z -> V.                            (* sqrt(l(l+1)(2l+1)) *)

  Definition artificial_or_mixed (a b : state1) : bool :=
    isArtificial a || isArtificial b || negb (String.eqb (species a) (species b)).

  (** 416-465; getElectricDipole and getDiamagnetism (352-362) are special cases. *)
  Definition getElectricMultipole (c : cache) (a b : state1) (kr ka : Z) : cache * res V :=
    if artificial_or_mixed a b then (c, Throw) else
    let key1 := mkRad (method c) (species a) kr (n a) (n b) (l a) (l b) (j2 a) (j2 b) in
    let (key2, g2) := mkAng ka (j2 a) (j2 b) (m2 a) (m2 b) in
    let (key3, g3) := mkComS (s2 a) ka (l a) (l b) (j2 a) (j2 b) in
    let (key4, g4) := mkMul ka (l a) (l b) in
    let c0 := note (note (note (note c key1) key2) key3) key4 in
    match update c0 with
    | (c1, Ok _) =>
        (c1, do! r <- deref (mem c1) key1 ; do! x <- deref (mem c1) key2 ;
             do! y <- deref (mem c1) key3 ; do! z <- deref (mem c1) key4 ;
             Ok (vmul (vmul (vmul (vmul (vmul (vmul (vmul e_charge r) (sgn g2)) x) (sgn g3)) y) (sgn g4)) z))
    | (c1, Throw) => (c1, Throw)
    | (c1, UB) => (c1, UB)
    end.

  (** 364-414 *)
  Definition getMagneticDipole (c : cache) (a b : state1) : cache * res V :=
    if artificial_or_mixed a b then (c, Throw) else
    let key1 := mkRad (method c) (species a) 0 (n a) (n b) (l a) (l b) (j2 a) (j2 b) in
    let (key2, g2) := mkAng 1 (j2 a) (j2 b) (m2 a) (m2 b) in
    let (key3, g3) := mkComS (s2 a) 1 (l a) (l b) (j2 a) (j2 b) in
    let (key4, g4) := mkComL (s2 a) 1 (l a) (l b) (j2 a) (j2 b) in
    let c0 := note (note (note (note c key1) key2) key3) key4 in
    match update c0 with
    | (c1, Ok _) =>
        (c1, do! r <- deref (mem c1) key1 ; do! x <- deref (mem c1) key2 ;
             do! y <- deref (mem c1) key3 ; do! z <- deref (mem c1) key4 ;
             Ok (vmul (vmul (vmul (vmul minus_muB r) (sgn g2)) x)
                  (vadd (vmul (vmul (vmul gL (sgn g3)) y) (sqrtL (l a)))
                        (vmul (vmul (vmul gS (sgn g4)) z) (sqrtSpin (s2 a))))))
    | (c1, Throw) => (c1, Throw)
    | (c1, UB) => (c1, UB)
    end.

  (** 467-492: the iterator found before update() is kept; if an insertion rehashed the map it is
      invalid. *)
  Definition getRadial (c : cache) (a b : state1) (k : Z) : cache * res V :=
    if artificial_or_mixed a b then (c, Throw) else
    let key1 := mkRad (method c) (species a) k (n a) (n b) (l a) (l b) (j2 a) (j2 b) in
    let found := has (mem c) key1 in
    match update (note c key1) with
    | (c1, Ok _) =>
        (c1, if found && rehashed (mem c) (mem c1) then UB else deref (mem c1) key1)
    | (c1, Throw) => (c1, Throw)
    | (c1, UB) => (c1, UB)
    end.

  (** 546-626 for one pair of states; [sp], [s] come from the first non-artificial state. *)
  Definition pre_keys (mth : Z) (sp : string) (s : Z) (ka kr : Z) (el mag rad : bool) (a b : state1) : list ckey :=
    let ok := (el && match selMultipole a b ka with Ok x => x | _ => false end) ||
              (mag && match selMomentum a b with Ok x => x | _ => false end) || rad in
    if negb ok then [] else
    (if el || mag || rad then [mkRad mth sp kr (n a) (n b) (l a) (l b) (j2 a) (j2 b)] else []) ++
    (if el || mag then [fst (mkAng ka (j2 a) (j2 b) (m2 a) (m2 b))] else []) ++
    (if el || mag then [fst (mkComS s ka (l a) (l b) (j2 a) (j2 b))] else []) ++
    (if mag then [fst (mkComL s ka (l a) (l b) (j2 a) (j2 b))] else []) ++
    (if el then [fst (mkMul ka (l a) (l b))] else []).

  (** The loops over columns and over the rows up to the column. *)
  Fixpoint pre_cols (mth : Z) (sp : string) (s : Z) (ka : Z) (q : option Z) (kr : Z) (el mag rad : bool)
      (pre todo : list state1) : list ckey :=
    match todo with
    | [] => []
    | col :: todo' =>
        flat_map (fun row =>
           if match q with Some q' => negb (m2 row - m2 col =? 2 * q') | None => false end then []
           else pre_keys mth sp s ka kr el mag rad row col)
          (pre ++ [col]) ++ pre_cols mth sp s ka q kr el mag rad (pre ++ [col]) todo'
    end.
  (** q = None: no restriction on q (std::numeric_limits<int>::max()). *)
  Definition precalculate (c : cache) (basis : list state1) (ka : Z) (q : option Z) (kr : Z)
      (el mag rad : bool) : cache :=
    let real := filter (fun a => negb (isArtificial a)) basis in
    match real with
    | [] => c
    | first :: _ =>
        fold_left (fun c k => note c k) (pre_cols (method c) (species first) (s2 first) ka q kr el mag rad [] real) c
    end.

  (** ** Histories *)
  Inductive event :=
  | EMultipole (a b : state1) (kr ka : Z)
  | EMagnetic (a b : state1)
  | ERadial (a b : state1) (k : Z)
  | EPre (basis : list state1) (ka : Z) (q : option Z) (kr : Z) (el mag rad : bool)
  | ESetMethod (m : Z)
  | ESetDefect (path : string)
  | EExtern (new : rows)        (* another process commits rows to the same file *)
  | ERestart.                   (* the process ends or crashes; a new one opens the same file *)

  Definition stepE (c : cache) (e : event) : cache * option (res V) :=
    match e with
    | EMultipole a b kr ka => let (c', r) := getElectricMultipole c a b kr ka in (c', Some r)
    | EMagnetic a b => let (c', r) := getMagneticDipole c a b in (c', Some r)
    | ERadial a b k => let (c', r) := getRadial c a b k in (c', Some r)
    | EPre basis ka q kr el mag rad => (precalculate c basis ka q kr el mag rad, None)
    | ESetMethod m => (setMethod c m, None)
    | ESetDefect p => (setDefectDB c p, None)
    | EExtern new => (Cache (mem c) (missing c) (method c) (ddb c) (usedb c)
                        (Dbf (committed (file c) ++ new) (open_tx (file c))), None)
    | ERestart => (newCache true (Dbf (committed (file c)) None), None)
    end.
  Fixpoint runE (c : cache) (h : list event) : cache * list (res V) :=
    match h with
    | [] => (c, [])
    | e :: h' =>
        let (c', r) := stepE c e in
        let (c'', rs) := runE c' h' in
        (c'', match r with Some x => x :: rs | None => rs end)
    end.
End Values.
