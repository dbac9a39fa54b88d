(** Model of MatrixElements.cpp, the cache of matrix elements of the command line program: constructors (74-96), precalculate*
    (98-125), get* (127-196), precalculate(BasisnamesOne) (198-562), calcRadialElement (564-582).  The overloads for a vector of states
    (584ff) have no caller.  No proofs.  Numbers are exact reals except where they are printed with six digits. *)
From Coq Require Import ZArith Lia Bool List Reals String.
From Flocq Require Import Core.
Import ListNotations.
From Verif Require Import Base BasisnamesModel InteractModel OneFieldModel.
Set Implicit Arguments.
Local Open Scope R_scope.

(** A number of the cache; Max is the mark numeric_limits<double>::max() of a value still to be determined. *)
Inductive num := Num (x : R) | Max | Nan.
(** The keys of the five caches, StateTwoOld with unused quantum numbers 0 (j, m doubled); the first argument is the kappa of the outer map. *)
Inductive okey :=
| KR (k n1 l1 j1 n2 l2 j2 : Z)     (* cache_radial *)
| KA (k j1 m1 j2 m2 : Z)           (* cache_angular *)
| KS (k l1 j1 l2 j2 : Z)           (* cache_reduced_commutes_s *)
| KL (k l1 j1 l2 j2 : Z)           (* cache_reduced_commutes_l *)
| KM (k l1 l2 : Z).                (* cache_reduced_multipole *)
Definition okey_dec (a b : okey) : {a = b} + {a <> b}.
Proof. decide equality; apply Z.eq_dec. Defined.
Inductive method := Modelpotentials | Whittaker | Error.
(** MatrixElements(config, ...) (84-96) *)
Definition method_of (missingCalc missingWhittaker : bool) : method :=
  if missingCalc then Modelpotentials else if missingWhittaker then Whittaker else Error.
Definition method_dec (a b : method) : {a = b} + {a <> b}.
Proof. decide equality. Defined.

(** keys of the row and column state (271-338) *)
Definition key_radial (kr : Z) (r c : one) : okey :=
  let p := order (One 0 (n_ r) (l_ r) (jj r) 0) (One 0 (n_ c) (l_ c) (jj c) 0) in
  KR kr (n_ (fst p)) (l_ (fst p)) (jj (fst p)) (n_ (snd p)) (l_ (snd p)) (jj (snd p)).
Definition key_angular (k : Z) (r c : one) : okey := KA k (jj r) (mm r) (jj c) (mm c).
Definition key_s (k : Z) (r c : one) : okey := KS k (l_ r) (jj r) (l_ c) (jj c).
Definition key_l (k : Z) (r c : one) : okey := KL k (l_ r) (jj r) (l_ c) (jj c).
Definition key_m (k : Z) (r c : one) : okey := KM k (l_ r) (l_ c).

(** arguments of precalculate; q = None: numeric_limits<int>::max() *)
Inductive what := Electric | Magnetic | RadialOnly.
Record request := Request { kappa : nat; q_ : option Z; kappar : nat; mode : what }.
(** 98-125 *)
Definition precalculateMultipole (k : nat) : request := Request k None k Electric.
Definition precalculateRadial (k : nat) : request := Request k None k RadialOnly.
Definition precalculateElectricMomentum (q : Z) : request := Request 1 (Some q) 1 Electric.
Definition precalculateMagneticMomentum (q : Z) : request := Request 1 (Some q) 0 Magnetic.
Definition precalculateDiamagnetism (k : nat) (q : Z) : request := Request k (Some q) 2 Electric.

(** selectionRulesMomentum(state1, state2) (43-48) *)
Definition sel_momentum (s t : one) : bool :=
  ((l_ s =? l_ t) && (Z.abs (jj s - jj t) <=? 2) && (Z.abs (mm s - mm t) <=? 2))%Z.
(** 258-270: is the pair of states of interest *)
Definition wanted_pair (a : request) (row col : one) : bool :=
  match q_ a with Some q => (mm row - mm col =? 2 * q)%Z | None => true end &&
  match mode a with
  | Electric => sel_multipole row col (kappa a)
  | Magnetic => sel_momentum row col
  | RadialOnly => true
  end.
(** 271-342: its keys *)
Definition pair_keys (a : request) (row col : one) : list okey :=
  let k := Z.of_nat (kappa a) in
  key_radial (Z.of_nat (kappar a)) row col ::
  match mode a with
  | Electric => [key_angular k row col; key_s k row col; key_m k row col]
  | Magnetic => [key_angular k row col; key_s k row col; key_l k row col]
  | RadialOnly => []
  end.
(** 258-345: the loops over columns and rows *)
Definition all_keys (a : request) (names : list one) : list okey :=
  flat_map (fun col => flat_map (fun row => if wanted_pair a row col then pair_keys a row col else []) names) names.

(** the caches in memory *)
Definition memory := list (okey * num).
Fixpoint lookup (m : memory) (k : okey) : option num :=
  match m with [] => None | (k', v) :: m => if okey_dec k' k then Some v else lookup m k end.
Fixpoint assign (m : memory) (k : okey) (v : num) : memory :=
  match m with [] => [(k, v)] | (k', w) :: m => if okey_dec k' k then (k', v) :: m else (k', w) :: assign m k v end.

(** the tables of the file; rows of cache_radial carry method and species *)
Definition owner := option (method * string).
Definition owner_dec (a b : owner) : {a = b} + {a <> b}.
Proof. decide equality. decide equality; [apply String.string_dec|apply method_dec]. Defined.
Definition table := list (owner * okey * R).
Fixpoint find_row (t : table) (o : owner) (k : okey) : option R :=
  match t with
  | [] => None
  | (o', k', v) :: t => if owner_dec o' o then if okey_dec k' k then Some v else find_row t o k else find_row t o k
  end.

(** ss << value: six significant digits, to nearest, ties to even *)
Definition radix10 : radix := Build_radix 10 eq_refl.
Definition fmt (x : R) : R := round radix10 (FLX_exp 6) ZnearestE x.

Section Cache.
(** WignerSymbols::wigner3j, wigner6j (doubled arguments) *)
Variables w3j w6j : Z -> Z -> Z -> Z -> Z -> Z -> R.
(** IntegrateRadialElement between two QuantumDefect objects, with the converter (566): may throw (unknown state), may be no number *)
Variable radial : method -> string -> Z -> Z -> Z -> Z -> Z -> Z -> Z -> res num.
(** order in which an unordered_map is traversed *)
Variable ord : list okey -> list okey.

(** an object: method, species, caches *)
Record object := Object { meth : method; species : string; mem : memory }.
Definition owner_of (o : object) (k : okey) : owner := match k with KR _ _ _ _ _ _ _ => Some (meth o, species o) | _ => None end.

(** std::pow(-1, e/2) for a double e/2: no number unless an integer *)
Definition pow_m1 (e2 : Z) : num := if Z.even e2 then Num (if Z.even (e2 / 2) then 1 else -1) else Nan.
Definition times (a : num) (x : R) : num := match a with Num y => Num (y * x) | _ => Nan end.
(** 454-557: the value of a key *)
Definition calc (o : object) (k : okey) : res num :=
  match k with
  | KR k n1 l1 j1 n2 l2 j2 =>
      match meth o with Error => Throw | m => radial m (species o) k n1 l1 j1 n2 l2 j2 end
  | KA k j1 m1 j2 m2 => Ok (times (pow_m1 (j1 - m1)) (w3j j1 (2 * k) j2 (- m1) (m1 - m2) m2))
  | KS k l1 j1 l2 j2 =>
      Ok (if ((Z.abs (j1 - 1) <=? 2 * l1) && (2 * l1 <=? j1 + 1) && (Z.abs (l2 - k) <=? l1) && (l1 <=? l2 + k) &&
             (Z.abs (j1 - 2 * k) <=? j2) && (j2 <=? j1 + 2 * k) && (Z.abs (2 * l2 - 1) <=? j2) && (j2 <=? 2 * l2 + 1))%Z
          then times (times (pow_m1 (2 * l1 + 1 + j2 + 2 * k)) (sqrt (IZR ((j1 + 1) * (j2 + 1))))) (w6j (2 * l1) j1 1 j2 (2 * l2) (2 * k))
          else Num 0)
  | KL k l1 j1 l2 j2 =>
      Ok (times (times (pow_m1 (2 * l1 + 1 + j1 + 2 * k)) (sqrt (IZR ((j1 + 1) * (j2 + 1))))) (w6j 1 j1 (2 * l1) j2 1 (2 * k)))
  | KM k l1 l2 =>
      Ok (times (times (pow_m1 (2 * l1)) (sqrt (IZR ((2 * l1 + 1) * (2 * l2 + 1))))) (w3j (2 * l1) (2 * k) (2 * l2) 0 0 0))
  end%Z.

(** 271-342: note the keys that are not in memory; the second component are the rows of the temporary tables *)
Fixpoint note (m : memory) (tmp : list okey) (ks : list okey) : memory * list okey :=
  match ks with
  | [] => (m, tmp)
  | k :: ks => match lookup m k with Some _ => note m tmp ks | None => note (assign m k Max) (tmp ++ [k]) ks end
  end.
(** 349-448: load the noted keys that are in the file *)
Fixpoint load (o : object) (db : table) (m : memory) (tmp : list okey) : memory :=
  match tmp with
  | [] => m
  | k :: tmp => load o db (match find_row db (owner_of o k) k with Some v => assign m k (Num v) | None => m end) tmp
  end.
(** the caches a request works on, in the order of 454-559 *)
Definition stages (a : request) : list (okey -> bool) :=
  let k := Z.of_nat (kappa a) in let kr := Z.of_nat (kappar a) in
  let R_ := fun x => match x with KR k' _ _ _ _ _ _ => Z.eqb k' kr | _ => false end in
  let A_ := fun x => match x with KA k' _ _ _ _ => Z.eqb k' k | _ => false end in
  let S_ := fun x => match x with KS k' _ _ _ _ => Z.eqb k' k | _ => false end in
  let L_ := fun x => match x with KL k' _ _ _ _ => Z.eqb k' k | _ => false end in
  let M_ := fun x => match x with KM k' _ _ => Z.eqb k' k | _ => false end in
  match mode a with Electric => [R_; A_; S_; M_] | Magnetic => [R_; A_; S_; L_] | RadialOnly => [R_] end.
Definition is_max (v : num) : bool := match v with Max => true | _ => false end.
Definition pending (m : memory) (f : okey -> bool) : list okey := ord (map fst (filter (fun kv => f (fst kv) && is_max (snd kv)) m)).
(** 450-561: determine the values and insert them into the file.  No number is printed as "nan" or "inf", which is no SQL; a second row
    for the same key violates the UNIQUE constraint.  The memory keeps its values when an exception is thrown. *)
Fixpoint store (o : object) (m : memory) (db : table) (ks : list okey) : memory * res table :=
  match ks with
  | [] => (m, Ok db)
  | k :: ks =>
      match calc o k with
      | Ok v =>
          let m' := assign m k v in
          match v with
          | Num x => match find_row db (owner_of o k) k with Some _ => (m', Throw) | None => store o m' ((owner_of o k, k, fmt x) :: db) ks end
          | _ => (m', Throw)
          end
      | Throw => (m, Throw)
      | UB => (m, UB)
      end
  end.
Fixpoint store_stages (o : object) (m : memory) (db : table) (fs : list (okey -> bool)) : memory * res table :=
  match fs with
  | [] => (m, Ok db)
  | f :: fs => match store o m db (pending m f) with (m', Ok db') => store_stages o m' db' fs | r => r end
  end.
(** precalculate (198-562).  [db]: the file when it is read, [db']: the file when the transaction begins (other processes may have
    written in between).  The result: the object and the file after the transaction; an exception rolls the transaction back. *)
Definition precalculate (a : request) (names : list one) (db db' : table) (o : object) : object * res table :=
  let (m, tmp) := note (mem o) [] (all_keys a names) in
  let (m', r) := store_stages o (load o db m tmp) db' (stages a) in
  (Object (meth o) (species o) m', r).

(** cache[k][...]: operator[] inserts 0 for an absent key *)
Definition read (k : okey) (m : memory) : num * memory :=
  match lookup m k with Some v => (v, m) | None => (Num 0, assign m k (Num 0)) end.
(** a product or sum with an unset value or no number (simplification: what the double arithmetic makes of it) *)
Definition op2 (f : R -> R -> R) (a b : num) : num := match a, b with Num x, Num y => Num (f x y) | _, _ => Nan end.

(** au2GHz / au2G * muB with muB = 0.5; gL = 1, gS; elementary_charge * inverse_electron_rest_mass / 12 (74-78, 150-163) *)
Variables cMag gL gS cDia : R.
(** getMultipole (173-186); getElectricMomentum is its case k = 1 (127-132) *)
Definition getMultipole (k : nat) (r c : one) (m : memory) : num * memory :=
  let kz := Z.of_nat k in
  let (x1, m) := read (key_radial kz r c) m in let (x2, m) := read (key_angular kz r c) m in
  let (x3, m) := read (key_s kz r c) m in let (x4, m) := read (key_m kz r c) m in
  (op2 Rmult (op2 Rmult (op2 Rmult x1 x2) x3) x4, m).
(** getDiamagnetism (158-171) *)
Definition getDiamagnetism (k : nat) (r c : one) (m : memory) : num * memory :=
  let kz := Z.of_nat k in
  let (x1, m) := read (key_radial 2 r c) m in let (x2, m) := read (key_angular kz r c) m in
  let (x3, m) := read (key_s kz r c) m in let (x4, m) := read (key_m kz r c) m in
  (op2 Rmult (op2 Rmult (op2 Rmult (op2 Rmult (Num cDia) x1) x2) x3) x4, m).
(** getMagneticMomentum (134-156) *)
Definition getMagneticMomentum (r c : one) (m : memory) : num * memory :=
  let (x1, m) := read (key_radial 0 r c) m in let (x2, m) := read (key_angular 1 r c) m in
  let (x3, m) := read (key_s 1 r c) m in let (x4, m) := read (key_l 1 r c) m in
  (op2 Rmult (op2 Rmult (op2 Rmult (Num cMag) x1) x2)
     (op2 Rplus (op2 Rmult (op2 Rmult (Num gL) x3) (Num (sqrt (IZR (l_ r * (l_ r + 1) * (2 * l_ r + 1))))))
                (op2 Rmult (op2 Rmult (Num gS) x4) (Num (sqrt (1/2 * (1/2 + 1) * (2 * (1/2) + 1)))))), m).
(** getRadial (188-196) *)
Definition getRadial (k : nat) (r c : one) (m : memory) : num * memory := read (key_radial (Z.of_nat k) r c) m.

Inductive query := QMultipole (k : nat) | QDiamagnetism (k : nat) | QMagnetic | QRadial (k : nat).
Definition get (x : query) (r c : one) (m : memory) : num * memory :=
  match x with
  | QMultipole k => getMultipole k r c m
  | QDiamagnetism k => getDiamagnetism k r c m
  | QMagnetic => getMagneticMomentum r c m
  | QRadial k => getRadial k r c m
  end.

(** A history of calls of one object, each with the states of the file it meets.  The answers of the queries, in order; an exception
    ends the history. *)
Inductive call := Pre (a : request) (names : list one) (db db' : table) | Get (x : query) (r c : one).
Fixpoint run (o : object) (h : list call) : object * res (list num) :=
  match h with
  | [] => (o, Ok [])
  | Pre a names db db' :: h =>
      match precalculate a names db db' o with
      | (o', Ok _) => run o' h
      | (o', Throw) => (o', Throw)
      | (o', UB) => (o', UB)
      end
  | Get x r c :: h =>
      let (v, m) := get x r c (mem o) in
      match run (Object (meth o) (species o) m) h with (o', Ok vs) => (o', Ok (v :: vs)) | r => r end
  end.
End Cache.

(** HamiltonianOne.cpp:195-236: the precalculations of the atom in fields *)
Definition field_requests (x : flags) : list request :=
  (if e0_ x then [precalculateElectricMomentum 0] else []) ++
  (if e1_ x then [precalculateElectricMomentum 1; precalculateElectricMomentum (-1)] else []) ++
  (if b0_ x then [precalculateMagneticMomentum 0] else []) ++
  (if b1_ x then [precalculateMagneticMomentum 1; precalculateMagneticMomentum (-1)] else []) ++
  (if dm_ x && (b0_ x || b1_ x) then [precalculateDiamagnetism 0 0; precalculateDiamagnetism 2 0] else []) ++
  (if dm_ x && b0_ x && b1_ x then [precalculateDiamagnetism 2 1; precalculateDiamagnetism 2 (-1)] else []) ++
  (if dm_ x && b1_ x then [precalculateDiamagnetism 2 2; precalculateDiamagnetism 2 (-2)] else []).
(** HamiltonianTwo.cpp:437-459: the precalculations of each atom of the pair *)
Definition pair_requests (multipoleexponent : Z) : list request :=
  if (2 <? multipoleexponent)%Z then map precalculateMultipole (seq 1 (Z.to_nat (multipoleexponent - 2))) else [].
(** the query whose result goes into the matrix of a slot (HamiltonianOne.cpp:344-411) *)
Definition slot_query (x : slot) : query :=
  match x with E0 | Ep | Em => QMultipole 1 | B0 | Bp | Bm => QMagnetic | D00 => QDiamagnetism 0 | _ => QDiamagnetism 2 end.

Section Session.
Variables w3j w6j : Z -> Z -> Z -> Z -> Z -> Z -> R.
Variable radial : method -> string -> Z -> Z -> Z -> Z -> Z -> Z -> Z -> res num.
Variable ord : list okey -> list okey.
(** the precalculations of a program that nobody disturbs, one after the other (HamiltonianOne.cpp:195-236, HamiltonianTwo.cpp:452-459);
    the file after them, rows of finished calls stay if a later call throws *)
Fixpoint session (rs : list request) (names : list one) (db : table) (o : object) : object * table * res unit :=
  match rs with
  | [] => (o, db, Ok tt)
  | a :: rs =>
      match precalculate w3j w6j radial ord a names db db o with
      | (o', Ok db') => session rs names db' o'
      | (o', Throw) => (o', db, Throw)
      | (o', UB) => (o', db, UB)
      end
  end.
End Session.
