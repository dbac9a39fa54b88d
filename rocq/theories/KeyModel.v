(** Model of the configuration under which the command line program stores its matrices (the "key"), and of the numbers a calculation starts
    from: BasisnamesOne::fromFirst/fromSecond/fromBoth, Basisnames::configure, HamiltonianOne::configure and build (fields), BasisnamesTwo and
    HamiltonianTwo::calculate (conf_matpair, distance and symmetries).  No proofs in this file.

    Quantum numbers j and m are doubled integers as in BasisnamesModel.v; a text of another number is not modelled ([UB]).  Doubles are
    exact rational numbers, as in NumModel.v; the value of a text read by std::stod is its decimal value. *)
From Coq Require Import ZArith Lia Bool String Ascii List QArith.
Import ListNotations.
From Verif Require Import Base ConfModel NumModel BasisnamesModel.
Set Implicit Arguments.
Local Open Scope string_scope.

(** config[key] >> int, >> float (a half-integer) and >> double (ConfParser.hpp:94-112), for a constant Configuration *)
Definition rd_int (c : conf) (k : string) : res Z := do! s <- at_const c k; stoi (toks s).
Definition rd_half (c : conf) (k : string) : res Z :=
  do! s <- at_const c k;
  match stod (toks s) with
  | None => Throw
  | Some v => let q := Qred (2 * value v) in if (Zpos (Qden q) =? 1)%Z then Ok (Qnum q) else UB
  end.
Definition rd_double (c : conf) (k : string) : res Q :=
  do! s <- at_const c k; match stod (toks s) with None => Throw | Some v => Ok (value v) end.
(** config[key].str() == "true" *)
Definition rd_bool (c : conf) (k : string) : res bool := do! s <- at_const c k; Ok (s =? "true").

(** The start state of an atom (Basisnames.cpp:32-35, 60-63, 88-95) *)
Definition rd_state (c : conf) (n l j m : string) : res one :=
  do! n <- rd_int c n; do! l <- rd_int c l; do! j <- rd_half c j; do! m <- rd_half c m; Ok (One 0 n l j m).
(** conf["n1"] << startstate.n etc. (Basisnames.cpp:125-132, 181-184) *)
Definition wr_state (c : conf) (n l j m : string) (s : one) : conf :=
  write (write (write (write c n (fmt_int (n_ s))) l (fmt_int (l_ s))) j (fmt6 (jj s # 2))) m (fmt6 (mm s # 2)).

(** Basisnames::configure (Basisnames.hpp:38-49): entries of the new configuration, and the deltas.  The configuration is empty before. *)
Definition copy (src : conf) (dst : conf) (k : string) : res conf := do! s <- at_const src k; Ok (write dst k s).
Definition copies (src : conf) (dst : conf) (ks : list string) : res conf := fold_left (fun d k => do! d <- d; copy src d k) ks (Ok dst).
Definition configure (c : conf) : res (conf * deltas) :=
  do! k <- copies c [] ["deltaNSingle"; "deltaLSingle"; "deltaJSingle"; "deltaMSingle"];
  do! dn <- rd_int k "deltaNSingle"; do! dl <- rd_int k "deltaLSingle"; do! dj <- rd_int k "deltaJSingle"; do! dm <- rd_int k "deltaMSingle";
  do! k <- copies c k ["missingCalc"; "missingWhittaker"];
  Ok (k, Deltas dn dl dj dm).

(** Which one-atom basis: of the first atom, of the second atom, common to both (Interface.cpp:60-98) *)
Inductive which := First | Second | Both.

(** A one-atom basis: its configuration, start states (states_initial) and the deltas *)
Record basis_one := BasisOne { b_conf : conf; b_start : list one; b_deltas : deltas }.

(** BasisnamesOne::fromFirst, fromSecond, fromBoth and the entries written by build (Basisnames.cpp:30-42, 58-70, 86-105, 119-132, 177-188) *)
Definition names_single (c : conf) (species n l j m : string) : res basis_one :=
  do! s <- rd_state c n l j m;
  do! (k, d) <- configure c;
  do! sp <- at_const c species;
  let k := wr_state (write k "species1" sp) "n1" "l1" "j1" "m1" s in
  let k := write (write (write (write k "n2" "") "l2" "") "j2" "") "m2" "" in
  Ok (BasisOne k [s] d).
Definition names_both (c : conf) : res basis_one :=
  do! a <- rd_state c "n1" "l1" "j1" "m1"; do! b <- rd_state c "n2" "l2" "j2" "m2";
  do! sp1 <- at_const c "species1"; do! sp2 <- at_const c "species2";
  if negb (sp1 =? sp2) then Throw
  else
    do! (k, d) <- configure c;
    let s := order a b in
    let k := wr_state (wr_state (write k "species1" sp1) "n1" "l1" "j1" "m1" (fst s)) "n2" "l2" "j2" "m2" (snd s) in
    Ok (BasisOne k [fst s; snd s] d).
Definition names (c : conf) (w : which) : res basis_one :=
  match w with
  | First => names_single c "species1" "n1" "l1" "j1" "m1"
  | Second => names_single c "species2" "n2" "l2" "j2" "m2"
  | Both => names_both c
  end.

(** How radial matrix elements are calculated (MatrixElements.cpp:87-96) *)
Inductive method := Modelpotentials | Whittaker | Error_.
Definition method_of (calc whittaker : bool) : method := if calc then Modelpotentials else if whittaker then Whittaker else Error_.

(** The six fields of a step *)
Record fields := Fields { f_Ex : Q; f_Ey : Q; f_Ez : Q; f_Bx : Q; f_By : Q; f_Bz : Q }.

(** Everything a one-atom matrix is calculated from (HamiltonianOne.cpp:67-95 and 98-655) *)
Record problem := Problem {
  p_species : string; p_start : list one; p_deltas : deltas; p_method : method; p_deltaE : Q; p_diamagnetism : bool; p_fields : fields }.

(** conf["Ex"] << Ex etc. (HamiltonianOne.cpp:489-495) *)
Definition wr_fields (k : conf) (f : fields) : conf :=
  write (write (write (write (write (write k "Ex" (fmt6 (f_Ex f))) "Ey" (fmt6 (f_Ey f))) "Ez" (fmt6 (f_Ez f)))
    "Bx" (fmt6 (f_Bx f))) "By" (fmt6 (f_By f))) "Bz" (fmt6 (f_Bz f)).

(** HamiltonianOne::configure (HamiltonianOne.cpp:67-76), the method (constructor of MatrixElements, HamiltonianOne.cpp:198) and the fields:
    the key of the matrix and the problem.  [config] is what the user gave; MatrixElements gets basicconf. *)
Definition one_step (c : conf) (w : which) (f : fields) : res (conf * problem) :=
  do! b <- names c w;
  do! k <- copies c (b_conf b) ["deltaESingle"; "diamagnetism"];
  do! e <- rd_double k "deltaESingle";
  do! sp <- at_const k "species1";
  do! dia <- rd_bool k "diamagnetism";
  do! mc <- rd_bool k "missingCalc"; do! mw <- rd_bool k "missingWhittaker";
  Ok (wr_fields k f, Problem sp (b_start b) (b_deltas b) (method_of mc mw) e dia f).

(** A symmetry of the pair; [None] is NA (Symmetry.hpp:26-37) *)
Record symmetry := Sym { s_inv : option Z; s_per : option Z; s_ref : option Z; s_rot : option Z }.
(** (sym == NA) ? "" : std::to_string(sym) (HamiltonianTwo.cpp:713-716) *)
Definition wr_sym (s : option Z) : string := match s with None => "" | Some x => fmt_int x end.

(** What a pair matrix is calculated from: the problems of the two atoms (whose matrices are combined), species and start states of the pair,
    whether the basis is shared, the restrictions of the pair states, the order of the multipole expansion, the distance and the symmetry
    (HamiltonianTwo.cpp:53-878).  sametrafo, zerotheta and conserveM only decide which symmetries are calculated. *)
Record pair_problem := PairProblem {
  q_one1 : problem; q_one2 : problem; q_shared : bool; q_species : string * string; q_initial : one * one; q_method : method;
  q_deltaE : Q; q_deltas : deltas; q_exponent : Z; q_distance : Q; q_symmetry : symmetry }.

(** BasisnamesTwo::configure and build: the entries of its configuration (Basisnames.cpp:297-350, 395-413).  [same]: constructed from one basis.
    The code takes the configurations of the one-atom bases; [k1] and [k2] here also have the entries written later, which are not used. *)
Definition names_two (same : bool) (k1 k2 : conf) : res (conf * (one * one)) :=
  do! n21 <- at_const k1 "n2"; do! n22 <- at_const k2 "n2";
  if (if same then n21 =? "" else negb (n21 =? "") || negb (n22 =? "")) then Throw
  else
    do! (k, _) <- configure k1;
    let k := write k "combined" (fmt_int (if same then 1 else 0)) in
    do! a <- rd_state k1 "n1" "l1" "j1" "m1";
    do! b <- (if same then rd_state k1 "n2" "l2" "j2" "m2" else rd_state k2 "n1" "l1" "j1" "m1");
    do! sp1 <- at_const k1 "species1"; do! sp2 <- at_const (if same then k1 else k2) "species1";
    let k := wr_state (write k "species1" sp1) "n1" "l1" "j1" "m1" a in
    let k := wr_state (write k "species2" sp2) "n2" "l2" "j2" "m2" b in
    Ok (k, (a, b)).

(** HamiltonianTwo::calculate (HamiltonianTwo.cpp:78-124 and 709-716): key and problem of a pair matrix.  The fields of the one-atom
    matrices are [f], the distance is [r], the symmetry [s]. *)
Definition two_step (c : conf) (same : bool) (f : fields) (r : Q) (s : symmetry) : res (conf * pair_problem) :=
  do! (k1, p1) <- one_step c (if same then Both else First) f;
  do! (k2, p2) <- one_step c (if same then Both else Second) f;
  do! (kp, ab) <- names_two same k1 k2;
  do! kp <- copies c kp ["deltaEPair"; "deltaNPair"; "deltaLPair"; "deltaJPair"; "deltaMPair"; "exponent"];
  let k := append k1 kp in
  do! sp1 <- at_const k "species1"; do! sp2 <- at_const k "species2";
  do! e <- rd_double k "deltaEPair";
  do! dn <- rd_int k "deltaNPair"; do! dl <- rd_int k "deltaLPair"; do! dj <- rd_int k "deltaJPair"; do! dm <- rd_int k "deltaMPair";
  do! x <- rd_int c "exponent";
  do! mc <- rd_bool c "missingCalc"; do! mw <- rd_bool c "missingWhittaker";
  let k := write k "R" (fmt6 r) in
  let k := write (write (write (write k "inversion" (wr_sym (s_inv s))) "permutation" (wr_sym (s_per s))) "reflection" (wr_sym (s_ref s)))
             "rotation" (wr_sym (s_rot s)) in
  Ok (k, PairProblem p1 p2 same (sp1, sp2) ab (method_of mc mw) e (Deltas dn dl dj dm) x r s).
