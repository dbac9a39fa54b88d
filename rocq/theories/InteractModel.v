(** Model of the interaction in the command line program: MatrixElements.cpp selection rules (51-72), HamiltonianTwo.cpp construction of the
    interaction matrices (425-606) and of the Hamiltonian of a step (821-840), Hamiltonianmatrix.cpp changeBasis (107-112).  No proofs.
    Numbers are exact; Scalar = double is the case of imaginary parts 0. *)
From Coq Require Import ZArith Lia Bool List Reals.
Import ListNotations.
From Verif Require Import Base Matrix FieldModel BasisnamesModel CombineModel.
Set Implicit Arguments.
Local Open Scope R_scope.

(** selectionRulesMultipole(state1, state2, kappa) (MatrixElements.cpp:63-72); j and m are doubled *)
Definition sel_multipole (s t : one) (k : nat) : bool :=
  let K := Z.of_nat k in
  (Z.abs (l_ s - l_ t) <=? K)%Z && (K mod 2 =? Z.abs (l_ s - l_ t) mod 2)%Z &&
  (Z.abs (jj s - jj t) <=? 2 * K)%Z && (2 * K <=? jj s + jj t)%Z && (Z.abs (mm s - mm t) <=? 2 * K)%Z &&
  negb ((K =? 2)%Z && (jj s =? jj t)%Z && (jj t =? 3)%Z && (mm s =? - mm t)%Z && (Z.abs (mm s - mm t) =? 2)%Z).

(** a matrix of the program: basis_ and entries_ *)
Record full := Full { fbas : mat CR; fent : mat CR }.

Section Pair.
(** inverse_electric_constant, tol (HamiltonianTwo.cpp: 1e-32) *)
Variables kC tol : R.
(** matrixelements_atom1.getMultipole(row, col, kappa) and the same for atom 2 *)
Variables el1 el2 : one -> one -> nat -> R.

(** boost::math::binomial_coefficient<double>(unsigned n, unsigned k) throws for k > n; a negative int becomes a large unsigned *)
Definition binom_arg (n : nat) (k : Z) : res R :=
  if (k <? 0)%Z || (Z.of_nat n <? k)%Z then Throw else Ok (C n (Z.to_nat k)).
(** int q = difference of two floats *)
Definition qdiff (s t : one) : Z := Z.quot (mm s - mm t) 2.
(** int M = sum of two floats *)
Definition msum (t : two) : Z := Z.quot (mm (fst_ t) + mm (snd_ t)) 2.
(** the loop over kappa1 (HamiltonianTwo.cpp:556-588); n is sumOfKappas *)
Fixpoint kappa_loop (n : nat) (row col : two) (ks : list nat) (val : R) : res R :=
  match ks with
  | [] => Ok val
  | k1 :: ks =>
      let k2 := (n - k1)%nat in
      if sel_multipole (fst_ row) (fst_ col) k1 && sel_multipole (snd_ row) (snd_ col) k2 then
        let q1 := qdiff (fst_ row) (fst_ col) in
        let q2 := qdiff (snd_ row) (snd_ col) in
        if (q1 =? - q2)%Z then
          do! c1 <- binom_arg (k1 + k2) (Z.of_nat k1 + q1);
          do! c2 <- binom_arg (k1 + k2) (Z.of_nat k2 - q2);
          kappa_loop n row col ks (val + kC * (-1) ^ k2 * sqrt (c1 * c2) * el1 (fst_ row) (fst_ col) k1 * el2 (snd_ row) (snd_ col) k2)
        else kappa_loop n row col ks val
      else kappa_loop n row col ks val
  end.
Definition above (v : R) : bool := if Rlt_dec tol (Rabs v) then true else false.
Definition triplet := (nat * nat * CR)%type.
Definition pos_of (z : Z) : res nat := if (z <? 0)%Z then UB else Ok (Z.to_nat z).
(** what a pair of states adds to basis and entries (HamiltonianTwo.cpp:527-602) *)
Definition pair_entry (n : nat) (nec : list bool) (col row : two) : res (list triplet * list triplet) :=
  do! r <- pos_of (idx2 row);
  do! nr <- at_vec nec r;
  if negb nr then Ok ([], []) else
  if (idx2 row <? idx2 col)%Z then Ok ([], []) else
  if negb (msum col =? msum row)%Z then Ok ([], []) else
  do! c <- pos_of (idx2 col);
  do! v <- kappa_loop n row col (seq 1 (n - 1)) 0;
  Ok (if (idx2 row =? idx2 col)%Z then [(r, c, ofR 1)] else [],
      if above v then (r, c, ofR v) :: (if (idx2 row =? idx2 col)%Z then [] else [(c, r, ofR v)]) else []).
Fixpoint rows_loop (n : nat) (nec : list bool) (col : two) (rows : list two) : res (list triplet * list triplet) :=
  match rows with
  | [] => Ok ([], [])
  | row :: rows =>
      do! a <- pair_entry n nec col row;
      do! b <- rows_loop n nec col rows;
      Ok (fst a ++ fst b, snd a ++ snd b)
  end.
Fixpoint cols_loop (n : nat) (nec : list bool) (names cols : list two) : res (list triplet * list triplet) :=
  match cols with
  | [] => Ok ([], [])
  | col :: cols =>
      do! c <- pos_of (idx2 col);
      do! nc <- at_vec nec c;
      do! a <- (if nc then rows_loop n nec col names else Ok ([], []));
      do! b <- cols_loop n nec names cols;
      Ok (fst a ++ fst b, snd a ++ snd b)
  end.
(** compress(dim, dim) (Hamiltonianmatrix.cpp:86-94): a triplet outside of the matrix is undefined *)
Definition inside (d : nat) (l : list triplet) : bool := forallb (fun t => Nat.ltb (fst (fst t)) d && Nat.ltb (snd (fst t)) d) l.
Definition compress (d : nat) (p : list triplet * list triplet) : res full :=
  if inside d (fst p) && inside d (snd p) then Ok (Full (mtrip d d (fst p)) (mtrip d d (snd p))) else UB.
(** HamiltonianTwo.cpp:437-606: exponents and matrices for sumOfKappas = 2 .. multipoleexponent - 1 *)
Fixpoint orders_loop (nec : list bool) (b : names_two) (ns : list nat) : res (list (nat * full)) :=
  match ns with
  | [] => Ok []
  | n :: ns =>
      do! p <- cols_loop n nec (names2 b) (names2 b);
      do! m <- compress (Z.to_nat (dim2 b)) p;
      do! r <- orders_loop nec b ns;
      Ok ((S n, m) :: r)
  end.
Definition interaction (multipoleexponent : Z) (nec : list bool) (b : names_two) : res (list (nat * full)) :=
  if (2 <? multipoleexponent)%Z then orders_loop nec b (seq 2 (Z.to_nat multipoleexponent - 2)) else Ok [].
End Pair.

(** changeBasis (Hamiltonianmatrix.cpp:107-112): the entries *)
Definition change_basis (V : full) (B : mat CR) : mat CR :=
  let t := mmul (madj (fbas V)) B in mmul (mmul (madj t) (fent V)) t.
(** basis_ and entries_ of the combined one-atom matrices *)
Definition basis_of (M : hmat CR) : mat CR := Mat (coords M) (length (bcols M)) (fun r k => coef (nth k (bcols M) []) r).
Definition entries_of (M : hmat CR) : mat CR :=
  Mat (length (bcols M)) (length (bcols M)) (fun i k => if Nat.eqb i k then nth i (ediag M) (ofR 0) else ofR 0).
(** HamiltonianTwo.cpp:828-840 (and 669-683: the same with the product computed once) *)
Definition total (position : R) (M : hmat CR) (Vs : list (nat * full)) : mat CR :=
  fold_left (fun H v => madd H (mscale (ofR (1 / position ^ fst v)) (change_basis (snd v) (basis_of M)))) Vs (entries_of M).
