(** Matrix elements of an alkali atom (spin 1/2), and what the file and the answers may contain, independently of the program's caches. *)
From Coq Require Import ZArith Lia Bool List Reals String.
From Flocq Require Import Core.
Import ListNotations.
From Verif Require Import Base BasisnamesModel InteractSpec OneFieldSpec MatCacheModel.
Set Implicit Arguments.
Local Open Scope R_scope.

(** a state of a spin 1/2 atom: l not negative, j positive, j and m half-integer (doubled: odd) *)
Definition doublet (s : one) : Prop := (0 <= l_ s)%Z /\ (0 < jj s)%Z /\ Z.Odd (jj s) /\ Z.Odd (mm s).
(** (-1)^e *)
Definition sign (e : Z) : R := if Z.even e then 1 else -1.
(** x itself, or x rounded to six significant digits *)
Definition six_digits (x y : R) : Prop := y = x \/ y = fmt x.

Section Elements.
Variables w3j w6j : Z -> Z -> Z -> Z -> Z -> Z -> R.
(** <n l j | r^k | n' l' j'> *)
Variable Rad : Z -> Z * Z * Z -> Z * Z * Z -> R.
Definition nlj (s : one) := (n_ s, l_ s, jj s).
Definition f_radial (k : nat) (s t : one) : R := Rad (Z.of_nat k) (nlj s) (nlj t).
(** (-1)^(j-m) ( j k j' ; -m q m' ) *)
Definition f_angular (k : nat) (s t : one) : R :=
  sign ((jj s - mm s) / 2) * w3j (jj s) (2 * Z.of_nat k) (jj t) (- mm s) (mm s - mm t) (mm t).
(** (-1)^(l+1/2+j'+k) sqrt((2j+1)(2j'+1)) { l j 1/2 ; j' l' k }, where the triangles close *)
Definition f_orbital (k : nat) (s t : one) : R :=
  let K := Z.of_nat k in
  if ((Z.abs (jj s - 2 * l_ s) =? 1) && (Z.abs (jj t - 2 * l_ t) =? 1) && (Z.abs (l_ s - l_ t) <=? K) && (K <=? l_ s + l_ t) &&
      (Z.abs (jj s - jj t) <=? 2 * K) && (2 * K <=? jj s + jj t))%Z
  then sign (l_ s + (1 + jj t) / 2 + K) * sqrt (IZR ((jj s + 1) * (jj t + 1))) * w6j (2 * l_ s)%Z (jj s) 1%Z (jj t) (2 * l_ t)%Z (2 * K)%Z
  else 0.
(** (-1)^(l+1/2+j+k) sqrt((2j+1)(2j'+1)) { 1/2 j l ; j' 1/2 k } *)
Definition f_spin (k : nat) (s t : one) : R :=
  sign (l_ s + (1 + jj s) / 2 + Z.of_nat k) * sqrt (IZR ((jj s + 1) * (jj t + 1))) * w6j 1%Z (jj s) (2 * l_ s)%Z (jj t) 1%Z (2 * Z.of_nat k)%Z.
(** (-1)^l sqrt((2l+1)(2l'+1)) ( l k l' ; 0 0 0 ) *)
Definition f_reduced (k : nat) (s t : one) : R :=
  sign (l_ s) * sqrt (IZR ((2 * l_ s + 1) * (2 * l_ t + 1))) * w3j (2 * l_ s)%Z (2 * Z.of_nat k)%Z (2 * l_ t)%Z 0%Z 0%Z 0%Z.

Variables cMag gL gS cDia : R.
(** The answer y of a query for the states s and t: the product of the factors, each exact or with six digits *)
Definition answer (x : query) (s t : one) (y : R) : Prop :=
  match x with
  | QMultipole k => exists a b c d, six_digits (f_radial k s t) a /\ six_digits (f_angular k s t) b /\ six_digits (f_orbital k s t) c /\
      six_digits (f_reduced k s t) d /\ y = a * b * c * d
  | QDiamagnetism k => exists a b c d, six_digits (f_radial 2 s t) a /\ six_digits (f_angular k s t) b /\ six_digits (f_orbital k s t) c /\
      six_digits (f_reduced k s t) d /\ y = cDia * a * b * c * d
  | QMagnetic => exists a b c d, six_digits (f_radial 0 s t) a /\ six_digits (f_angular 1 s t) b /\ six_digits (f_orbital 1 s t) c /\
      six_digits (f_spin 1 s t) d /\
      y = cMag * a * b * (gL * c * sqrt (IZR (l_ s * (l_ s + 1) * (2 * l_ s + 1))) + gS * d * sqrt (3 / 2))
  | QRadial k => six_digits (f_radial k s t) y
  end.
(** the same without rounding *)
Definition exact (x : query) (s t : one) : R :=
  match x with
  | QMultipole k => f_radial k s t * f_angular k s t * f_orbital k s t * f_reduced k s t
  | QDiamagnetism k => cDia * f_radial 2 s t * f_angular k s t * f_orbital k s t * f_reduced k s t
  | QMagnetic => cMag * f_radial 0 s t * f_angular 1 s t * (gL * f_orbital 1 s t * sqrt (IZR (l_ s * (l_ s + 1) * (2 * l_ s + 1))) + gS * f_spin 1 s t * sqrt (3 / 2))
  | QRadial k => f_radial k s t
  end.
(** the same with every factor rounded to six digits *)
Definition rounded (x : query) (s t : one) : R :=
  match x with
  | QMultipole k => fmt (f_radial k s t) * fmt (f_angular k s t) * fmt (f_orbital k s t) * fmt (f_reduced k s t)
  | QDiamagnetism k => cDia * fmt (f_radial 2 s t) * fmt (f_angular k s t) * fmt (f_orbital k s t) * fmt (f_reduced k s t)
  | QMagnetic => cMag * fmt (f_radial 0 s t) * fmt (f_angular 1 s t) * (gL * fmt (f_orbital 1 s t) * sqrt (IZR (l_ s * (l_ s + 1) * (2 * l_ s + 1))) + gS * fmt (f_spin 1 s t) * sqrt (3 / 2))
  | QRadial k => fmt (f_radial k s t)
  end.
End Elements.

(** the precalculation that a query needs *)
Inductive covers (s t : one) : request -> query -> Prop :=
| cov_multipole k : allowed s t k -> covers s t (precalculateMultipole k) (QMultipole k)
| cov_electric q : (mm s - mm t = 2 * q)%Z -> allowed s t 1 -> covers s t (precalculateElectricMomentum q) (QMultipole 1)
| cov_magnetic q : (mm s - mm t = 2 * q)%Z -> moment_allowed s t -> covers s t (precalculateMagneticMomentum q) QMagnetic
| cov_diamagnetism k q : (mm s - mm t = 2 * q)%Z -> allowed s t k -> covers s t (precalculateDiamagnetism k q) (QDiamagnetism k)
| cov_radial k : covers s t (precalculateRadial k) (QRadial k).
(** same quantum numbers as a state of the list *)
Definition listed (s : one) (names : list one) : Prop := exists s', In s' names /\ n_ s' = n_ s /\ l_ s' = l_ s /\ jj s' = jj s /\ mm s' = mm s.
(** every query comes after a precalculation for these states *)
Fixpoint prepared (done : list (request * list one)) (h : list call) : Prop :=
  match h with
  | [] => True
  | Pre a names _ _ :: h => prepared ((a, names) :: done) h
  | Get x s t :: h => (exists a names, In (a, names) done /\ listed s names /\ listed t names /\ covers s t a x) /\ prepared done h
  end.
(** the states of the precalculations are states of a spin 1/2 atom *)
Definition doublets (h : list call) : Prop := forall a names db db', In (Pre a names db db') h -> Forall doublet names.
(** the queries of a history *)
Fixpoint queries (h : list call) : list (query * one * one) :=
  match h with [] => [] | Pre _ _ _ _ :: h => queries h | Get x s t :: h => (x, s, t) :: queries h end.

(** The file: all that any process has written are correct values with six digits. *)
Section File.
Variables w3j w6j : Z -> Z -> Z -> Z -> Z -> Z -> R.
Variable Rad : method -> string -> Z -> Z * Z * Z -> Z * Z * Z -> R.
(** a state with quantum numbers n, l, j, m *)
Definition st (n l j m : Z) : one := One 0 n l j m.
Inductive row_ok : owner * okey * R -> Prop :=
| rad_ok m sp k s t : (m <> Error) -> row_ok (Some (m, sp), KR (Z.of_nat k) (n_ s) (l_ s) (jj s) (n_ t) (l_ t) (jj t), fmt (f_radial (Rad m sp) k s t))
| ang_ok k s t : row_ok (None, KA (Z.of_nat k) (jj s) (mm s) (jj t) (mm t), fmt (f_angular w3j k s t))
| orb_ok k s t : row_ok (None, KS (Z.of_nat k) (l_ s) (jj s) (l_ t) (jj t), fmt (f_orbital w6j k s t))
| spin_ok k s t : row_ok (None, KL (Z.of_nat k) (l_ s) (jj s) (l_ t) (jj t), fmt (f_spin w6j k s t))
| red_ok k s t : row_ok (None, KM (Z.of_nat k) (l_ s) (l_ t), fmt (f_reduced w3j k s t)).
Definition file_ok (db : table) : Prop := Forall row_ok db.
End File.
(** the radial integrals exist and are symmetric *)
Definition radial_exact (radial : method -> string -> Z -> Z -> Z -> Z -> Z -> Z -> Z -> res num) (Rad : method -> string -> Z -> Z * Z * Z -> Z * Z * Z -> R) : Prop :=
  (forall m sp k n l j n' l' j', radial m sp k n l j n' l' j' = Ok (Num (Rad m sp k (n, l, j) (n', l', j')))) /\
  (forall m sp k a b, Rad m sp k a b = Rad m sp k b a).
(** every file the history meets is correct; [alone]: nobody else writes between reading and writing *)
Definition files_ok (ok : table -> Prop) (h : list call) : Prop := forall a names db db', In (Pre a names db db') h -> ok db /\ ok db'.
Definition alone (h : list call) : Prop := forall a names db db', In (Pre a names db db') h -> db' = db.
