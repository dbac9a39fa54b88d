(** Model of WignerD.cpp, of addRotated (SystemOne.hpp, SystemTwo.hpp), of buildStaterotator
    (SystemOne.cpp, SystemTwo.cpp) and of the rotation of vectors (SystemBase.cpp:1504-1532,
    SystemOne.cpp:855-874).  No proofs in this file.

    Floating point numbers are real numbers (rounding, and the overflow of the factorial beyond
    170!, are not modelled).  The quantum numbers j, m are half-integers, stored as twice
    their value in Z as in StateModel.v.  The conversion of a negative float to the unsigned arguments of
    boost's factorial is undefined behaviour in C++; here it gives 0, and the
    theorems assume -j <= m <= j with j - m an integer. *)
From Verif Require Import Base StateModel LookupModel Matrix FieldModel.
From Coq Require Import ZArith Lia Bool Reals List.
Import ListNotations.
Set Implicit Arguments.
Local Open Scope R_scope.

(** Real scalars (Scalar = double). *)
Definition RR : StarRing.
Proof.
  refine (@Build_StarRing R 0 1 Rplus Rmult Rminus Ropp (fun x => x)
    (fun x y => if Rlt_dec x y then true else false) _ _ _ _); auto.
  constructor; intros; ring.
Defined.

(** Conversion of the float x/2 to an integer type (truncation). *)
Definition half (x : Z) : Z := Z.quot x 2.

(** boost::math::factorial<double>(unsigned) *)
Definition facR (n : Z) : R := INR (fact (Z.to_nat n)).
(** boost::math::binomial_coefficient<double>(unsigned n, unsigned k) *)
Definition bin (n k : Z) : R := facR n / (facR k * facR (n - k)).

(** WignerD.cpp:40: the values of the loop variable [k]. *)
Definition krange (j2 m2 mp2 : Z) : list Z :=
  let k0 := Z.max 0 (half (mp2 - m2)) in
  map (fun i => (k0 + Z.of_nat i)%Z)
    (seq 0 (Z.to_nat ((j2 + Z.min mp2 (- m2)) / 2 - k0 + 1))).

(** WignerD.cpp:38-49 evalWignerdPiHalf *)
Definition piHalf (j2 m2 mp2 : Z) : R :=
  let r := fold_left (fun r k =>
    r + powerRZ (-1) k * bin (half (j2 + mp2)) k * bin (half (j2 - mp2)) (half (2 * k + m2 - mp2)))
    (krange j2 m2 mp2) 0 in
  r * (powerRZ (-1) (half (m2 - mp2)) / Rpower 2 (IZR j2 / 2) *
       sqrt (facR (half (j2 + m2)) * facR (half (j2 - m2)) /
             (facR (half (j2 + mp2)) * facR (half (j2 - mp2))))).

(** std::complex<double>(cos(x), sin(x)) *)
Definition cis (x : R) : CR := (cos x, sin x).

(** WignerD.cpp:53: mpp = j, j-1, ..., -j. *)
Definition mdown (j2 : Z) : list Z := map (fun i => (j2 - 2 * Z.of_nat i)%Z) (seq 0 (S (Z.to_nat j2))).

(** WignerD.cpp:51-60 evalWignerd.  std::pow(std::complex<double>(0, 1), e) is exp(e log i),
    i.e. [cis (e pi/2)]. *)
Definition evalWignerd (j2 m2 mp2 : Z) (beta : R) : R :=
  let r := fold_left (fun r mpp =>
    cadd r (cmul (cmul (ofR (piHalf j2 m2 mpp)) (cis (- (IZR mpp / 2) * beta)))
                 (ofR (piHalf j2 mpp (- mp2)))))
    (mdown j2) (0, 0) in
  fst (cmul r (cmul (cis (PI / 2 * (IZR (2 * j2 - m2 - mp2) / 2))) (ofR (powerRZ (-1) m2)))).

(** WignerD.cpp:24-30 *)
Definition tolW : R := / IZR (10 ^ 16).
Definition wignerd (j2 m2 mp2 : Z) (beta : R) : R :=
  if Rlt_dec (Rabs (beta - PI / 2)) tolW then piHalf j2 m2 mp2 else evalWignerd j2 m2 mp2 beta.

(** WignerD.cpp:32-37 *)
Definition wignerD (j2 m2 mp2 : Z) (alpha beta gamma : R) : CR :=
  cmul (cmul (cis (- (IZR m2 / 2) * alpha)) (ofR (wignerd j2 m2 mp2 beta)))
       (cis (- (IZR mp2 / 2) * gamma)).

(** ** Rotation of states *)

(** Euler angles (alpha, beta, gamma). *)
Definition angles := (R * R * R)%type.

(** SystemOne.hpp:139: m = -j, -j+1, ..., j. *)
Definition mup (j2 : Z) : list Z := map (fun i => (- j2 + 2 * Z.of_nat i)%Z) (seq 0 (S (Z.to_nat j2))).

(** std::remainder(x, 2 * M_PI) *)
Definition remainder2pi (x : R) : R := x - 2 * PI * IZR (up (x / (2 * PI) - 1 / 2)).
(** SystemOne.hpp:123-135: the angles real scalars cannot represent. *)
Definition offAxis (x : R) : bool := if Rlt_dec tolW (Rabs (remainder2pi x)) then true else false.
(** utils.hpp:68-75: utils::convert<double> keeps the real part. *)
Definition convert (isreal : bool) (z : CR) : CR := if isreal then ofR (fst z) else z.

Section Rot.
(** std::hash<...> functions of the state constructor (StateModel.v). *)
Variables (hs : String.string -> N) (hi : Z -> N) (hf : Z -> N).

(** SystemOne.hpp:119-156 addRotated: the triplets added for one state; [isreal]: Scalar = double.
    getJ throws for artificial states.  A missing Zeeman level only prints a warning. *)
Variable isreal : bool.
Definition addRotated (tbl : list (nat * state1)) (a : angles) (e : nat * state1) : res (list (nat * nat * CR)) :=
  let '(alpha, beta, gamma) := a in
  if isreal && (offAxis alpha || offAxis gamma) then Throw else
  do! j <- getJ2 (snd e) ;
  fold_left (fun acc m =>
    do! l <- acc ;
    do! sp <- getSpecies (snd e) ;
    do! n0 <- getN (snd e) ;
    do! l0 <- getL (snd e) ;
    do! x <- mkOne hs hi hf sp n0 l0 j m ;
    match tfind eq1 tbl x with
    | Some i =>
        do! M <- getM2 (snd e) ;
        Ok (l ++ [(i, fst e, convert isreal (wignerD j m M (- gamma) (- beta) (- alpha)))])
    | None => Ok l
    end) (mup j) (Ok []).

(** SystemOne.cpp:691-713 buildStaterotator: all triplets. *)
Definition rotateAll (tbl : list (nat * state1)) (a : angles) : res (list (nat * nat * CR)) :=
  fold_left (fun acc e => do! l <- acc ; do! l' <- addRotated tbl a e ; Ok (l ++ l')) tbl (Ok []).

(** The rotator itself; the constructor of Eigen::SparseMatrix sums the triplets. *)
Definition staterotator (tbl : list (nat * state1)) (a : angles) : res (mat CR) :=
  do! l <- rotateAll tbl a ; Ok (mtrip (length tbl) (length tbl) l).

(** SystemTwo.hpp:127-176 addRotated.  The getters throw for artificial states (the order in which they
    are called does not matter).  [val2] is val2_vector. *)
Definition addRotated2 (tbl : list (nat * state2)) (a : angles) (e : nat * state2) : res (list (nat * nat * CR)) :=
  let '(alpha, beta, gamma) := a in
  let u := fst1 (snd e) in let v := snd1 (snd e) in
  if isreal && (offAxis alpha || offAxis gamma) then Throw else
  do! jv <- getJ2 v ;
  do! Mv <- getM2 v ;
  let val2 := map (fun m => convert isreal (wignerD jv m Mv (- gamma) (- beta) (- alpha))) (mup jv) in
  do! ju <- getJ2 u ;
  do! Mu <- getM2 u ;
  do! su <- getSpecies u ; do! nu <- getN u ; do! lu <- getL u ;
  do! sv <- getSpecies v ; do! nv <- getN v ; do! lv <- getL v ;
  fold_left (fun acc m1 =>
    let val1 := convert isreal (wignerD ju m1 Mu (- gamma) (- beta) (- alpha)) in
    fold_left (fun acc m2 =>
      do! l <- acc ;
      do! x <- mkTwo hs hi hf su sv nu nv lu lv ju jv m1 m2 ;
      match tfind eq2 tbl x with
      | Some i =>
          match nth_error val2 (Z.to_nat (half (m2 + jv))) with
          | Some val => Ok (l ++ [(i, fst e, cmul val1 val)])
          | None => UB
          end
      | None => Ok l
      end) (mup jv) acc) (mup ju) (Ok []).

(** SystemTwo.cpp:1433-1455 buildStaterotator *)
Definition rotateAll2 (tbl : list (nat * state2)) (a : angles) : res (list (nat * nat * CR)) :=
  fold_left (fun acc e => do! l <- acc ; do! l' <- addRotated2 tbl a e ; Ok (l ++ l')) tbl (Ok []).
Definition staterotator2 (tbl : list (nat * state2)) (a : angles) : res (mat CR) :=
  do! l <- rotateAll2 tbl a ; Ok (mtrip (length tbl) (length tbl) l).
End Rot.

(** ** Rotation of vectors *)

Definition mat3 := (vec * vec * vec)%type. (* the three rows *)
Definition row (k : nat) (A : mat3) : vec := match k with O => fst (fst A) | 1%nat => snd (fst A) | _ => snd A end.
Definition dot (a b : vec) : R := vx a * vx b + vy a * vy b + vz a * vz b.
Definition mk3 (x y z : R) : vec := (x, y, z).
Definition col (k : nat) (A : mat3) : vec :=
  let pick v := match k with O => vx v | 1%nat => vy v | _ => vz v end in
  mk3 (pick (row 0 A)) (pick (row 1 A)) (pick (row 2 A)).
(** [A.transpose() * v] *)
Definition tmulv (A : mat3) (v : vec) : vec := mk3 (dot (col 0 A) v) (dot (col 1 A) v) (dot (col 2 A) v).
Definition mul3 (A B : mat3) : mat3 :=
  let r k := mk3 (dot (row k A) (col 0 B)) (dot (row k A) (col 1 B)) (dot (row k A) (col 2 B)) in (r 0%nat, r 1%nat, r 2%nat).
(** Eigen::AngleAxisd(t, UnitZ) and (t, UnitY) as rotation matrices *)
Definition axisZ (t : R) : mat3 := (mk3 (cos t) (- sin t) 0, mk3 (sin t) (cos t) 0, mk3 0 0 1).
Definition axisY (t : R) : mat3 := (mk3 (cos t) 0 (sin t), mk3 0 1 0, mk3 (- sin t) 0 (cos t)).
(** SystemBase.cpp:1522-1532 buildRotator(alpha, beta, gamma) *)
Definition buildRotatorE (alpha beta gamma : R) : mat3 := mul3 (mul3 (axisZ alpha) (axisY beta)) (axisZ gamma).

(** Eigen's normalized(): a zero vector stays zero. *)
Definition norm3 (v : vec) : R := sqrt (dot v v).
Definition normalized (v : vec) : vec :=
  if Rlt_dec 0 (dot v v) then mk3 (vx v / norm3 v) (vy v / norm3 v) (vz v / norm3 v) else v.
Definition cross (a b : vec) : vec :=
  mk3 (vy a * vz b - vz a * vy b) (vz a * vx b - vx a * vz b) (vx a * vy b - vy a * vx b).
(** SystemBase.cpp:1504-1520 buildRotator(to_z_axis, to_y_axis): the columns are y x z, y and z. *)
Definition buildRotatorA (to_z to_y : vec) : res mat3 :=
  let z := normalized to_z in let y := normalized to_y in let x := cross y z in
  if Rlt_dec tolW (Rabs (dot z y)) then Throw
  else Ok (mk3 (vx x) (vx y) (vx z), mk3 (vy x) (vy y) (vy z), mk3 (vz x) (vz y) (vz z)).

(** SystemOne.cpp:855-863 and 865-874 rotateVector *)
Definition rotateVectorA (v to_z to_y : vec) : res vec :=
  if Req_EM_T (norm3 v) 0 then Ok v else do! A <- buildRotatorA to_z to_y ; Ok (tmulv A v).
Definition rotateVectorE (v : vec) (alpha beta gamma : R) : vec :=
  if Req_EM_T (norm3 v) 0 then v else tmulv (buildRotatorE alpha beta gamma) v.

(** SystemOne.cpp:83-109: the overloads of setEfield and setBfield with a coordinate system: the
    vector that is handed to setEfield(field), resp. setBfield(field). *)
Definition fieldInAxes (v to_z to_y : vec) : res vec := rotateVectorA v to_z to_y.
Definition fieldInAngles (v : vec) (a : angles) : vec := rotateVectorE v (fst (fst a)) (snd (fst a)) (snd a).
