(** Model of the radial grids and their search: Wavefunction.hpp:233-311, Wavefunction.cpp:61-80, 148-158.  No proofs.

    Doubles are real numbers of the binary64 format (no infinities, no NaNs); an operation is the exact one followed by
    rounding to nearest even. *)
From Coq Require Import Reals ZArith Lra Lia Bool List.
From Flocq Require Import Core.
From Verif Require Import Base.
Import ListNotations.
Set Implicit Arguments.
Local Open Scope R_scope.

(** binary64, round to nearest, ties to even *)
Definition fexp : Z -> Z := FLT_exp (-1074) 53.
Definition rnd (x : R) : R := round radix2 fexp ZnearestE x.

(** std::abs(x(m) - d) <= std::max(std::abs(x(m)), std::abs(d)) * eps (Wavefunction.hpp:261) *)
Definition close (eps x d : R) : Prop := Rabs (rnd (x - d)) <= rnd (Rmax (Rabs x) (Rabs d) * eps).
Definition close_dec (eps x d : R) : {close eps x d} + {~ close eps x d} := Rle_dec _ _.

(** The loop (Wavefunction.hpp:236-263) on a column [x] (x(m) is [x m]).  Throw: left with L > R; UB: more than [fuel] rounds. *)
Fixpoint search (fuel : nat) (x : Z -> R) (d eps : R) (L Rt : Z) : res Z :=
  match fuel with
  | O => UB
  | S fuel =>
      if (Rt <? L)%Z then Throw
      else let m := ((L + Rt) / 2)%Z in
           if Rlt_dec (x m) d then (if close_dec eps (x m) d then Ok m else search fuel x d eps (m + 1) Rt)
           else if Rlt_dec d (x m) then (if close_dec eps (x m) d then Ok m else search fuel x d eps L (m - 1))
           else Ok m
  end.

(** std::numeric_limits<double>::epsilon() *)
Definition epsilon : R := bpow radix2 (-52).
(** findidx; [restarts]: how many recursive calls are allowed before the result is UB (endless recursion) *)
Fixpoint findidx_from (restarts : nat) (x : Z -> R) (rows : nat) (d eps : R) : res Z :=
  match search (S rows) x d eps 0 (Z.of_nat rows - 1) with
  | Ok m => Ok m
  | UB => UB
  | Throw => if Rlt_dec epsilon eps then Throw
             else match restarts with O => UB | S r => findidx_from r x rows d (2 * eps) end
  end.
Definition findidx (x : Z -> R) (rows : nat) (d : R) : res Z := findidx_from 1 x rows d epsilon.

(** dx = 0.01 (Wavefunction.hpp:100, 181): the double 5764607523034235 * 2^-59 *)
Definition dx : R := IZR 5764607523034235 * bpow radix2 (-59).
(** xy(i, 0) = (xmin + i * dx) (Wavefunction.cpp:77-79, 155-157); xmin is the result of std::floor or 1 *)
Definition grid (xmin : Z) (i : Z) : R := rnd (IZR xmin + rnd (IZR i * dx)).

(** IntegrateRadialElement (Wavefunction.hpp:282-311): which pairs of rows are multiplied and added.  A wavefunction is
    given by xmin and its number of rows; rows = 0 would be read out of bounds. *)
Fixpoint steps (fuel : nat) (i1 i2 end1 end2 : Z) : list (Z * Z) :=
  match fuel with
  | O => []
  | S f => if (i1 <? end1)%Z && (i2 <? end2)%Z then (i1, i2) :: steps f (i1 + 1) (i2 + 1) end1 end2 else []
  end.
Definition rows_used (a1 : Z) (n1 : nat) (a2 : Z) (n2 : nat) : res (list (Z * Z)) :=
  if Nat.eqb n1 0 || Nat.eqb n2 0 then UB
  else
    let x1 := grid a1 in let x2 := grid a2 in
    let last1 := (Z.of_nat n1 - 1)%Z in let last2 := (Z.of_nat n2 - 1)%Z in
    let xmin := if Rle_dec (x2 0%Z) (x1 0%Z) then x1 0%Z else x2 0%Z in
    let xmax := if Rle_dec (x1 last1) (x2 last2) then x1 last1 else x2 last2 in
    if Rle_dec xmin xmax then
      do! start1 <- findidx x1 n1 xmin;
      do! end1 <- findidx x1 n1 xmax;
      do! start2 <- findidx x2 n2 xmin;
      do! end2 <- findidx x2 n2 xmax;
      Ok (steps (n1 + n2) start1 start2 end1 end2)
    else Ok [].
(** mu (lines 303-308); sums and products without rounding *)
Definition sumR (l : list R) : R := fold_right Rplus 0 l.
Definition radial (a1 : Z) (n1 : nat) (y1 : Z -> R) (a2 : Z) (n2 : nat) (y2 : Z -> R) (power : nat) : res R :=
  do! r <- rows_used a1 n1 a2 n2;
  Ok (2 * sumR (map (fun p => y1 (fst p) * y2 (snd p) * grid a1 (fst p) ^ power * dx) r)).

(** Numerov::integrate (Wavefunction.cpp:82-118) without rounding; [g] is model_potential::g(qd, .), [x] the radial column,
    [n] the number of rows, [odd] is (n - l) % 2 != 0.  [below k] is row n-1-k: row n-1 is zero (Zero(nsteps, 2)),
    row n-2 is the initial condition.  n < 2 is out of bounds. *)
Section Numerov.
Variable g : R -> R.
Variable x : Z -> R.
Variable n : nat.
Variable odd : bool.
Definition row (k : nat) : Z := (Z.of_nat n - 1 - Z.of_nat k)%Z.
Definition gat (k : nat) : R := g (x (row k) * x (row k)).
(** (row k, row k-1) *)
Fixpoint below2 (k : nat) : R * R :=
  match k with
  | O => (if odd then / 10 ^ 10 else - / 10 ^ 10, 0)
  | S k' => let '(y1, y2) := below2 k' in
            let A := (2 + 5 / 6 * dx * dx * gat (S k')) * y1 in
            let B := (1 - / 12 * dx * dx * gat k') * y2 in
            let C := 1 - / 12 * dx * dx * gat (S (S k')) in
            ((A - B) / C, y1)
  end.
Definition raw (i : Z) : R :=
  let k := Z.to_nat (Z.of_nat n - 1 - i) in match k with O => 0 | S k' => fst (below2 k') end.
(** rows 0 .. n-1 *)
Definition rows_list : list Z := map Z.of_nat (seq 0 n).
Definition norm2 : R := 2 * sumR (map (fun i => raw i * raw i * x i * x i * dx) rows_list).
(** lines 107-115 *)
Definition integrate (i : Z) : R := if Rlt_dec 0 (sqrt norm2) then raw i / sqrt norm2 else raw i.
End Numerov.

(** The same with the rounding of every operation (Wavefunction.cpp:82-118, Wavefunction.hpp:303-308); [g] gives a double; [pw] is std::pow.
    No infinities: a vanishing denominator or an overflow is outside the model. *)
Section Rounded.
Variable g : R -> R.
Variable x : Z -> R.
Variable n : nat.
Variable odd : bool.
Definition gat_r (k : nat) : R := g (rnd (x (row n k) * x (row n k))).
(** 5. / 6. * dx * dx and 1. / 12. * dx * dx *)
Definition c56 : R := rnd (rnd (rnd (5 / 6) * dx) * dx).
Definition c12 : R := rnd (rnd (rnd (1 / 12) * dx) * dx).
(** C in the step that computes row n-3-k (line 104) *)
Definition denominator (k : nat) : R := rnd (1 - rnd (c12 * gat_r (S (S k)))).
(** lines 87-106; [below2_r k] is (row n-2-k, row n-1-k) *)
Fixpoint below2_r (k : nat) : R * R :=
  match k with
  | O => (if odd then rnd (/ 10 ^ 10) else - rnd (/ 10 ^ 10), 0)
  | S k' => let '(y1, y2) := below2_r k' in
            let A := rnd (rnd (2 + rnd (c56 * gat_r (S k'))) * y1) in
            let B := rnd (rnd (1 - rnd (c12 * gat_r k')) * y2) in
            (rnd (rnd (A - B) / denominator k'), y1)
  end.
Definition raw_r (i : Z) : R :=
  let k := Z.to_nat (Z.of_nat n - 1 - i) in match k with O => 0 | S k' => fst (below2_r k') end.
(** norm += xy(i, 1) * xy(i, 1) * xy(i, 0) * xy(i, 0) * dx (lines 107-111) *)
Definition norm_term (y : Z -> R) (i : Z) : R := rnd (rnd (rnd (rnd (y i * y i) * x i) * x i) * dx).
Definition sum_r (l : list R) : R := fold_left (fun acc t => rnd (acc + t)) l 0.
Definition norm_r : R := rnd (sqrt (rnd (2 * sum_r (map (norm_term raw_r) (rows_list n))))).
(** lines 113-117 *)
Definition integrate_r (i : Z) : R := if Rlt_dec 0 norm_r then rnd (raw_r i / norm_r) else raw_r i.
End Rounded.
Definition radial_r (pw : R -> nat -> R) (a1 : Z) (n1 : nat) (y1 : Z -> R) (a2 : Z) (n2 : nat) (y2 : Z -> R) (power : nat) : res R :=
  do! r <- rows_used a1 n1 a2 n2;
  Ok (rnd (2 * sum_r (map (fun p => rnd (rnd (rnd (y1 (fst p) * y2 (snd p)) * pw (grid a1 (fst p)) power) * dx)) r))).
