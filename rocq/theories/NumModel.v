(** Model of how Configuration values are written and read as numbers (ConfParser.hpp:51-57 operator<<, 69-112 operator>>):
    std::ostringstream with default format flags (the %g format of printf with 6 significant digits, for double; decimal
    for int), std::stod and std::stoi.  These belong to the C++ standard library; modelled from its specification.
    A finite double is an exact rational number [p/q].  No proofs. *)
From Verif Require Import Base.
From Coq Require Import ZArith NArith Lia Bool String Ascii List QArith.
Import ListNotations.
Set Implicit Arguments.
Local Open Scope Z_scope.

(** Characters that occur in numbers. *)
Inductive tok := D (d : Z) | Dot | Exp | Minus | Plus | Other.
Definition chr (t : tok) : ascii :=
  match t with D d => ascii_of_N (Z.to_N (48 + d)) | Dot => "." | Exp => "e" | Minus => "-" | Plus => "+" | Other => " " end%char.
Definition lex (c : ascii) : tok :=
  let n := Z.of_N (N_of_ascii c) in
  if (48 <=? n) && (n <=? 57) then D (n - 48)
  else if n =? 46 then Dot else if (n =? 101) || (n =? 69) then Exp else if n =? 45 then Minus else if n =? 43 then Plus else Other.
Definition text (ts : list tok) : string := string_of_list_ascii (map chr ts).
Definition toks (s : string) : list tok := map lex (list_ascii_of_string s).

(** *** Writing a double *)

(** x / y rounded to the nearest integer, ties to even (y > 0) *)
Definition round_even (x y : Z) : Z :=
  let q := x / y in let r := x mod y in
  match 2 * r ?= y with Lt => q | Gt => q + 1 | Eq => if Z.even q then q else q + 1 end.

(** The decimal exponent of p/q > 0: the largest e with 10^e <= p/q, for numbers in the range of a double. *)
Definition ge10 (p q e : Z) : bool := if 0 <=? e then q * 10 ^ e <=? p else q <=? p * 10 ^ (- e).
Fixpoint find_exp (n : nat) (top p q : Z) : Z :=
  match n with O => top | S n => if ge10 p q top then top else find_exp n (top - 1) p q end.
Definition exponent (p q : Z) : Z := find_exp 700 330 p q.

(** six significant digits m and exponent e: m * 10^(e-5) *)
Definition scaled (p q e : Z) : Z := if 5 <=? e then round_even p (q * 10 ^ (e - 5)) else round_even (p * 10 ^ (5 - e)) q.
Definition six (p q : Z) : Z * Z :=
  let e := exponent p q in let m := scaled p q e in if m =? 1000000 then (100000, e + 1) else (m, e).

(** the digits of m, most significant first; without trailing zeros *)
Definition digits6 (m : Z) : list Z := [m / 100000; m / 10000 mod 10; m / 1000 mod 10; m / 100 mod 10; m / 10 mod 10; m mod 10].
Fixpoint strip (l : list Z) : list Z :=
  match l with [] => [] | d :: l => match strip l with [] => if d =? 0 then [] else [d] | s => d :: s end end.
(** a decimal point only if digits follow *)
Definition frac (l : list Z) : list tok := match strip l with [] => [] | s => Dot :: map D s end.
Definition expo (e : Z) : list tok :=
  let a := Z.abs e in
  Exp :: (if e <? 0 then Minus else Plus) :: (if a <? 100 then [D (a / 10); D (a mod 10)] else [D (a / 100); D (a / 10 mod 10); D (a mod 10)]).
Definition render (m e : Z) : list tok :=
  let ds := digits6 m in
  if (-4 <=? e) && (e <? 6) then
    if 0 <=? e then map D (firstn (Z.to_nat (e + 1)) ds) ++ frac (skipn (Z.to_nat (e + 1)) ds)
    else D 0 :: frac (repeat 0 (Z.to_nat (- e - 1)) ++ ds)
  else map D (firstn 1 ds) ++ frac (skipn 1 ds) ++ expo e.

(** operator<<(double const&) for a finite double [x]; the sign of zero is not modelled *)
Definition fmt6_toks (x : Q) : list tok :=
  let p := Qnum x in let q := Zpos (Qden x) in
  if p =? 0 then [D 0]
  else let '(m, e) := six (Z.abs p) q in (if p <? 0 then [Minus] else []) ++ render m e.
Definition fmt6 (x : Q) : string := text (fmt6_toks x).

(** *** Reading *)
Fixpoint digits (acc n : Z) (ts : list tok) : Z * Z * list tok :=
  match ts with D d :: ts => digits (10 * acc + d) (n + 1) ts | _ => (acc, n, ts) end.
Definition sign (ts : list tok) : bool * list tok :=
  match ts with Minus :: ts => (true, ts) | Plus :: ts => (false, ts) | _ => (false, ts) end.
(** std::stod: (mantissa, exponent) of the decimal number, before rounding to a double; None: invalid_argument.
    Characters after the number are ignored. Leading white space, hexadecimal numbers, inf and nan are not modelled. *)
Definition stod (ts : list tok) : option (Z * Z) :=
  let '(neg, ts) := sign ts in
  let '(a, n, ts) := digits 0 0 ts in
  let '(a, k, ts) := match ts with Dot :: r => digits a 0 r | _ => (a, 0, ts) end in
  if n + k =? 0 then None
  else let m := if neg then - a else a in
       match ts with
       | Exp :: ts => let '(eneg, ts) := sign ts in
                      let '(x, l, _) := digits 0 0 ts in
                      if l =? 0 then Some (m, - k) else Some (m, (if eneg then - x else x) - k)
       | _ => Some (m, - k)
       end.
(** the decimal value *)
Definition value (m : Z * Z) : Q := inject_Z (fst m) * Qpower 10 (snd m).

(** operator<<(int const&) *)
Fixpoint dec_digits (fuel : nat) (n : Z) (acc : list tok) : list tok :=
  match fuel with O => acc | S f => if n <? 10 then D n :: acc else dec_digits f (n / 10) (D (n mod 10) :: acc) end.
Definition fmt_int (n : Z) : string := text ((if n <? 0 then [Minus] else []) ++ dec_digits 10 (Z.abs n) []).
(** std::stoi: throws invalid_argument or out_of_range *)
Definition stoi (ts : list tok) : res Z :=
  let '(neg, ts) := sign ts in
  let '(a, n, _) := digits 0 0 ts in
  if n =? 0 then Throw
  else let v := if neg then - a else a in if (- 2 ^ 31 <=? v) && (v <? 2 ^ 31) then Ok v else Throw.
