(** Model of State.hpp / State.cpp, Symmetry.hpp and utils::hash_combine.
    No proofs in this file.

    Simplifications: [int] is Z (no overflow is possible: the code never does
    arithmetic on n and l here); the floats j, m, s are half-integers stored as
    twice their value in Z (NaN and non-half-integer floats are not modelled;
    -0.0 and 0.0 are one value, which the code cannot tell apart with == either,
    and std::hash<float> is required to agree on them). *)
From Verif Require Import Base.
From Coq Require Import ZArith NArith Lia Bool String Ascii List.
Local Open Scope Z_scope.
Set Implicit Arguments.

(** Constants.hpp: ARB = 32767 (an int); compared with a float it is 32767.0,
    i.e. 65534 in the doubled representation. *)
Definition ARB : Z := 32767.
Definition ARB2 : Z := 2 * ARB.

(** std::string::operator< : lexicographic on unsigned char values. *)
Fixpoint str_ltb (a b : string) : bool :=
  match a, b with
  | _, EmptyString => false
  | EmptyString, String _ _ => true
  | String c a', String d b' =>
      if (N_of_ascii c <? N_of_ascii d)%N then true
      else if (N_of_ascii d <? N_of_ascii c)%N then false
      else str_ltb a' b'
  end.

(** State.hpp 94-100: data members of StateOne. *)
Record state1 : Type := St1 {
  species : string; element : string;
  n : Z; l : Z; j2 : Z; m2 : Z; s2 : Z;
  hashv : N }.

(** utils.hpp 147-150: seed ^= hasher(v) + 0x9e3779b9 + (seed << 6) + (seed >> 2)
    on 64-bit size_t; [h] is the value of hasher(v). *)
Definition hash_combine (seed h : N) : N :=
  N.lxor seed (w64 (h + 0x9e3779b9 + w64 (N.shiftl seed 6) + N.shiftr seed 2)).

(** std::isdigit in the C locale. *)
Definition is_digit (c : ascii) : bool :=
  ((48 <=? N_of_ascii c) && (N_of_ascii c <=? 57))%N.

Fixpoint str_last (a : string) : option ascii :=
  match a with
  | EmptyString => None
  | String c EmptyString => Some c
  | String _ a' => str_last a'
  end.

Fixpoint str_init (a : string) : string :=
  match a with
  | EmptyString => EmptyString
  | String c EmptyString => EmptyString
  | String c a' => String c (str_init a')
  end.

(** State.cpp 180-187 analyzeSpecies: returns (element, 2*s).
    species.back() on an empty string is undefined behaviour. *)
Definition analyzeSpecies (sp : string) : res (string * Z) :=
  match str_last sp with
  | None => UB
  | Some c =>
      if is_digit c then Ok (str_init sp, Z.of_N (N_of_ascii c) - 48 - 1)
      else Ok (sp, 1)
  end.

(** State.cpp 147 *)
Definition isArtificial (s : state1) : bool := n s =? 0.

(** State.cpp 148-150 *)
Definition isGeneralized (s : state1) : bool :=
  (n s =? ARB) || (l s =? ARB) || (j2 s =? ARB2) || (m2 s =? ARB2).

(** State.cpp 188-192 shouldBeArtificial *)
Definition shouldBeArtificial (s : state1) (opinion : bool) : res unit :=
  if Bool.eqb (isArtificial s) opinion then Ok tt else Throw.

(** State.cpp 99-146: getters. *)
Definition getN (s : state1) : res Z := do! _ <- shouldBeArtificial s false ; Ok (n s).
Definition getL (s : state1) : res Z := do! _ <- shouldBeArtificial s false ; Ok (l s).
Definition getJ2 (s : state1) : res Z := do! _ <- shouldBeArtificial s false ; Ok (j2 s).
Definition getM2 (s : state1) : res Z := do! _ <- shouldBeArtificial s false ; Ok (m2 s).
Definition getS2 (s : state1) : res Z := do! _ <- shouldBeArtificial s false ; Ok (s2 s).
Definition getSpecies (s : state1) : res string := do! _ <- shouldBeArtificial s false ; Ok (species s).
Definition getElement (s : state1) : res string := do! _ <- shouldBeArtificial s false ; Ok (element s).
Definition getLabel (s : state1) : res string := do! _ <- shouldBeArtificial s true ; Ok (species s).

(** State.hpp 178: two-atom state. *)
Record state2 : Type := St2 { fst1 : state1; snd1 : state1; hashv2 : N }.

Section Hash.
  (** std::hash for std::string, int and float (float given by its doubled value). *)
  Variable hs : string -> N.
  Variable hi : Z -> N.
  Variable hf : Z -> N.

  (** State.cpp 56-65 *)
  Definition mkOne (sp : string) (n0 l0 j0 m0 : Z) : res state1 :=
    do! (el, sp2) <- analyzeSpecies sp ;
    let pre := St1 sp el n0 l0 j0 m0 sp2 0 in
    do! a <- getSpecies pre ;
    do! b <- getN pre ;
    do! c <- getL pre ;
    do! d <- getJ2 pre ;
    do! e <- getM2 pre ;
    Ok (St1 sp el n0 l0 j0 m0 sp2
         (hash_combine (hash_combine (hash_combine (hash_combine (hash_combine 0
            (hs a)) (hi b)) (hi c)) (hf d)) (hf e))).

  (** State.cpp 67-70 *)
  Definition mkLabel (lab : string) : res state1 :=
    let pre := St1 lab EmptyString 0 0 0 0 0 0 in
    do! a <- getLabel pre ;
    Ok (St1 lab EmptyString 0 0 0 0 0 (hs a)).

  (** State.cpp 198-217: common hash of the three constructors. *)
  Definition mkTwo_pair (a b : state1) : state2 :=
    St2 a b (hash_combine (hash_combine 0 (hashv a)) (hashv b)).

  (** State.cpp 198-205 *)
  Definition mkTwo (sp1 sp2 : string) (n1 n2 l1 l2 j1 j2' m1 m2' : Z) : res state2 :=
    do! a <- mkOne sp1 n1 l1 j1 m1 ;
    do! b <- mkOne sp2 n2 l2 j2' m2' ;
    Ok (mkTwo_pair a b).

  (** State.cpp 206-211 *)
  Definition mkTwo_label (lab1 lab2 : string) : res state2 :=
    do! a <- mkLabel lab1 ;
    do! b <- mkLabel lab2 ;
    Ok (mkTwo_pair a b).

  (** State.cpp 154-156 *)
  Definition getReflected (s : state1) : res state1 :=
    do! a <- getSpecies s ;
    do! b <- getN s ;
    do! c <- getL s ;
    do! d <- getJ2 s ;
    do! e <- getM2 s ;
    mkOne a b c d (- e).

  (** State.cpp 299-302 *)
  Definition getReflected2 (s : state2) : res state2 :=
    do! sp1 <- getSpecies (fst1 s) ; do! sp2 <- getSpecies (snd1 s) ;
    do! n1 <- getN (fst1 s) ; do! n2 <- getN (snd1 s) ;
    do! l1 <- getL (fst1 s) ; do! l2 <- getL (snd1 s) ;
    do! j1 <- getJ2 (fst1 s) ; do! j2' <- getJ2 (snd1 s) ;
    do! m1 <- getM2 (fst1 s) ; do! m2' <- getM2 (snd1 s) ;
    mkTwo sp1 sp2 n1 n2 l1 l2 j1 j2' (- m1) (- m2').
End Hash.

(** State.cpp 159-161 *)
Definition eq1 (a b : state1) : bool :=
  String.eqb (species a) (species b) && (n a =? n b) && (l a =? l b)
  && (j2 a =? j2 b) && (m2 a =? m2 b).

(** State.cpp 162-166 operator^ *)
Definition match1 (a g : state1) : bool :=
  String.eqb (species a) (species g) && ((n g =? ARB) || (n a =? n g))
  && ((l g =? ARB) || (l a =? l g)) && ((j2 g =? ARB2) || (j2 a =? j2 g))
  && ((m2 g =? ARB2) || (m2 a =? m2 g)).

(** State.cpp 167-169 *)
Definition neq1 (a b : state1) : bool :=
  negb (String.eqb (species a) (species b)) || negb (n a =? n b) || negb (l a =? l b)
  || negb (j2 a =? j2 b) || negb (m2 a =? m2 b).

(** State.cpp 170-176 *)
Definition lt1 (a b : state1) : bool :=
  str_ltb (species a) (species b) ||
  (String.eqb (species a) (species b) &&
   ((n a <? n b) ||
    ((n a =? n b) &&
     ((l a <? l b) || ((l a =? l b) && ((j2 a <? j2 b) || ((j2 a =? j2 b) && (m2 a <? m2 b)))))))).

(** State.cpp 177 *)
Definition le1 (a b : state1) : bool := lt1 a b || eq1 a b.

(** State.cpp 305-323 *)
Definition eq2 (a b : state2) : bool := eq1 (fst1 a) (fst1 b) && eq1 (snd1 a) (snd1 b).
Definition match2 (a g : state2) : bool := match1 (fst1 a) (fst1 g) && match1 (snd1 a) (snd1 g).
Definition neq2 (a b : state2) : bool := neq1 (fst1 a) (fst1 b) || neq1 (snd1 a) (snd1 b).
Definition lt2 (a b : state2) : bool :=
  lt1 (fst1 a) (fst1 b) || (eq1 (fst1 a) (fst1 b) && lt1 (snd1 a) (snd1 b)).
Definition le2 (a b : state2) : bool := lt2 a b || eq2 a b.

(** State.cpp 267-272: StateTwo::isArtificial / isGeneralized return one bool per atom;
    utils.hpp 52-59 is_true(array) is std::all_of. *)
Definition isArtificial2 (s : state2) : list bool := [isArtificial (fst1 s); isArtificial (snd1 s)].
Definition isGeneralized2 (s : state2) : list bool := [isGeneralized (fst1 s); isGeneralized (snd1 s)].
Definition is_true_all (bs : list bool) : bool := forallb (fun b => b) bs.

(** Symmetry.hpp 26-36; parity_t and rotation are ints. *)
Record symmetry : Type := Sym { s_inv : Z; s_ref : Z; s_perm : Z; s_rot : Z }.

(** Symmetry.hpp 38-52: the arrays have five slots, the last one zero-initialised;
    the loop returns at the first difference. *)
Definition sym_arr (s : symmetry) : list Z := [s_inv s; s_ref s; s_perm s; s_rot s; 0].
Fixpoint arr_lt (a b : list Z) : bool :=
  match a, b with
  | x :: a', y :: b' => if x <? y then true else if y <? x then false else arr_lt a' b'
  | _, _ => false
  end.
Definition sym_lt (s1 s2 : symmetry) : bool := arr_lt (sym_arr s1) (sym_arr s2).
