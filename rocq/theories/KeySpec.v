(** C105: when two calculations are the same up to the rounding of fields and distances.  Specification. *)
From Coq Require Import ZArith Lia Bool String List QArith Qabs.
Import ListNotations.
From Verif Require Import Base BasisnamesModel KeyModel.
Local Open Scope Q_scope.

(** Two numbers agree to about five digits. *)
Definition close (x y : Q) : Prop := exists v, Qabs (v - x) <= (1 # 200000) * Qabs v /\ Qabs (v - y) <= (1 # 200000) * Qabs v.
Definition close_fields (f g : fields) : Prop :=
  close (f_Ex f) (f_Ex g) /\ close (f_Ey f) (f_Ey g) /\ close (f_Ez f) (f_Ez g) /\
  close (f_Bx f) (f_Bx g) /\ close (f_By f) (f_By g) /\ close (f_Bz f) (f_Bz g).

(** The same one-atom calculation: everything is the same, but the fields agree only to five digits. *)
Definition same_problem (p q : problem) : Prop :=
  q = Problem (p_species p) (p_start p) (p_deltas p) (p_method p) (p_deltaE p) (p_diamagnetism p) (p_fields q) /\
  close_fields (p_fields p) (p_fields q).
(** The same pair calculation: everything is the same, but fields and distance agree only to five digits. *)
Definition same_pair (p q : pair_problem) : Prop :=
  same_problem (q_one1 p) (q_one1 q) /\ same_problem (q_one2 p) (q_one2 q) /\
  q = PairProblem (q_one1 q) (q_one2 q) (q_shared p) (q_species p) (q_initial p) (q_method p) (q_deltaE p) (q_deltas p) (q_exponent p)
        (q_distance q) (q_symmetry p) /\
  close (q_distance p) (q_distance q).

(** Quantum numbers that are written exactly: j and m up to 10000. *)
Definition small (s : one) : Prop := (Z.abs (jj s) <= 20000 /\ Z.abs (mm s) <= 20000)%Z.
Definition dbl (m k : Z) : Q := (if 0 <=? k then (m * 2 ^ k) # 1 else m # Z.to_pos (2 ^ (- k)))%Z.
(** the finite doubles *)
Definition is_double (x : Q) : Prop := exists m k, x = dbl m k /\ (Z.abs m < 2 ^ 53 /\ -1074 <= k <= 971)%Z.
Definition doubles (f : fields) : Prop := Forall is_double [f_Ex f; f_Ey f; f_Ez f; f_Bx f; f_By f; f_Bz f].
(** the values of an int *)
Definition is_int (x : Z) : Prop := (- 2 ^ 31 <= x < 2 ^ 31)%Z.
Definition sym_ints (s : symmetry) : Prop := forall x, In (Some x) [s_inv s; s_per s; s_ref s; s_rot s] -> is_int x.
