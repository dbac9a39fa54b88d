(** Model of how the command line program scans fields and distance: HamiltonianOne::configure and the loop over the steps
    (HamiltonianOne.cpp:67-95, 452-495), HamiltonianTwo::calculate (HamiltonianTwo.cpp:70-124, 180-184, 636-716).  No proofs in this file.

    Doubles are exact rational numbers; rounding of the interpolation is not modelled.  The numbers of steps are below 2^31 (a size_t in the
    code, cast to int for the loops). *)
From Coq Require Import ZArith Bool Arith List QArith.
Import ListNotations.
From Verif Require Import Base KeyModel.
Set Implicit Arguments.

(** The values minEx ... maxBz, steps, minR, maxR of the configuration *)
Record scan := Scan { f_min : fields; f_max : fields; steps : nat; r_min : Q; r_max : Q }.

(** a == b of doubles, for all components (HamiltonianOne.cpp:89-90) *)
Definition same_fields (a b : fields) : bool :=
  Qeq_bool (f_Bx a) (f_Bx b) && Qeq_bool (f_By a) (f_By b) && Qeq_bool (f_Bz a) (f_Bz b) &&
  Qeq_bool (f_Ex a) (f_Ex b) && Qeq_bool (f_Ey a) (f_Ey b) && Qeq_bool (f_Ez a) (f_Ez b).
(** HamiltonianOne.cpp:89-95: the number of one-atom Hamiltonians *)
Definition nsteps_one (s : scan) : nat := if same_fields (f_min s) (f_max s) then 1 else steps s.
(** (nSteps > 1) ? step / (nSteps - 1.) : 0 (HamiltonianOne.cpp:472, HamiltonianTwo.cpp:705) *)
Definition normalized (n i : nat) : Q := if (1 <? n)%nat then inject_Z (Z.of_nat i) / inject_Z (Z.of_nat n - 1) else 0.
(** min + normalized_position * (max - min) (HamiltonianOne.cpp:474-479) *)
Definition interpolate (x a b : Q) : Q := a + x * (b - a).
Definition field_at (s : scan) (x : Q) : fields :=
  let f g := interpolate x (g (f_min s)) (g (f_max s)) in Fields (f f_Ex) (f f_Ey) (f f_Ez) (f f_Bx) (f f_By) (f f_Bz).
(** The fields of the one-atom Hamiltonians: matrix_diag[step] for step = 0 ... nSteps-1 (HamiltonianOne.cpp:452-495, 648) *)
Definition one_scan (s : scan) : list fields := map (fun i => field_at s (normalized (nsteps_one s) i)) (seq 0 (nsteps_one s)).

(** HamiltonianTwo.cpp:182-184 *)
Definition nsteps_two (s : scan) : nat := if Qeq_bool (r_min s) (r_max s) && (nsteps_one s =? 1)%nat then 1 else steps s.

(** One pair Hamiltonian: its number ("step", line 700), fields of the one-atom Hamiltonians it is made from, distance, index of the symmetry *)
Record pair_step := PairStep { p_number : nat; p_fields_used : fields; p_distance : Q; p_symmetry : nat }.

(** single_idx (703) and hamiltonian_one->get(single_idx) (640-665, 821-824): undefined outside the vector *)
Definition one_at (s : scan) (step : nat) : res fields :=
  match nth_error (one_scan s) (if (nsteps_two s =? nsteps_one s)%nat then step else 0) with Some f => Ok f | None => UB end.
(** the body of the loop for one step and symmetry (698-716) *)
Definition pair_body (s : scan) (nsym step sym : nat) : res pair_step :=
  do! f <- one_at s step;
  Ok (PairStep (step * nsym + sym)%nat f (interpolate (normalized (nsteps_two s) step) (r_min s) (r_max s)) sym).
Fixpoint collect A (l : list (res A)) : res (list A) :=
  match l with [] => Ok [] | x :: l => do! x <- x; do! r <- collect l; Ok (x :: r) end.
(** what the iteration [step] of the parallel loop does: all symmetries one after the other *)
Definition iteration (s : scan) (nsym step : nat) : res (list pair_step) := collect (map (pair_body s nsym step) (seq 0 nsym)).

(** #pragma omp parallel for schedule(static, 1) with [threads] threads: thread t gets the iterations t, t + threads, ... *)
Definition assigned (threads n t : nat) : list nat := filter (fun i => (i mod threads =? t)%nat) (seq 0 n).
(** what thread t does, in order *)
Definition thread_of (s : scan) (nsym threads t : nat) : res (list pair_step) :=
  do! l <- collect (map (iteration s nsym) (assigned threads (nsteps_two s) t)); Ok (concat l).
(** Any interleaving of the threads *)
Inductive interleaving A : list (list A) -> list A -> Prop :=
| Finished : forall ts, (forall t, In t ts -> t = []) -> interleaving ts []
| Turn : forall before x t after l, interleaving (before ++ t :: after) l -> interleaving (before ++ (x :: t) :: after) (x :: l).
(** conf_mat.back() (104): undefined if there is no one-atom Hamiltonian; the output ">>TOT" (686) and the pair Hamiltonians in the order in
    which they are finished (">>OUT" lines, 855-878) *)
Definition two_scan (s : scan) (nsym threads : nat) (r : res (nat * list pair_step)) : Prop :=
  if (nsteps_one s =? 0)%nat then r = UB
  else match collect (map (thread_of s nsym threads) (seq 0 threads)) with
       | Ok ts => exists l, interleaving ts l /\ r = Ok ((nsteps_two s * nsym)%nat, l)
       | Throw => r = Throw
       | UB => r = UB
       end.
