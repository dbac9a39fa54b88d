(** C79: the multipole interaction of the command line program (HamiltonianTwo.cpp:425-606, 821-840). *)
From Coq Require Import ZArith Lia Bool List Reals Lra.
Import ListNotations.
From Verif Require Import Base Matrix FieldModel TwoModel BasisnamesModel BasisProofs CombineModel CombineSpec CombineProofs4 NecessaryProofs NecessarySpec InteractModel InteractSpec InteractProofs InteractProofs2 InteractProofs3.
Set Implicit Arguments.
Local Open Scope R_scope.

(** Between necessary pair states the matrix for 1/R^p contains the coefficient of the multipole expansion, unless its absolute value
    is at most the tolerance; all other entries are 0.  There is a matrix for every p from 3 to the configured exponent, it is
    Hermitian, its basis are the necessary states, and the calculation never fails. *)
Theorem C79_entries : forall kC tol el1 el2 b1 b2 start nec order,
  elements_ok b1 el1 -> elements_ok b2 el2 -> small b1 b2 -> integer_steps b1 -> integer_steps b2 ->
  length nec = (length (names1 b1) * length (names1 b2))%nat ->
  exists Vs, interaction kC tol el1 el2 order nec (build2 start b1 b2) = Ok Vs /\
    map fst Vs = seq 3 (Z.to_nat order - 2) /\
    forall p V, In (p, V) Vs -> let N := length nec in
      nr (fent V) = N /\ nc (fent V) = N /\ nr (fbas V) = N /\ nc (fbas V) = N /\ hermitian (fent V) /\
      forall r c, (r < N)%nat -> (c < N)%nat ->
        at_ (fbas V) r c = (if Nat.eqb r c && nth r nec false then ofR 1 else ofR 0) /\
        (nth r nec false = true -> nth c nec false = true -> exists x, at_ (fent V) r c = ofR x /\
           let exact := between_states (multipole kC el1 el2 p) b1 b2 r c in x = exact \/ (x = 0 /\ Rabs exact <= tol)) /\
        (nth r nec false = false \/ nth c nec false = false -> at_ (fent V) r c = ofR 0).
Proof.
  intros kC tol el1 el2 b1 b2 start nec order E1 E2 SM I1 I2 LN. rewrite interaction_ok by assumption. eexists. split; [reflexivity|]. split.
  { rewrite map_map. cbn [fst]. symmetry. rewrite <- seq_shift. reflexivity. }
  intros p V I N. apply in_map_iff in I. destruct I as (n & E & _). injection E as <- <-. unfold N. rewrite LN. do 4 (split; [reflexivity|]). split; [apply fent_herm; assumption|].
  intros r c Hr Hc. split; [rewrite fbas_at by assumption; reflexivity|]. rewrite fent_at by assumption. split.
  - intros -> ->. cbn [andb]. eexists. split; [reflexivity|]. apply cut_spec.
  - intros [->| ->]; rewrite ?andb_false_r; reflexivity.
Qed.

(** The coefficient is the one of the library (SystemTwo, atoms on the z axis), from the same matrix elements and selection rules. *)
Theorem C79_library : forall kC el1 el2 P1 P2 p s t s' t' (d : pdata),
  elements_on P1 el1 -> elements_on P2 el2 -> P1 s -> P1 s' -> P2 t -> P2 t' ->
  (mm s - mm s' = 2 * pq1 d)%Z -> (mm t - mm t' = 2 * pq2 d)%Z ->
  (forall k, psel1 d k = true <-> allowed s s' k) -> (forall k, psel2 d k = true <-> allowed t t' k) ->
  (forall k, pM1 d k = el1 s s' k) -> (forall k, pM2 d k = el2 t t' k) ->
  mult_val kC p d = multipole kC el1 el2 p s t s' t'.
Proof.
  intros kC el1 el2 P1 P2 p s t s' t' d E1 E2 R1 R2 R3 R4 Q1 Q2 A1 A2 M1 M2. unfold mult_val, multipole.
  destruct (Z.eqb_spec (pq1 d + pq2 d) 0) as [S|S], (Z.eqb_spec (mm s + mm t) (mm s' + mm t')) as [S'|S']; try lia; [|reflexivity]. f_equal. apply map_ext_in. intros k1 I. apply in_seq in I.
  replace ((mm s - mm s') / 2)%Z with (pq1 d) by (rewrite Q1, Z.mul_comm, Z.div_mul; lia). replace (pq2 d) with (- pq1 d)%Z by lia. rewrite M1, M2.
  set (k2 := (p - 1 - k1)%nat). destruct (psel1 d k1) eqn:S1; [destruct (psel2 d k2) eqn:S2|]; cbn [andb].
  - apply A1 in S1. apply A2 in S2. destruct S1 as (_ & _ & _ & B1 & _), S2 as (_ & _ & _ & B2 & _).
    assert (L1 : (Z.abs (pq1 d) <= Z.of_nat k1)%Z) by lia. assert (L2 : (Z.abs (pq1 d) <= Z.of_nat k2)%Z) by lia.
    replace (Z.abs (pq1 d) <=? Z.of_nat (Nat.min k1 k2))%Z with true by (symmetry; apply Z.leb_le; lia).
    destruct (@binom_ok k1 k2 (pq1 d) L1 L2) as (c1 & c2 & X1 & X2 & X). rewrite <- X. unfold binom_arg in X1, X2.
    destruct ((Z.of_nat k1 + pq1 d <? 0)%Z || (Z.of_nat (k1 + k2) <? Z.of_nat k1 + pq1 d)%Z); [discriminate X1|]. destruct ((Z.of_nat k2 - - pq1 d <? 0)%Z || (Z.of_nat (k1 + k2) <? Z.of_nat k2 - - pq1 d)%Z); [discriminate X2|].
    injection X1 as <-. injection X2 as <-. unfold binom_coef. ring.
  - assert (Z0 : el2 t t' k2 = 0) by (apply (proj1 E2); auto; intros H; apply A2 in H; congruence). rewrite Z0. destruct (Z.abs _ <=? _)%Z; ring.
  - assert (Z0 : el1 s s' k1 = 0) by (apply (proj1 E1); auto; intros H; apply A1 in H; congruence). rewrite Z0. destruct (Z.abs _ <=? _)%Z; ring.
Qed.

(** The Hamiltonian of a step: energies of the pair basis vectors on the diagonal, plus for every p the interaction between the basis
    vectors divided by the p-th power of the distance, if the basis vectors consist of necessary states (C77_covers).  It is Hermitian. *)
Theorem C79_total : forall kC tol el1 el2 b1 b2 start nec order Vs (M : hmat CR) position,
  elements_ok b1 el1 -> elements_ok b2 el2 -> small b1 b2 -> integer_steps b1 -> integer_steps b2 ->
  length nec = (length (names1 b1) * length (names1 b2))%nat ->
  interaction kC tol el1 el2 order nec (build2 start b1 b2) = Ok Vs ->
  coords M = length nec ->
  (forall k r, (k < dim M)%nat -> bvec M k r <> @Matrix.s0 CR -> nth r nec false = true) ->
  (forall k, (k < dim M)%nat -> sconj (energy M k) = energy M k) ->
  exists X : nat -> nat -> nat -> R,
    (forall p r c, let exact := between_states (multipole kC el1 el2 p) b1 b2 r c in X p r c = exact \/ (X p r c = 0 /\ Rabs exact <= tol)) /\
    meq (total position M Vs)
      (Mat (dim M) (dim M) (fun k l =>
         sadd (if Nat.eqb k l then energy M k else @Matrix.s0 CR)
              (fold_right (fun p a => sadd (smul (ofR (1 / position ^ p))
                  (bsum (length nec) (fun c => smul (bsum (length nec) (fun r => smul (sconj (bvec M k r)) (ofR (X p r c)))) (bvec M l c)))) a)
                 (@Matrix.s0 CR) (seq 3 (Z.to_nat order - 2))))) /\
    hermitian (total position M Vs).
Proof.
  intros kC tol el1 el2 b1 b2 start nec order Vs M position E1 E2 SM I1 I2 LN EV CM S SE. rewrite interaction_ok in EV by assumption. injection EV as <-.
  exists (fun p r c => cut tol (between_states (multipole kC el1 el2 p) b1 b2 r c)). split; [intros; apply cut_spec|].
  set (f := fun v : nat * full => mscale (ofR (1 / position ^ fst v)) (change_basis (snd v) (basis_of M))).
  assert (CH : forall n, meq (change_basis (mats kC tol el1 el2 b1 b2 start nec n) (basis_of M))
     (mconj (basis_of M) (Mat (length nec) (length nec) (fun r c => ofR (cut tol (between_states (multipole kC el1 el2 (Datatypes.S n)) b1 b2 r c)))))).
  { intros n. rewrite LN. apply change_at; auto; cbn [basis_of nr]; [congruence|]. cbn [nc at_]. intros k r Hk _ Nz. exact (S k r Hk Nz). }
  assert (TOT : forall l, total position M l = fold_left (fun H v => madd H (f v)) l (entries_of M)) by reflexivity.
  split.
  - rewrite TOT. destruct (@fold_madd_dim _ f (dim M) (map (fun n => (Datatypes.S n, mats kC tol el1 el2 b1 b2 start nec n)) (seq 2 (Z.to_nat order - 2))) (entries_of M)) as [D1 D2]; [intros; split; reflexivity|reflexivity..|].
    split; [exact D1|]. split; [exact D2|]. rewrite D1, D2. intros k l Hk Hl. rewrite fold_madd. cbn [at_]. f_equal.
    rewrite <- (seq_shift _ 2). generalize (seq 2 (Z.to_nat order - 2)). intros ns. induction ns as [|n ns IH]; [reflexivity|]. cbn [map fold_right]. f_equal; [|exact IH].
    unfold f. cbn [mscale at_ fst snd]. f_equal. destruct (CH n) as (_ & _ & A). rewrite A by assumption. unfold mconj. cbn [mmul madj nr nc at_ basis_of]. rewrite CM, !Nat.min_id.
    apply bsum_ext. intros c Hc. f_equal.
  - rewrite TOT. generalize (seq 2 (Z.to_nat order - 2)). intros ns. assert (H0 : hermitian (entries_of M)).
    { split; [reflexivity|]. split; [reflexivity|]. intros i k Hi Hk. cbn in Hi, Hk. cbn [madj at_ entries_of]. rewrite (Nat.eqb_sym k i). destruct (Nat.eqb_spec i k) as [E|_]; [|apply ofR_conj]. subst k. apply SE. exact Hi. }
    revert H0. generalize (entries_of M). induction ns as [|n ns IH]; intros H HH; [exact HH|]. cbn [map fold_left]. apply IH. apply madd_hermitian; [exact HH|]. apply mscale_hermitian; [apply ofR_conj|].
    cbn [snd]. unfold change_basis. change (mmul (mmul (madj ?t) ?e) ?t) with (mconj t e). apply mconj_hermitian. apply fent_herm; assumption.
Qed.

(** two states s and p with m = 1/2, dipole elements 1 between them: the interaction of ss and pp is - 2 / R^3 *)
Definition xs : one := One 0 60 0 1 1.
Definition xp : one := One 1 60 1 1 1.
Definition xb : names_one := NamesOne 2 [xs; xp] [xs].
Definition xel (s t : one) (k : nat) : R := if sel_multipole s t k && (mm s =? mm t)%Z then 1 else 0.
Lemma allowed_sym : forall s t k, allowed s t k -> allowed t s k.
Proof. intros s t k (A & [e B] & C & D & E). unfold allowed. repeat split; try lia. exists e. lia. Qed.
Example C79_hyp1 : elements_ok xb xel.
Proof.
  split.
  - intros s t k _ _ H. unfold xel. destruct (sel_multipole s t k) eqn:S; [|reflexivity]. apply sel_allowed in S. contradiction.
  - intros s t k _ _ _. unfold xel. rewrite (Z.eqb_sym (mm t)). destruct (Z.eqb_spec (mm s) (mm t)) as [E|_]; [|rewrite !andb_false_r; destruct (Z.even _); ring].
    rewrite E, Z.sub_diag, !andb_true_r. cbn [Z.even Z.div Z.div_eucl]. destruct (sel_multipole s t k) eqn:A, (sel_multipole t s k) eqn:B; try (cbn; ring).
    + apply sel_allowed, allowed_sym, sel_allowed in A. congruence.
    + apply sel_allowed, allowed_sym, sel_allowed in B. congruence.
Qed.
Example C79_hyp2 : small xb xb /\ integer_steps xb.
Proof. split; [vm_compute; reflexivity|]. intros s t [<-|[<-|[]]] [<-|[<-|[]]]; exists 0%Z; reflexivity. Qed.
Example C79_value : multipole 1 xel xel 3 xs xs xp xp = -2.
Proof.
  assert (F : fct 1 = 1) by reflexivity.
  assert (E : expansion 1 1 0 = -2).
  { unfold expansion. change (Z.of_nat 1 + 0)%Z with 1%Z. change (Z.of_nat 1 - 0)%Z with 1%Z. rewrite F. replace (1 * 1 * 1 * 1) with 1 by ring. rewrite sqrt_1. cbn. field. }
  change (multipole 1 xel xel 3 xs xs xp xp) with (1 * expansion 1 1 0 * 1 * 1 + 0). rewrite E. ring.
Qed.
Example C79_nonvacuous : forall tol, 0 <= tol < 1 -> exists V,
  interaction 1 tol xel xel 3 [true; true; true; true] (build2 (xs, xs) xb xb) = Ok [(3%nat, V)] /\ at_ (fent V) 0 3 = ofR (-2).
Proof.
  intros tol T. destruct C79_hyp2 as [SM I]. destruct (@C79_entries 1 tol xel xel xb xb (xs, xs) [true; true; true; true] 3 C79_hyp1 C79_hyp1 SM I I eq_refl) as (Vs & E & F & H).
  rewrite E. destruct Vs as [|[p V] [|]]; try discriminate F. injection F as ->. exists V. split; [reflexivity|]. specialize (H _ _ (or_introl eq_refl)). destruct H as (_ & _ & _ & _ & _ & H).
  destruct (H 0%nat 3%nat) as (_ & X & _); [cbn; lia..|]. destruct X as (x & -> & Y); [reflexivity..|]. cbn zeta in Y. change (between_states (multipole 1 xel xel 3) xb xb 0 3) with (multipole 1 xel xel 3 xs xs xp xp) in Y. rewrite C79_value in Y.
  f_equal. destruct Y as [Y|[_ Y]]; [exact Y|]. unfold Rabs in Y. destruct (Rcase_abs (-2)); lra.
Qed.
(** a pair basis vector of necessary states *)
Definition xM : hmat CR := HMat 4 [[(0%nat, ofR 1)]; [(3%nat, ofR 1)]] [ofR 5; ofR 7].
Example C79_hyp3 : coords xM = 4%nat /\ (forall k r, (k < dim xM)%nat -> bvec xM k r <> @Matrix.s0 CR -> nth r [true; false; false; true] false = true) /\
  (forall k, (k < dim xM)%nat -> sconj (energy xM k) = energy xM k).
Proof.
  split; [reflexivity|]. split.
  - intros k r Hk. destruct k as [|[|k]]; [| |cbn in Hk; lia]; destruct r as [|[|[|[|r]]]]; cbn; intros H; try reflexivity; exfalso; apply H; reflexivity.
  - intros k Hk. destruct k as [|[|k]]; [| |cbn in Hk; lia]; apply ofR_conj.
Qed.

Print Assumptions C79_entries.
Print Assumptions C79_library.
Print Assumptions C79_total.
