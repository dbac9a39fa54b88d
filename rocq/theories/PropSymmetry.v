(** C96, C97: the program diagonalises blocks of different symmetry separately (HamiltonianTwo.cpp:277-345, 640-700, 815-850).  Is the
    interaction zero between them?

    [element N (fent V) u w] is <u|V|w> for the coefficient V of 1/R^p of the interaction; [nec] are the states for which the program
    computes V; [combine rt keep lhs rhs names sym] are the basis vectors of a block.  EVEN and ODD are gerade/ungerade,
    antisymmetric/symmetric, reflection +/-. *)
From Coq Require Import ZArith Lia Bool List Reals Lra.
Import ListNotations.
From Verif Require Import Base Matrix FieldModel BasisnamesModel BasisProofs CombineModel CombineSpec OverlapProofs PropNames CombineProofs CombineProofs2 CombineProofs3 CombineProofs4 CombineProofs5 PropCombine InteractModel InteractSpec InteractProofs InteractProofs2 InteractProofs3 PropInteract SymmetrySpec SymmetryProofs SymmetryProofs2.
Set Implicit Arguments.
Local Open Scope R_scope.

Lemma half_steps : forall b, half b -> integer_steps b.
Proof.
  intros b H s t Is It. destruct (H s Is) as [_ A], (H t It) as [_ B]. apply Z.odd_spec in A, B. destruct A as [x A], B as [y B]. exists (x - y)%Z. lia.
Qed.
Lemma sc_CR : forall z (x : CR), sc z x = smul (s := CR) (zK CR z) x. Proof. intros. apply sc_zK. Qed.
Lemma odd_m1 : forall p, Nat.Odd p -> (-1) ^ (p - 1) = 1.
Proof. intros p [k ->]. rewrite Nat.add_sub, pow_mult. replace ((-1) ^ 2) with 1 by ring. apply pow1. Qed.
Lemma sc_one : forall x : CR, sc 1 x = x. Proof. reflexivity. Qed.
Lemma sc_mone : forall x : CR, sc (-1) x = sopp x. Proof. reflexivity. Qed.

(** Inversion (gerade/ungerade): the blocks are not coupled, whatever the order of the multipole expansion. *)
Theorem C96_inversion : forall kC tol el b start nec order Vs p V (rt : CR) keep h q Mo Me k k',
  elements_ok b el -> half b -> small b b -> length nec = (length (names1 b) * length (names1 b))%nat ->
  interaction kC tol el el order nec (build2 start b b) = Ok Vs -> In (p, V) Vs ->
  sadd (smul rt rt) (smul rt rt) = s1 -> sconj rt = rt -> over h b -> (forall i, (i < dim h)%nat -> definite h b (fun s => sg (l_ s)) i (q i)) ->
  combine rt keep h h (names2 (build2 start b b)) (Sym ODD NA NA None) = Ok Mo ->
  combine rt keep h h (names2 (build2 start b b)) (Sym EVEN NA NA None) = Ok Me ->
  (k < dim Mo)%nat -> (k' < dim Me)%nat -> within nec (bvec Mo k) -> within nec (bvec Me k') ->
  element (length nec) (fent V) (bvec Mo k) (bvec Me k') = ofR 0 /\ element (length nec) (fent V) (bvec Me k') (bvec Mo k) = ofR 0.
Proof.
  intros kC tol el b start nec order Vs p V rt keep h q Mo Me k k' E H S LN EV IV RT RC O D EO EE Hk Hk' Wo We.
  destruct (@C76_inversion_partial CR rt keep h b start ODD q) as (Mo' & A & _ & _ & _ & _ & Xo & _); auto; [discriminate|]. rewrite EO in A. injection A as <-.
  destruct (@C76_inversion_partial CR rt keep h b start EVEN q) as (Me' & A & _ & _ & _ & _ & Xe & _); auto; [discriminate|]. rewrite EE in A. injection A as <-.
  pose proof O as (C & _). pose proof (half_steps H) as I. rewrite LN. rewrite C in Xo, Xe. set (n := length (names1 b)) in *.
  assert (G : forall z, z = element (n * n) (fent V) (bvec Mo k) (bvec Me k') \/ z = element (n * n) (fent V) (bvec Me k') (bvec Mo k) -> z = ofR 0).
  { intros z. refine (@different kC tol el el b b E E start S I I nec LN order Vs p V EV IV (fun r => (parity b (r / n) * parity b (r mod n))%Z) (swapc n) (inverted b) _ _ _ _ (bvec Mo k) (bvec Me k') z Wo We _ _).
    - intros r. apply swapc_lt.
    - intros r Hr. apply swapc_invol. exact Hr.
    - intros r c. apply (@inversion_X kC el b E I p).
    - intros u r Hr. unfold inverted. apply sc_CR.
    - intros r Hr. apply (Xo k r Hk Hr).
    - intros r Hr. rewrite (Xe k' r Hk' Hr). apply sc_mone. }
  split; apply G; auto.
Qed.

(** Permutation (symmetric/antisymmetric): the blocks are not coupled by the odd powers p of 1/R (p = 3: dipole-dipole, p = 5:
    quadrupole-quadrupole and dipole-octupole). *)
Theorem C96_permutation : forall kC tol el b start nec order Vs p V (rt : CR) keep h Mo Me k k',
  elements_ok b el -> half b -> small b b -> length nec = (length (names1 b) * length (names1 b))%nat ->
  interaction kC tol el el order nec (build2 start b b) = Ok Vs -> In (p, V) Vs -> Nat.Odd p ->
  sadd (smul rt rt) (smul rt rt) = s1 -> sconj rt = rt -> over h b ->
  combine rt keep h h (names2 (build2 start b b)) (Sym NA NA ODD None) = Ok Mo ->
  combine rt keep h h (names2 (build2 start b b)) (Sym NA NA EVEN None) = Ok Me ->
  (k < dim Mo)%nat -> (k' < dim Me)%nat -> within nec (bvec Mo k) -> within nec (bvec Me k') ->
  element (length nec) (fent V) (bvec Mo k) (bvec Me k') = ofR 0 /\ element (length nec) (fent V) (bvec Me k') (bvec Mo k) = ofR 0.
Proof.
  intros kC tol el b start nec order Vs p V rt keep h Mo Me k k' E H S LN EV IV OP RT RC O EO EE Hk Hk' Wo We.
  destruct (@C76_permutation CR rt keep h b start ODD) as (Mo' & A & _ & _ & _ & _ & Xo & _); auto; [discriminate|]. rewrite EO in A. injection A as <-.
  destruct (@C76_permutation CR rt keep h b start EVEN) as (Me' & A & _ & _ & _ & _ & Xe & _); auto; [discriminate|]. rewrite EE in A. injection A as <-.
  pose proof O as (C & _). pose proof (half_steps H) as I. rewrite LN. rewrite C in Xo, Xe. set (n := length (names1 b)) in *.
  assert (G : forall z, z = element (n * n) (fent V) (bvec Mo k) (bvec Me k') \/ z = element (n * n) (fent V) (bvec Me k') (bvec Mo k) -> z = ofR 0).
  { intros z. refine (@different kC tol el el b b E E start S I I nec LN order Vs p V EV IV (fun _ => 1%Z) (swapc n) (exchange n) _ _ _ _ (bvec Mo k) (bvec Me k') z Wo We _ _).
    - intros r. apply swapc_lt.
    - intros r Hr. apply swapc_invol. exact Hr.
    - intros r c Hr Hc. etransitivity; [apply (@exchange_X kC el b I p r c Hr Hc)|]. rewrite (odd_m1 OP). unfold zR. cbn. ring.
    - intros u r Hr. rewrite <- sc_CR. reflexivity.
    - intros r Hr. apply (Xo k r Hk Hr).
    - intros r Hr. rewrite (Xe k' r Hk' Hr). apply sc_mone. }
  split; apply G; auto.
Qed.

(** Reflection: the blocks are not coupled. *)
Theorem C96_reflection : forall kC tol el1 el2 b1 b2 start nec order Vs p V (rt : CR) keep lhs rhs m1 m2 R R' Mo Me k k',
  elements_ok b1 el1 -> elements_ok b2 el2 -> mirrored b1 el1 -> mirrored b2 el2 -> closed b1 -> closed b2 -> half b1 -> half b2 -> small b1 b2 ->
  length nec = (length (names1 b1) * length (names1 b2))%nat ->
  interaction kC tol el1 el2 order nec (build2 start b1 b2) = Ok Vs -> In (p, V) Vs ->
  sadd (smul rt rt) (smul rt rt) = s1 -> sconj rt = rt -> over lhs b1 -> over rhs b2 ->
  (forall k, k < dim lhs -> definite lhs b1 mm k (m1 k))%nat -> (forall k, k < dim rhs -> definite rhs b2 mm k (m2 k))%nat ->
  combine rt keep lhs rhs (names2 (build2 start b1 b2)) (Sym NA ODD NA R) = Ok Mo ->
  combine rt keep lhs rhs (names2 (build2 start b1 b2)) (Sym NA EVEN NA R') = Ok Me ->
  (k < dim Mo)%nat -> (k' < dim Me)%nat -> within nec (bvec Mo k) -> within nec (bvec Me k') ->
  element (length nec) (fent V) (bvec Mo k) (bvec Me k') = ofR 0 /\ element (length nec) (fent V) (bvec Me k') (bvec Mo k) = ofR 0.
Proof.
  intros kC tol el1 el2 b1 b2 start nec order Vs p V rt keep lhs rhs m1 m2 R R' Mo Me k k' E1 E2 M1 M2 C1 C2 H1 H2 S LN EV IV RT RC O1 O2 D1 D2 EO EE Hk Hk' Wo We.
  destruct (@C76_reflection_partial CR rt keep lhs rhs b1 b2 start ODD R m1 m2) as (Mo' & A & Co & _ & _ & _ & Xo & _); auto; [discriminate|]. rewrite EO in A. injection A as <-.
  destruct (@C76_reflection_partial CR rt keep lhs rhs b1 b2 start EVEN R' m1 m2) as (Me' & A & Ce & _ & _ & _ & Xe & _); auto; [discriminate|]. rewrite EE in A. injection A as <-.
  pose proof O1 as (L1 & _). pose proof O2 as (L2 & _). rewrite L1, L2 in Co, Ce. rewrite Co in Xo. rewrite Ce in Xe. rewrite LN. set (N := (length (names1 b1) * length (names1 b2))%nat) in *.
  assert (G : forall z, z = element N (fent V) (bvec Me k') (bvec Mo k) \/ z = element N (fent V) (bvec Mo k) (bvec Me k') -> z = ofR 0).
  { intros z. refine (@different kC tol el1 el2 b1 b2 E1 E2 start S (half_steps H1) (half_steps H2) nec LN order Vs p V EV IV (fun r => refl_sign b1 b2 (r / length (names1 b2)) (r mod length (names1 b2))) (mirror2 b1 b2) (reflected b1 b2) _ _ _ _ (bvec Me k') (bvec Mo k) z We Wo _ _).
    - intros r Hr. apply (mirror2_parts C1 C2 Hr).
    - intros r Hr. apply (mirror2_invol (One 0 0 0 0 0, One 0 0 0 0 0) C1 C2 S Hr).
    - intros r c. apply (@reflection_X kC el1 el2 b1 b2 E1 E2 M1 M2 (half_steps H1) C1 C2 H1 H2 p).
    - intros u r Hr. apply reflected_eq.
    - intros r Hr. apply (Xe k' r Hk' Hr).
    - intros r Hr. rewrite (Xo k r Hk Hr). apply sc_mone. }
  split; apply G; auto.
Qed.

(** Total magnetic quantum number: blocks with different R are not coupled. *)
Theorem C96_rotation : forall kC tol el1 el2 b1 b2 start nec order Vs p V (rt : CR) keep lhs rhs m1 m2 R R' M M' k k',
  elements_ok b1 el1 -> elements_ok b2 el2 -> half b1 -> half b2 -> small b1 b2 ->
  length nec = (length (names1 b1) * length (names1 b2))%nat ->
  interaction kC tol el1 el2 order nec (build2 start b1 b2) = Ok Vs -> In (p, V) Vs -> over lhs b1 -> over rhs b2 ->
  (forall k, k < dim lhs -> definite lhs b1 mm k (m1 k))%nat -> (forall k, k < dim rhs -> definite rhs b2 mm k (m2 k))%nat -> R <> R' ->
  combine rt keep lhs rhs (names2 (build2 start b1 b2)) (Sym NA NA NA (Some R)) = Ok M ->
  combine rt keep lhs rhs (names2 (build2 start b1 b2)) (Sym NA NA NA (Some R')) = Ok M' ->
  (k < dim M)%nat -> (k' < dim M')%nat -> within nec (bvec M k) -> within nec (bvec M' k') ->
  element (length nec) (fent V) (bvec M k) (bvec M' k') = ofR 0.
Proof.
  intros kC tol el1 el2 b1 b2 start nec order Vs p V rt keep lhs rhs m1 m2 R R' M M' k k' E1 E2 H1 H2 S LN EV IV O1 O2 D1 D2 NR EM EM' Hk Hk' W W'.
  destruct (@C76_rotation_partial CR rt keep lhs rhs b1 b2 start R m1 m2) as (X & A & _ & L & _ & F & _); auto. rewrite EM in A. injection A as <-.
  destruct (@C76_rotation_partial CR rt keep lhs rhs b1 b2 start R' m1 m2) as (X & A & _ & L' & _ & F' & _); auto. rewrite EM' in A. injection A as <-.
  pose proof O1 as (L1 & _). pose proof O2 as (L2 & _).
  rewrite L in Hk. rewrite L' in Hk'. match type of Hk with (_ < length ?l)%nat => destruct (nth_error l k) as [[c1 c2]|] eqn:N1; [|apply nth_error_None in N1; lia] end.
  match type of Hk' with (_ < length ?l)%nat => destruct (nth_error l k') as [[d1 d2]|] eqn:N2; [|apply nth_error_None in N2; lia] end.
  destruct (F _ _ _ N1) as [_ B]. destruct (F' _ _ _ N2) as [_ B']. apply nth_error_In, in_pairs_with in N1, N2. destruct N1 as [[B1 B2] N1], N2 as [[B3 B4] N2].
  apply andb_true_iff in N1, N2. destruct N1 as [_ N1], N2 as [_ N2]. apply Z.eqb_eq in N1, N2.
  rewrite LN. rewrite (@element_within kC tol el1 el2 b1 b2 E1 E2 start S (half_steps H1) (half_steps H2) nec LN order Vs p V EV IV _ _ W W'). change (ofR 0) with (@Matrix.s0 CR). apply bsum_zero. intros r Hr. apply bsum_zero. intros c Hc.
  destruct (parts b1 b2 Hr) as (s & t & P1 & P2). destruct (parts b1 b2 Hc) as (s' & t' & P3 & P4). rewrite B, B'. unfold kron. rewrite L2.
  destruct (Z.eq_dec (mm s) (m1 c1)) as [Y1|Y1]; [|rewrite (definite_zero _ (D1 c1 B1) P1 Y1); apply injective_projections; cbn; ring].
  destruct (Z.eq_dec (mm t) (m2 c2)) as [Y2|Y2]; [|rewrite (definite_zero _ (D2 c2 B2) P2 Y2); apply injective_projections; cbn; ring].
  destruct (Z.eq_dec (mm s') (m1 d1)) as [Y3|Y3]; [|rewrite (definite_zero _ (D1 d1 B3) P3 Y3); apply injective_projections; cbn; ring].
  destruct (Z.eq_dec (mm t') (m2 d2)) as [Y4|Y4]; [|rewrite (definite_zero _ (D2 d2 B4) P4 Y4); apply injective_projections; cbn; ring].
  rewrite (@between_parts _ b1 b2 r c s t s' t') by assumption. unfold multipole. destruct (Z.eqb_spec (mm s + mm t) (mm s' + mm t')) as [X|_]; [lia|].
  replace (cut tol 0) with 0; [apply injective_projections; cbn; ring|]. unfold cut. destruct (above tol 0); reflexivity.
Qed.

(** s1/2, p3/2 and d3/2 with m = 1/2 *)
Definition yb : names_one := NamesOne 3 [One 0 60 0 1 1; One 1 60 1 3 1; One 2 60 2 3 1] [One 0 60 0 1 1].
Definition yh : hmat CR := HMat 3 [[(0%nat, ofR 1)]; [(1%nat, ofR 1)]; [(2%nat, ofR 1)]] [ofR 0; ofR 0; ofR 0].
Definition ynec : list bool := repeat true 9.
Lemma xel_ok : forall b, elements_ok b xel.
Proof.
  intros b. split.
  - intros s t k _ _ H. unfold xel. destruct (sel_multipole s t k) eqn:S; [|reflexivity]. apply sel_allowed in S. contradiction.
  - intros s t k _ _ _. unfold xel. rewrite (Z.eqb_sym (mm t)). destruct (Z.eqb_spec (mm s) (mm t)) as [E|_]; [|rewrite !andb_false_r; destruct (Z.even _); ring].
    rewrite E, Z.sub_diag, !andb_true_r. cbn [Z.even Z.div Z.div_eucl]. destruct (sel_multipole s t k) eqn:A, (sel_multipole t s k) eqn:B; try (cbn; ring).
    + apply sel_allowed, allowed_sym, sel_allowed in A. congruence.
    + apply sel_allowed, allowed_sym, sel_allowed in B. congruence.
Qed.
Lemma yh_over : over yh yb /\ half yb /\ small yb yb /\ orthonormal yh.
Proof.
  split; [split; [reflexivity|split; [reflexivity|]]|split; [|split; [vm_compute; reflexivity|]]].
  - intros c [<-|[<-|[<-|[]]]]; (split; [discriminate|]); intros e [<-|[]]; cbn; lia.
  - intros s [<-|[<-|[<-|[]]]]; split; reflexivity.
  - intros a b Ha Hb. cbn in Ha, Hb. destruct a as [|[|[|a]]], b as [|[|[|b]]]; try lia; apply injective_projections; cbn; ring.
Qed.
Lemma y_exp12 : expansion 1 2 0 = 3 /\ expansion 2 1 0 = -3.
Proof.
  assert (F : fct 1 = 1) by reflexivity. assert (G : fct 2 = 2) by (unfold fct; change (fact (Z.to_nat 2)) with 2%nat; cbn; ring).
  unfold expansion. change (Z.of_nat 1 + 0)%Z with 1%Z. change (Z.of_nat 1 - 0)%Z with 1%Z. change (Z.of_nat 2 + 0)%Z with 2%Z. change (Z.of_nat 2 - 0)%Z with 2%Z. rewrite F, G.
  replace (1 * 1 * 2 * 2) with (2 * 2) by ring. replace (2 * 2 * 1 * 1) with (2 * 2) by ring. rewrite sqrt_square by lra. change (fact (1 + 2)) with 6%nat. change (fact (2 + 1)) with 6%nat. cbn. split; field.
Qed.
Lemma y_pd : between_states (multipole 1 xel xel 4) yb yb 0 5 = 3.
Proof. change (1 * expansion 1 2 0 * 1 * 1 + (1 * expansion 2 1 0 * 0 * 0 + 0) = 3). destruct y_exp12 as [-> _]. ring. Qed.
Lemma y_dp : between_states (multipole 1 xel xel 4) yb yb 0 7 = -3.
Proof. change (1 * expansion 1 2 0 * 0 * 0 + (1 * expansion 2 1 0 * 1 * 1 + 0) = -3). destruct y_exp12 as [_ ->]. ring. Qed.

(** The dipole-quadrupole interaction (p = 4) couples the two permutation blocks; the program computes them separately nevertheless
    (it only looks at the symmetries that were asked for, HamiltonianTwo.cpp:137-170). *)
Theorem C97_permutation_refuted : elements_ok yb xel /\ half yb /\ small yb yb /\ over yh yb /\ orthonormal yh /\ length ynec = 9%nat /\
  forall tol (rt : CR), 0 <= tol < 1 -> sadd (smul rt rt) (smul rt rt) = s1 -> sconj rt = rt ->
  exists Vs V Mo Me, interaction 1 tol xel xel 4 ynec (build2 (One 0 60 0 1 1, One 0 60 0 1 1) yb yb) = Ok Vs /\ In (4%nat, V) Vs /\
  combine rt (fun _ => true) yh yh (names2 (build2 (One 0 60 0 1 1, One 0 60 0 1 1) yb yb)) (Sym NA NA ODD None) = Ok Mo /\
  combine rt (fun _ => true) yh yh (names2 (build2 (One 0 60 0 1 1, One 0 60 0 1 1) yb yb)) (Sym NA NA EVEN None) = Ok Me /\
  (0 < dim Mo)%nat /\ (2 < dim Me)%nat /\ within ynec (bvec Mo 0) /\ within ynec (bvec Me 2) /\
  element 9 (fent V) (bvec Mo 0) (bvec Me 2) = smul (ofR (-6)) rt /\ smul (ofR (-6)) rt <> ofR 0.
Proof.
  destruct yh_over as (O & H & S & On). split; [apply xel_ok|]. do 3 (split; [assumption|]). split; [assumption|]. split; [reflexivity|]. intros tol rt T RT RC.
  set (st := (One 0 60 0 1 1, One 0 60 0 1 1)).
  destruct (@C79_entries 1 tol xel xel yb yb st ynec 4 (xel_ok yb) (xel_ok yb) S (half_steps H) (half_steps H) eq_refl) as (Vs & EV & FV & _).
  destruct (@C76_permutation CR rt (fun _ => true) yh yb st ODD) as (Mo & Eo & _ & Do & _ & Fo & _); auto; [discriminate|].
  destruct (@C76_permutation CR rt (fun _ => true) yh yb st EVEN) as (Me & Ee & _ & De & _ & Fe & _); auto; [discriminate|].
  assert (IV : exists V, In (4%nat, V) Vs).
  { destruct Vs as [|[? ?] [|[a V] Vs]]; try discriminate FV. injection FV as _ -> _. exists V. right. left. reflexivity. }
  destruct IV as [V IV]. exists Vs, V, Mo, Me. split; [exact EV|]. split; [exact IV|]. split; [exact Eo|]. split; [exact Ee|].
  destruct (Fo 0%nat 0%nat 0%nat eq_refl) as [_ Bo]. destruct (Fe 2%nat 2%nat 1%nat eq_refl) as [_ Be].
  assert (Uo : forall r, (r < 9)%nat -> bvec Mo 0 r = if Nat.eqb r 0 then ofR 1 else ofR 0).
  { intros r Hr. rewrite Bo. do 9 (destruct r as [|r]; [apply injective_projections; cbn; ring|]). lia. }
  assert (Ue : forall c, (c < 9)%nat -> bvec Me 2 c = if Nat.eqb c 7 then rt else if Nat.eqb c 5 then sopp rt else ofR 0).
  { intros c Hc. rewrite Be. do 9 (destruct c as [|c]; [apply injective_projections; cbn; ring|]). lia. }
  assert (W : forall u, within ynec u). { intros u r Hr _. do 9 (destruct r as [|r]; [reflexivity|]). cbn in Hr. lia. }
  split; [rewrite Do; cbn; lia|]. split; [rewrite De; cbn; lia|]. split; [apply W|]. split; [apply W|].
  split; [|intros Z0; assert (RZ : rt = ofR 0) by (injection Z0 as Z1 Z2; apply injective_projections; cbn in *; lra); rewrite RZ in RT; injection RT as RT; lra].
  pose proof (@element_within 1 tol xel xel yb yb (xel_ok yb) (xel_ok yb) st S (half_steps H) (half_steps H) ynec eq_refl 4 Vs 4 V EV IV _ _ (W (bvec Mo 0)) (W (bvec Me 2))) as X.
  change (length (names1 yb) * length (names1 yb))%nat with 9%nat in X. rewrite X. clear X.
  transitivity (bsum 9 (fun r => if Nat.eqb r 0 then bsum 9 (fun c => if Nat.eqb c 7 then smul (s := CR) (ofR (-3)) rt else if Nat.eqb c 5 then smul (s := CR) (ofR (-3)) rt else ofR 0) else ofR 0)).
  - apply bsum_ext. intros r Hr. rewrite (Uo r Hr). destruct (Nat.eqb_spec r 0) as [Er|_].
    + subst r. apply bsum_ext. intros c Hc. rewrite (Ue c Hc). destruct (Nat.eqb_spec c 7) as [Ec|_]; [|destruct (Nat.eqb_spec c 5) as [Ec|_]].
      * subst c. rewrite y_dp. unfold cut, above. destruct (Rlt_dec tol (Rabs (-3))) as [_|Q]; [|exfalso; apply Q; rewrite Rabs_left; lra]. apply injective_projections; cbn; ring.
      * subst c. rewrite y_pd. unfold cut, above. destruct (Rlt_dec tol (Rabs 3)) as [_|Q]; [|exfalso; apply Q; rewrite Rabs_right; lra]. apply injective_projections; cbn; ring.
      * apply injective_projections; cbn; ring.
    + change (ofR 0) with (@Matrix.s0 CR) at 2. apply bsum_zero. intros c Hc. apply injective_projections; cbn; ring.
  - cbn [bsum Nat.eqb]. apply injective_projections; cbn; ring.
Qed.

(** The hypotheses are met.  Inversion, permutation, rotation: yb and yh; every block vector is within ynec. *)
Example C96_inversion_hyp : (forall i, (i < dim yh)%nat -> definite yh yb (fun s => sg (l_ s)) i (if Nat.eqb i 1 then (-1)%Z else 1%Z)) /\
  (forall i, (i < dim yh)%nat -> definite yh yb mm i 1%Z) /\ (forall u, within ynec u).
Proof.
  split; [|split].
  - intros i Hi e s I N. cbn in Hi. destruct i as [|[|[|i]]]; [| | |lia]; cbn in I; destruct I as [<-|[]]; cbn in N; injection N as <-; reflexivity.
  - intros i Hi e s I N. cbn in Hi. destruct i as [|[|[|i]]]; [| | |lia]; cbn in I; destruct I as [<-|[]]; cbn in N; injection N as <-; reflexivity.
  - intros u r Hr _. do 9 (destruct r as [|r]; [reflexivity|]). cbn in Hr. lia.
Qed.
(** Reflection: s1/2 and p1/2 with m = 1/2, -1/2, a dipole element that does not vanish *)
Definition zb : names_one := NamesOne 4 [One 0 60 0 1 1; One 1 60 0 1 (-1); One 2 60 1 1 1; One 3 60 1 1 (-1)] [One 0 60 0 1 1].
Definition zel (s t : one) (k : nat) : R := if Nat.eqb k 1 && sel_multipole s t k && (mm s =? mm t)%Z then IZR (mm s) else 0.
Example C96_reflection_hyp : elements_ok zb zel /\ mirrored zb zel /\ closed zb /\ half zb /\ small zb zb /\ zel (One 0 60 0 1 1) (One 2 60 1 1 1) 1 = 1.
Proof.
  split; [|split; [|split; [|split; [|split; [vm_compute; reflexivity|reflexivity]]]]].
  - split.
    + intros s t k _ _ H. unfold zel. destruct (sel_multipole s t k) eqn:S; [apply sel_allowed in S; contradiction|]. rewrite andb_false_r. reflexivity.
    + intros s t k _ _ _. unfold zel. rewrite (Z.eqb_sym (mm t)). destruct (Z.eqb_spec (mm s) (mm t)) as [E|_]; [|rewrite !andb_false_r; destruct (Z.even _); ring].
      rewrite E, Z.sub_diag, !andb_true_r. cbn [Z.even Z.div Z.div_eucl]. destruct (sel_multipole s t k) eqn:A, (sel_multipole t s k) eqn:B; try (destruct (Nat.eqb k 1); cbn; ring).
      * apply sel_allowed, allowed_sym, sel_allowed in A. congruence.
      * apply sel_allowed, allowed_sym, sel_allowed in B. congruence.
  - intros s t s' t' k Is It Is' It' Os Ot. unfold zel. destruct (Nat.eqb_spec k 1) as [->|_]; [|cbn [andb]; ring].
    cbn in Is, It, Is', It'. destruct Is as [<-|[<-|[<-|[<-|[]]]]], Is' as [<-|[<-|[<-|[<-|[]]]]]; try discriminate Os; destruct It as [<-|[<-|[<-|[<-|[]]]]], It' as [<-|[<-|[<-|[<-|[]]]]]; try discriminate Ot; cbn; ring.
  - split; [repeat constructor; cbn; intuition discriminate|]. intros s Is. cbn in Is. destruct Is as [<-|[<-|[<-|[<-|[]]]]].
    + exists (One 1 60 0 1 (-1)). split; [cbn; tauto|reflexivity].
    + exists (One 0 60 0 1 1). split; [cbn; tauto|reflexivity].
    + exists (One 3 60 1 1 (-1)). split; [cbn; tauto|reflexivity].
    + exists (One 2 60 1 1 1). split; [cbn; tauto|reflexivity].
  - intros s Is. cbn in Is. destruct Is as [<-|[<-|[<-|[<-|[]]]]]; split; reflexivity.
Qed.

Print Assumptions C96_inversion.
Print Assumptions C96_permutation.
Print Assumptions C96_reflection.
Print Assumptions C96_rotation.
Print Assumptions C97_permutation_refuted.
