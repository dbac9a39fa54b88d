(** C80: the atom in electric and magnetic fields in the command line program (HamiltonianOne.cpp). *)
From Coq Require Import ZArith Lia Bool List Reals Lra.
Import ListNotations.
From Verif Require Import Base Matrix FieldModel FieldSpec BasisnamesModel BasisProofs CombineModel InteractModel InteractSpec InteractProofs InteractProofs2 InteractProofs3 OneFieldModel OneFieldSpec OneFieldProofs OneFieldProofs2.
Set Implicit Arguments.
Local Open Scope R_scope.

Lemma cut_0 : forall tol, cut tol 0 = 0. Proof. intros tol. unfold cut. destruct (above tol 0); reflexivity. Qed.
Lemma cut_sign : forall tol (e : bool) x, cut tol ((if e then 1 else -1) * x) = (if e then 1 else -1) * cut tol x.
Proof.
  intros tol e x. unfold cut, above. replace (Rabs ((if e then 1 else -1) * x)) with (Rabs x).
  - destruct (Rlt_dec tol (Rabs x)); destruct e; ring.
  - rewrite Rabs_mult. destruct e; [rewrite Rabs_R1|rewrite (Rabs_left (-1)) by lra]; ring.
Qed.
Lemma cut_herm : forall tol b el, hermitian_elements b el -> hermitian_elements b (fun s t => cut tol (el s t)).
Proof. intros tol b el H s t Is It V. rewrite (H s t Is It V). apply cut_sign. Qed.
Lemma ljm_sym : forall s t, ljm s t = ljm t s.
Proof. intros s t. unfold ljm. rewrite (Z.eqb_sym (l_ s)), (Z.eqb_sym (jj s)), (Z.eqb_sym (mm s)). reflexivity. Qed.
Definition built_D (tol : R) (dD : nat -> one -> one -> R) (k : nat) (s t : one) : R := if Nat.eqb k 2 && ljm s t then 0 else cut tol (dD k s t).
Lemma built_herm : forall tol b dD k, hermitian_elements b (dD k) -> hermitian_elements b (built_D tol dD k).
Proof. intros tol b dD k H s t Is It V. unfold built_D. rewrite (ljm_sym t s). destruct (Nat.eqb k 2 && ljm s t); [ring|]. apply (@cut_herm tol b (dD k) H s t Is It V). Qed.
Lemma ljm_spec : forall s t, ljm s t = true <-> same_ljm s t.
Proof. intros s t. unfold ljm, same_ljm. rewrite !andb_true_iff, !Z.eqb_eq. tauto. Qed.

(** The matrix given to the eigensolver at a step is Hermitian and contains the energies and - E.d + B.mu + diamagnetism in the fields of
    the step, with the matrix elements of the states (values up to the tolerance become 0).  Missing from the full statement: the
    diamagnetic elements of rank 2 between states with equal l, j and m are left out, see C80_quadrupole_refuted. *)
Theorem C80_value_partial : forall tol dE dB dD isreal f b en step,
  atom_ok b dE dB dD ->
  (forall i s, nth_error (names1 b) i = Some s -> idx s = Z.of_nat i) -> dim1 b = Z.of_nat (length (names1 b)) ->
  integer_steps b -> (forall s, In s (names1 b) -> (0 <= jj s)%Z) ->
  (isreal = true -> vy (minE f) = 0 /\ vy (maxE f) = 0 /\ vy (minB f) = 0 /\ vy (maxB f) = 0) ->
  let t := normalized_position (nsteps f) step in
  exists H dE' dB' dD', hamiltonian_at tol dE dB dD isreal f b en step = Ok H /\ hermitian H /\
    nr H = length (names1 b) /\ nc H = length (names1 b) /\
    (forall r c s s', nth_error (names1 b) r = Some s -> nth_error (names1 b) c = Some s' ->
       at_ H r c = cadd (if Nat.eqb r c then (nth r en 0, 0) else (0, 0))
                        (in_fields dE' dB' dD' (along (minE f) (maxE f) t) (along (minB f) (maxB f) t) (diamagnetism f) s s')) /\
    (forall s s', rounded tol (dE s s') (dE' s s') /\ rounded tol (dB s s') (dB' s s')) /\
    (forall k s s', ~ (k = 2%nat /\ same_ljm s s') -> rounded tol (dD k s s') (dD' k s s')) /\
    (forall s s', same_ljm s s' -> dD' 2%nat s s' = 0).
Proof.
  intros tol dE dB dD isreal f b en step (ZZ & H1 & H2 & H3) IX DM IS JJ YR t.
  set (N := length (names1 b)) in *. set (dE' := fun s s' => cut tol (dE s s')). set (dB' := fun s s' => cut tol (dB s s')). set (dD' := built_D tol dD).
  unfold hamiltonian_at, spherical_fields. rewrite !spherical_real by (intros R; destruct (YR R) as (A & B & C & D); assumption). cbn [bind]. rewrite !lerp_spherical. fold t.
  set (fl := flags_of f _ _ _ _). destruct (@all_ok tol dE dB dD fl b IX DM) as (ms & Ems & A). rewrite Ems. cbn [bind]. rewrite DM, Nat2Z.id. fold N.
  set (En := Mat N N _). set (M := fun x => nth (slot_number x) ms _). set (e := spherical (along (minE f) (maxE f) t)). set (bb := spherical (along (minB f) (maxB f) t)).
  set (F := fun r c s s' => cadd (if Nat.eqb r c then (nth r en 0, 0) else (0, 0)) (in_fields dE' dB' dD' (along (minE f) (maxE f) t) (along (minB f) (maxB f) t) (diamagnetism f) s s')).
  assert (MD : forall x, nr (M x) = N /\ nc (M x) = N).
  { intros x. destruct (A x (@mzero CR N N)) as (X & EX & Y). unfold M. rewrite EX. destruct (@field_matrix_ok tol dE dB dD fl b IX DM x) as (X' & EX' & D1 & D2 & _). rewrite EX' in Y. injection Y as <-. auto. }
  destruct (@assemble_dim En M e bb N eq_refl eq_refl MD) as [AR AC].
  assert (F1 : e0_ fl = false -> s_0 e = (0, 0)) by (intros G; unfold e; rewrite <- lerp_spherical; apply flag_lerp; exact G).
  assert (F2 : e1_ fl = false -> s_p e = (0, 0) /\ s_m e = (0, 0)).
  { intros G. assert (P : s_p e = (0, 0)) by (unfold e; rewrite <- lerp_spherical; apply flag_lerp; exact G). split; [exact P|apply pm_zero; exact P]. }
  assert (F3 : b0_ fl = false -> s_0 bb = (0, 0)) by (intros G; unfold bb; rewrite <- lerp_spherical; apply flag_lerp; exact G).
  assert (F4 : b1_ fl = false -> s_p bb = (0, 0) /\ s_m bb = (0, 0)).
  { intros G. assert (P : s_p bb = (0, 0)) by (unfold bb; rewrite <- lerp_spherical; apply flag_lerp; exact G). split; [exact P|apply pm_zero; exact P]. }
  assert (LOW : forall r c s s', nth_error (names1 b) r = Some s -> nth_error (names1 b) c = Some s' -> (c <= r)%nat -> at_ (assemble En M e bb) r c = F r c s s').
  { intros r c s s' Sr Sc L. assert (Hr : (r < N)%nat) by (apply nth_error_Some; congruence). assert (Hc : (c < N)%nat) by (apply nth_error_Some; congruence).
    rewrite assemble_at. assert (MA : forall x, at_ (M x) r c = pick (has x (chain fl x s s')) (cut tol (which dE dB dD x s s'))).
    { intros x. destruct (A x (@mzero CR N N)) as (X & EX & Y). unfold M. rewrite EX. destruct (@field_matrix_ok tol dE dB dD fl b IX DM x) as (X' & EX' & _ & _ & V). rewrite EX' in Y. injection Y as <-.
      rewrite V by assumption. apply Nat.leb_le in L. rewrite L. rewrite (nth_error_nth _ _ (One 0 0 0 0 0) Sr), (nth_error_nth _ _ (One 0 0 0 0 0) Sc). reflexivity. }
    rewrite !MA. cbn [which chain]. apply nth_error_In in Sr, Sc. destruct (ZZ s s' Sr Sc) as (Z1 & Z2 & Z3). destruct (IS s s' Sr Sc) as [q Q]. assert (Mq : mm s = (mm s' + 2 * q)%Z) by lia.
    pose proof (@partE fl e F1 F2 s s' q Mq (cut tol (dE s s'))) as PE. pose proof (@partB fl bb F3 F4 s s' q Mq (cut tol (dB s s'))) as PB. pose proof (@partD fl bb F3 F4 s s' q Mq (cut tol (dD 0%nat s s')) (cut tol (dD 2%nat s s')) (JJ s Sr) (JJ s' Sc)) as PD.
    assert (NS : forall k, sel_multipole s s' k = false -> ~ allowed s s' k) by (intros k X Y; apply sel_allowed in Y; congruence).
    specialize (PE (fun X => eq_trans (f_equal (cut tol) (Z1 (NS _ X))) (cut_0 tol))).
    assert (NB : momentb s s' = false -> cut tol (dB s s') = 0) by (intros X; rewrite Z2; [apply cut_0|]; intros Y; apply momentb_spec in Y; congruence). specialize (PB NB).
    specialize (PD (fun X => eq_trans (f_equal (cut tol) (Z3 _ (NS _ X))) (cut_0 tol)) (fun X => eq_trans (f_equal (cut tol) (Z3 _ (NS _ X))) (cut_0 tol))).
    rewrite PE, PB, PD. unfold F, in_fields. replace ((mm s - mm s') / 2)%Z with q by (rewrite Q, Z.mul_comm, Z.div_mul; lia). fold e bb. change (dm_ fl) with (diamagnetism f). unfold dD', built_D. cbn [Nat.eqb andb].
    unfold En. cbn [at_]. reflexivity. }
  assert (SYM : forall r c s s', nth_error (names1 b) r = Some s -> nth_error (names1 b) c = Some s' -> cconj (F c r s' s) = F r c s s').
  { intros r c s s' Sr Sc. unfold F. apply nth_error_In in Sr, Sc. rewrite (@in_fields_conj b dE' dB' dD' _ _ (diamagnetism f) s s'); auto using cut_herm.
    - rewrite (Nat.eqb_sym c r). destruct (Nat.eqb_spec r c) as [Er|_]; [subst c|]; apply injective_projections; cbn; ring.
    - apply cut_herm; exact H1.
    - apply cut_herm; exact H2.
    - intros k. apply built_herm. apply H3. }
  assert (VAL : forall r c s s', nth_error (names1 b) r = Some s -> nth_error (names1 b) c = Some s' -> at_ (lowerView (assemble En M e bb)) r c = F r c s s').
  { intros r c s s' Sr Sc. cbn [lowerView at_]. destruct (Nat.leb_spec c r) as [L|L]; [apply LOW; assumption|]. rewrite (@LOW c r s' s Sc Sr) by lia. apply SYM; assumption. }
  exists (lowerView (assemble En M e bb)), dE', dB', dD'. split; [reflexivity|]. split.
  { split; [cbn [madj lowerView nr nc]; congruence|]. split; [cbn [madj lowerView nr nc]; congruence|]. cbn [madj nr nc]. intros r c Hr Hc. cbn [lowerView nr nc] in Hr, Hc. rewrite AR in Hc. rewrite AC in Hr.
    destruct (nth_error (names1 b) r) as [s|] eqn:Sr; [|apply nth_error_None in Sr; unfold N in Hr; lia]. destruct (nth_error (names1 b) c) as [s'|] eqn:Sc; [|apply nth_error_None in Sc; unfold N in Hc; lia].
    cbn [madj at_]. rewrite (VAL _ _ _ _ Sr Sc). rewrite <- (SYM _ _ _ _ Sr Sc), <- (VAL _ _ _ _ Sc Sr). reflexivity. }
  split; [exact AR|]. split; [exact AC|]. split; [exact VAL|]. split; [|split].
  - intros s s'. split; apply cut_spec.
  - intros k s s' Nk. unfold dD', built_D. destruct (Nat.eqb_spec k 2) as [K|K]; cbn [andb]; [|apply cut_spec]. destruct (ljm s s') eqn:L; [|apply cut_spec]. apply ljm_spec in L. destruct Nk. auto.
  - intros s s' L. unfold dD', built_D. apply ljm_spec in L. rewrite L. reflexivity.
Qed.

(** Without diamagnetism, or if all states have j < 1, nothing is left out. *)
Theorem C80_value_exact : forall tol dE dB dD isreal f b en step,
  atom_ok b dE dB dD ->
  (forall i s, nth_error (names1 b) i = Some s -> idx s = Z.of_nat i) -> dim1 b = Z.of_nat (length (names1 b)) ->
  integer_steps b -> (forall s, In s (names1 b) -> (0 <= jj s)%Z) ->
  (isreal = true -> vy (minE f) = 0 /\ vy (maxE f) = 0 /\ vy (minB f) = 0 /\ vy (maxB f) = 0) ->
  diamagnetism f = false \/ (forall s, In s (names1 b) -> (jj s < 2)%Z) ->
  let t := normalized_position (nsteps f) step in
  exists H dE' dB' dD', hamiltonian_at tol dE dB dD isreal f b en step = Ok H /\ hermitian H /\
    nr H = length (names1 b) /\ nc H = length (names1 b) /\
    (forall r c s s', nth_error (names1 b) r = Some s -> nth_error (names1 b) c = Some s' ->
       at_ H r c = cadd (if Nat.eqb r c then (nth r en 0, 0) else (0, 0))
                        (in_fields dE' dB' dD' (along (minE f) (maxE f) t) (along (minB f) (maxB f) t) (diamagnetism f) s s')) /\
    (forall s s', rounded tol (dE s s') (dE' s s') /\ rounded tol (dB s s') (dB' s s')) /\
    (forall k s s', rounded tol (dD k s s') (dD' k s s')).
Proof.
  intros tol dE dB dD isreal f b en step OK IX DM IS JJ YR C t.
  destruct (@C80_value_partial tol dE dB dD isreal f b en step OK IX DM IS JJ YR) as (H & dE' & dB' & dD' & E & HH & R1 & R2 & V & Re & Rd & Z). fold t in V.
  exists H, dE', dB', (fun k s s' => if Nat.eqb k 2 && ljm s s' then cut tol (dD k s s') else dD' k s s'). do 4 (split; [assumption|]). split; [|split; [exact Re|]].
  - intros r c s s' Sr Sc. rewrite (V r c s s' Sr Sc). f_equal. unfold in_fields. f_equal. f_equal. destruct C as [-> |C]; [reflexivity|]. destruct (diamagnetism f); [|reflexivity]. cbn [Nat.eqb andb]. f_equal. f_equal. f_equal.
    destruct (ljm s s') eqn:L; [|reflexivity]. assert (L' := L). apply ljm_spec in L'. rewrite (Z s s' L'). apply nth_error_In in Sr, Sc. destruct OK as (ZZ & _). destruct (ZZ s s' Sr Sc) as (_ & _ & Z3). rewrite Z3; [symmetry; apply cut_0|].
    intros (_ & _ & A & _). pose proof (C s Sr). pose proof (C s' Sc). lia.
  - intros k s s'. destruct (Nat.eqb_spec k 2) as [K|K]; cbn [andb]; [destruct (ljm s s') eqn:L|]; [apply cut_spec| |]; apply Rd; [|tauto]. intros [_ X]. apply ljm_spec in X. congruence.
Qed.

(** The first step has the minimal fields, the last one the maximal fields; a single step the minimal ones. *)
Theorem C80_steps : forall f v w,
  along v w (normalized_position (nsteps f) 0) = v /\
  ((1 < nsteps f)%nat -> along v w (normalized_position (nsteps f) (nsteps f - 1)) = w) /\
  (minB f = maxB f -> minE f = maxE f -> nsteps f = 1%nat) /\
  (minB f <> maxB f \/ minE f <> maxE f -> nsteps f = nsteps_conf f).
Proof.
  intros f v w. assert (V : forall x : vec, (vx x, vy x, vz x) = x) by (intros [[? ?] ?]; reflexivity). split; [|split; [|split]].
  - unfold normalized_position, along. transitivity (vx v, vy v, vz v); [|apply V]. destruct (Nat.ltb 1 (nsteps f)); cbn [INR]; f_equal; [f_equal| |f_equal|]; unfold Rdiv; ring.
  - intros L. unfold normalized_position. apply Nat.ltb_lt in L. rewrite L. apply Nat.ltb_lt in L. rewrite minus_INR by lia. change (INR 1) with 1.
    assert (D : INR (nsteps f) - 1 <> 0) by (apply lt_INR in L; change (INR 1) with 1 in L; lra).
    unfold along. transitivity (vx w, vy w, vz w); [|apply V]. f_equal; [f_equal|]; field; exact D.
  - intros E1 E2. unfold nsteps. rewrite E1, E2. unfold veqb. repeat match goal with |- context [Req_EM_T ?a ?a] => destruct (Req_EM_T a a) as [_|X]; [|destruct (X eq_refl)] end. reflexivity.
  - intros N. unfold nsteps. assert (Q : forall a c : vec, veqb a c = true -> a = c).
    { intros a c. unfold veqb. destruct (Req_EM_T (vx a) (vx c)) as [X|]; [|discriminate]. destruct (Req_EM_T (vy a) (vy c)) as [Y|]; [|discriminate]. destruct (Req_EM_T (vz a) (vz c)) as [Z|]; [|discriminate].
      intros _. rewrite <- (V a), <- (V c), X, Y, Z. reflexivity. }
    destruct (veqb (minB f) (maxB f)) eqn:B; [|reflexivity]. destruct (veqb (minE f) (maxE f)) eqn:E; [|reflexivity]. apply Q in B, E. destruct N; contradiction.
Qed.

(** Real numbers: a field with a y-component is refused. *)
Theorem C80_real : forall tol dE dB dD f b en step,
  vy (minE f) <> 0 \/ vy (maxE f) <> 0 \/ vy (minB f) <> 0 \/ vy (maxB f) <> 0 ->
  hamiltonian_at tol dE dB dD true f b en step = Throw.
Proof.
  intros tol dE dB dD f b en step H. unfold hamiltonian_at, spherical_fields, change_to_spherical.
  destruct (Req_EM_T (vy (minE f)) 0), (Req_EM_T (vy (maxE f)) 0), (Req_EM_T (vy (minB f)) 0), (Req_EM_T (vy (maxB f)) 0); cbn [bind]; try reflexivity. tauto.
Qed.

(** A p(3/2) state in a magnetic field with diamagnetism: the expectation value of r^2 C_20 (here 1) does not enter. *)
Definition p32 : one := One 0 60 1 3 1.
Definition pB : names_one := NamesOne 1 [p32] [p32].
Definition pf : fields := Fields (0, 0, 0) (0, 0, 0) (0, 0, 1) (0, 0, 1) 1 true.
Definition p0 (s t : one) : R := 0.
Definition pD (k : nat) (s t : one) : R := if sel_multipole s t k && (mm s =? mm t)%Z then 1 else 0.
Lemma allowed_sym' : forall s t k, allowed s t k -> allowed t s k.
Proof. intros s t k (A & [e B] & C & D & E). unfold allowed. repeat split; try lia. exists e. lia. Qed.
Example C80_hyp : atom_ok pB p0 p0 pD.
Proof.
  split; [|split; [|split]]; [|intros s t _ _ _; unfold p0; ring..|].
  - intros s t _ _. split; [|split]; [intros; reflexivity..|]. intros k H. unfold pD. destruct (sel_multipole s t k) eqn:S; [|reflexivity]. apply sel_allowed in S. contradiction.
  - intros k s t _ _ _. unfold pD. rewrite (Z.eqb_sym (mm t)). destruct (Z.eqb_spec (mm s) (mm t)) as [E|_]; [|rewrite !andb_false_r; destruct (Z.even _); ring].
    rewrite E, Z.sub_diag, !andb_true_r. cbn [Z.even Z.div Z.div_eucl]. destruct (sel_multipole s t k) eqn:A, (sel_multipole t s k) eqn:B; try (cbn; ring).
    + apply sel_allowed, allowed_sym', sel_allowed in A. congruence.
    + apply sel_allowed, allowed_sym', sel_allowed in B. congruence.
Qed.
Example C80_hyp2 : (forall i s, nth_error (names1 pB) i = Some s -> idx s = Z.of_nat i) /\ dim1 pB = Z.of_nat (length (names1 pB)) /\ integer_steps pB /\ (forall s, In s (names1 pB) -> (0 <= jj s)%Z).
Proof.
  split; [intros [|[|i]] s E; [injection E as <-; reflexivity|discriminate E..]|]. split; [reflexivity|]. split; [intros s t [<-|[]] [<-|[]]; exists 0%Z; reflexivity|]. intros s [<-|[]]; cbn; lia.
Qed.
Theorem C80_quadrupole_refuted : forall tol, 0 <= tol < 1 -> exists H,
  hamiltonian_at tol p0 p0 pD true pf pB [5] 0 = Ok H /\
  at_ H 0 0 = (5 + 1, 0) /\
  cadd (5, 0) (in_fields p0 p0 pD (0, 0, 0) (0, 0, 1) true p32 p32) = (5 + 1 - 1, 0).
Proof.
  intros tol T. destruct C80_hyp2 as (A & B & C & D).
  destruct (@C80_value_partial tol p0 p0 pD true pf pB [5] 0 C80_hyp A B C D) as (H & dE' & dB' & dD' & E & _ & _ & _ & V & Re & Rd & Z); [intros _; repeat split; reflexivity|].
  exists H. split; [exact E|]. specialize (V 0%nat 0%nat p32 p32 eq_refl eq_refl).
  assert (P0 : pD 0 p32 p32 = 1) by reflexivity. assert (P2 : pD 2 p32 p32 = 1) by reflexivity.
  assert (Zr : forall y, rounded tol 0 y -> y = 0) by (intros y [?|[? _]]; assumption).
  assert (R0 : dD' 0%nat p32 p32 = 1).
  { destruct (Rd 0%nat p32 p32) as [X|[_ X]]; [intros [? _]; discriminate|rewrite X; exact P0|]. rewrite P0, Rabs_R1 in X. lra. }
  split.
  - rewrite V. destruct (Re p32 p32) as [Ye Yb]. apply Zr in Ye, Yb. unfold in_fields. rewrite Ye, Yb, R0, (Z p32 p32) by (repeat split; reflexivity).
    replace (along (minB pf) (maxB pf) (normalized_position (nsteps pf) 0)) with (0, 0, 1) by (symmetry; apply (C80_steps pf (0, 0, 1) (0, 0, 1))).
    replace (along (minE pf) (maxE pf) (normalized_position (nsteps pf) 0)) with (0, 0, 0) by (symmetry; apply (C80_steps pf (0, 0, 0) (0, 0, 0))).
    change (diamagnetism pf) with true. cbn [Nat.eqb nth]. replace ((mm p32 - mm p32) / 2)%Z with 0%Z by reflexivity. unfold minus_dot, dia_rank0, dia_rank2, diaTerms, spherical, vx, vy, vz. cbn [Z.eqb fst snd s_0 s_m s_p t00 t20].
    apply injective_projections; cbn; unfold Rdiv; ring.
  - unfold in_fields. rewrite P0, P2. replace ((mm p32 - mm p32) / 2)%Z with 0%Z by reflexivity. unfold p0, minus_dot, dia_rank0, dia_rank2, diaTerms, spherical, vx, vy, vz. cbn [Z.eqb fst snd s_0 s_m s_p t00 t20].
    apply injective_projections; cbn; unfold Rdiv; ring.
Qed.

Print Assumptions C80_value_partial.
Print Assumptions C80_value_exact.
Print Assumptions C80_steps.
Print Assumptions C80_real.
Print Assumptions C80_quadrupole_refuted.
