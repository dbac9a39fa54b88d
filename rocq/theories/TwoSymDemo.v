(** Matrix elements of concrete states that do not vanish. *)
From Coq Require Import ZArith QArith Qreals Lia Bool Reals Lra String List.
Import ListNotations.
From Verif Require Import Base StateModel MEModel Racah MESpec MEProofs MEReal Matrix FieldModel GreenModel TwoModel TwoSpec TwoMatModel TwoSymSpec.
Set Implicit Arguments.
Local Open Scope R_scope.

Lemma norm3_pos : forall a b c x y z, (0 <= (a + b - c) / 2)%Z -> (0 <= (a - b + c) / 2)%Z -> (0 <= (b + c - a) / 2)%Z -> (0 <= (a + b + c) / 2 + 1)%Z -> 0 < Racah.norm3 a b c x y z.
Proof.
  assert (F : forall z, 0 < zfact z) by (intros z; unfold zfact; apply lt_0_INR, lt_O_fact).
  assert (G : forall z, (0 <= z)%Z -> 0 < invfact z) by (intros z H; unfold invfact; destruct (Z.ltb_spec z 0); [lia|]; apply Rinv_0_lt_compat, lt_0_INR, lt_O_fact).
  intros. unfold Racah.norm3. apply sqrt_lt_R0. repeat apply Rmult_lt_0_compat; auto.
Qed.
Lemma delta_pos : forall a b c, (0 <= (a + b + c) / 2 + 1)%Z -> 0 < Racah.delta a b c.
Proof.
  assert (F : forall z, 0 < zfact z) by (intros z; unfold zfact; apply lt_0_INR, lt_O_fact).
  assert (G : forall z, (0 <= z)%Z -> 0 < invfact z) by (intros z H; unfold invfact; destruct (Z.ltb_spec z 0); [lia|]; apply Rinv_0_lt_compat, lt_0_INR, lt_O_fact).
  intros. unfold Racah.delta. repeat apply Rmult_lt_0_compat; auto.
Qed.
(** The sums as rational numbers *)
Fixpoint zf (n : nat) : Z := match n with O => 1%Z | S p => (Z.of_nat n * zf p)%Z end.
Lemma zf_ok : forall n, zf n = Z.of_nat (fact n).
Proof. induction n as [|n IH]; [reflexivity|]. cbn [zf]. rewrite IH. change (fact (S n)) with (S n * fact n)%nat. rewrite Nat2Z.inj_mul. reflexivity. Qed.
Definition invfactQ (z : Z) : Q := if (z <? 0)%Z then 0%Q else (1 # Z.to_pos (zf (Z.to_nat z)))%Q.
Definition zfactQ (z : Z) : Q := inject_Z (zf (Z.to_nat z)).
Definition rsgnQ (z : Z) : Q := if Z.even z then 1%Q else (-1)%Q.
Fixpoint zsumQ (lo : Z) (len : nat) (f : Z -> Q) : Q := match len with O => 0%Q | S p => (f lo + zsumQ (lo + 1) p f)%Q end.
Lemma invfactQ_ok : forall z, Q2R (invfactQ z) = invfact z.
Proof.
  intros z. unfold invfactQ, invfact. destruct (z <? 0)%Z; [unfold Q2R; cbn; lra|]. unfold Q2R. cbn [Qnum Qden]. rewrite Rmult_1_l. f_equal. rewrite INR_IZR_INZ. f_equal. rewrite zf_ok. apply Z2Pos.id. pose proof (lt_O_fact (Z.to_nat z)). lia.
Qed.
Lemma zfactQ_ok : forall z, Q2R (zfactQ z) = zfact z.
Proof. intros z. unfold zfactQ, zfact, Q2R, inject_Z. cbn [Qnum Qden]. rewrite zf_ok, INR_IZR_INZ. field. Qed.
Lemma rsgnQ_ok : forall z, Q2R (rsgnQ z) = rsgn z.
Proof. intros z. unfold rsgnQ, rsgn, Q2R. destruct (Z.even z); cbn; lra. Qed.
Lemma zsumQ_ok : forall (f : Z -> Q) (g : Z -> R) len lo, (forall t, Q2R (f t) = g t) -> Q2R (zsumQ lo len f) = zsum lo len g.
Proof. intros f g len. induction len as [|p IH]; intros lo H; cbn [zsumQ zsum]; [unfold Q2R; cbn; lra|]. rewrite Q2R_plus, H, IH by exact H. reflexivity. Qed.
Definition term3Q (a b c x y t : Z) : Q :=
  (rsgnQ t * (invfactQ t * invfactQ ((a + b - c) / 2 - t) * invfactQ ((a - x) / 2 - t) * invfactQ ((b + y) / 2 - t) * invfactQ ((c - b + x) / 2 + t) * invfactQ ((c - a - y) / 2 + t)))%Q.
Definition term6Q (a b c d e f t : Z) : Q :=
  (rsgnQ t * zfactQ (t + 1) * (invfactQ (t - (a + b + c) / 2) * invfactQ (t - (a + e + f) / 2) * invfactQ (t - (d + b + f) / 2) * invfactQ (t - (d + e + c) / 2)) *
   (invfactQ ((a + b + d + e) / 2 - t) * invfactQ ((b + c + e + f) / 2 - t) * invfactQ ((c + a + f + d) / 2 - t)))%Q.
Lemma Qnz : forall q, negb (Qeq_bool q 0) = true -> Q2R q <> 0.
Proof. intros q H E. apply negb_true_iff in H. apply Qeq_bool_neq in H. apply H. apply eqR_Qeq. rewrite E. unfold Q2R. cbn. lra. Qed.
Lemma w3_nz : forall a b c x y z, Racah.triangle a b c && proj a x && proj b y && proj c z && (x + y + z =? 0)%Z = true ->
  negb (Qeq_bool (zsumQ (- (a + b + c)) (Z.to_nat (2 * (a + b + c) + 1)) (term3Q a b c x y)) 0) = true -> W3j a b c x y z <> 0.
Proof.
  intros a b c x y z T H. unfold W3j. rewrite T. apply Qnz in H. unfold span. rewrite <- (@zsumQ_ok (term3Q a b c x y)).
  - apply Rmult_integral_contrapositive_currified; [unfold rsgn; destruct (Z.even _); lra|]; apply Rmult_integral_contrapositive_currified; [|exact H]. apply Rgt_not_eq, norm3_pos; unfold Racah.triangle in T; rewrite !andb_true_iff, !Z.leb_le in T; apply Z.div_pos || (assert (0 <= (a + b + c) / 2)%Z; [apply Z.div_pos|]); lia.
  - intros t. unfold term3Q, racah_term. rewrite !Q2R_mult, !invfactQ_ok, rsgnQ_ok. reflexivity.
Qed.
Lemma w6_nz : forall a b c d e f, Racah.triangle a b c && Racah.triangle a e f && Racah.triangle d b f && Racah.triangle d e c = true ->
  negb (Qeq_bool (zsumQ 0 (Z.to_nat (a + b + c + d + e + f)) (term6Q a b c d e f)) 0) = true -> W6j a b c d e f <> 0.
Proof.
  intros a b c d e f T H. unfold W6j. rewrite T. apply Qnz in H. rewrite <- (@zsumQ_ok (term6Q a b c d e f)).
  - apply Rmult_integral_contrapositive_currified; [|exact H]. apply Rgt_not_eq, sqrt_lt_R0. unfold Racah.triangle in T. rewrite !andb_true_iff, !Z.leb_le in T.
    apply Rmult_lt_0_compat; [apply Rmult_lt_0_compat; [apply Rmult_lt_0_compat|]|]; apply delta_pos; match goal with |- (0 <= ?u / 2 + 1)%Z => assert (0 <= u / 2)%Z; [apply Z.div_pos|] end; lia.
  - intros t. unfold term6Q, racah6_term. rewrite !Q2R_mult, !invfactQ_ok, rsgnQ_ok, zfactQ_ok. reflexivity.
Qed.

Lemma w_a : W3j 1 2 1 (-1) 0 1 <> 0. Proof. exact W3j_121. Qed.
Lemma w_b : W3j 1 4 3 (-1) 0 1 <> 0. Proof. apply w3_nz; vm_compute; reflexivity. Qed.
Lemma w_c : W3j 0 2 2 0 0 0 <> 0. Proof. apply w3_nz; vm_compute; reflexivity. Qed.
Lemma w_d : W3j 0 4 4 0 0 0 <> 0. Proof. apply w3_nz; vm_compute; reflexivity. Qed.
Lemma w_e : W3j 1 2 1 (-1) 2 (-1) <> 0. Proof. apply w3_nz; vm_compute; reflexivity. Qed.
Lemma w_f : W3j 1 4 3 (-1) 2 (-1) <> 0. Proof. apply w3_nz; vm_compute; reflexivity. Qed.
Lemma w_g : W6j 0 1 1 1 2 2 <> 0. Proof. apply w6_nz; vm_compute; reflexivity. Qed.
Lemma w_h : W6j 0 1 1 3 4 4 <> 0. Proof. apply w6_nz; vm_compute; reflexivity. Qed.

(** Elements with radial part 1 *)
Definition unit_el (a c : state1) (k : nat) : R :=
  match MESpec.multipole radial1 1 EmptyString 0 a c (if Nat.eqb k 0 then 2 else Z.of_nat k) (Z.of_nat k) with Ok v => v | _ => 0 end.
Lemma unit_ok : forall a c k, physical a -> physical c -> same_atom a c ->
  MESpec.multipole radial1 1 EmptyString 0 a c (if Nat.eqb k 0 then 2 else Z.of_nat k) (Z.of_nat k) = Ok (unit_el a c k) /\
  unit_el a c k = wigner_eckart a c (Z.of_nat k) * reduced_orbital a c (Z.of_nat k) * reduced_Ck a c (Z.of_nat k).
Proof.
  intros a c k Pa Pc S. unfold unit_el.
  assert (E : MESpec.multipole radial1 1 EmptyString 0 a c (if Nat.eqb k 0 then 2 else Z.of_nat k) (Z.of_nat k) = Ok (1 * 1 * wigner_eckart a c (Z.of_nat k) * reduced_orbital a c (Z.of_nat k) * reduced_Ck a c (Z.of_nat k))).
  { apply (@multipole_ok radial1 1 EmptyString 0%Z a c (if Nat.eqb k 0 then 2 else Z.of_nat k)%Z (Z.of_nat k) Pa Pc S). unfold multipole_textbook. replace (radial_of radial1 EmptyString 0 a c (if Nat.eqb k 0 then 2 else Z.of_nat k)) with (Ok 1); [reflexivity|]. unfold radial_of, radial1. destruct (_ || _); reflexivity. }
  rewrite E. cbv beta iota. split; [reflexivity|]. set (w1 := wigner_eckart _ _ _). set (w2 := reduced_orbital _ _ _). set (w3 := reduced_Ck _ _ _). clearbody w1 w2 w3. ring.
Qed.
Lemma unit_calculated : forall ss, atom_states ss -> calculated radial1 1 EmptyString 0 ss unit_el.
Proof.
  intros ss (A & S) a c k Ia Ic Na Nc. apply unit_ok; [destruct (A a Ia); [congruence|assumption]|destruct (A c Ic); [congruence|assumption]|apply S; assumption].
Qed.
(** S1/2, P1/2, D3/2 *)
Definition sS (m : Z) := sRb 60 0 1 m.
Definition sP (m : Z) := sRb 60 1 1 m.
Definition sD (m : Z) := sRb 60 2 3 m.
Definition demo_states := [sS 1; sS (-1); sP 1; sP (-1); sD 1; sD (-1)].
Lemma demo_atoms : atom_states demo_states.
Proof.
  split.
  - intros a I. right. repeat destruct I as [<-|I]; try (unfold physical; cbn; repeat split; lia). destruct I.
  - intros a c Ia Ic _ _. repeat destruct Ia as [<-|Ia]; try (destruct Ia); repeat destruct Ic as [<-|Ic]; try (destruct Ic); split; reflexivity.
Qed.
Lemma phase_nz : forall z, MESpec.phase z <> 0. Proof. intros z. unfold MESpec.phase, rsgn. destruct (Z.even _); lra. Qed.
Lemma rsgn_nz : forall z, rsgn z <> 0. Proof. intros z. unfold rsgn. destruct (Z.even _); lra. Qed.
Lemma nz : forall a c k, physical a -> physical c -> same_atom a c ->
  W3j (j2 a) (2 * Z.of_nat k) (j2 c) (- m2 a) (m2 a - m2 c) (m2 c) <> 0 -> W6j (2 * l a) (j2 a) (s2 a) (j2 c) (2 * l c) (2 * Z.of_nat k) <> 0 -> W3j (2 * l a) (2 * Z.of_nat k) (2 * l c) 0 0 0 <> 0 ->
  unit_el a c k <> 0.
Proof.
  intros a c k Pa Pc S H1 H2 H3. rewrite (proj2 (unit_ok k Pa Pc S)). unfold wigner_eckart, reduced_orbital, reduced_Ck.
  destruct Pa as (_ & La & Sa & _ & _ & Ma & _), Pc as (_ & Lc & _ & _ & _ & Mc & _).
  assert (Q : forall x y, (0 <= x)%Z -> (0 <= y)%Z -> sqrt (IZR ((x + 1) * (y + 1))) <> 0) by (intros x y X Y; apply Rgt_not_eq, sqrt_lt_R0, IZR_lt; nia).
  repeat apply Rmult_integral_contrapositive_currified; auto using phase_nz, rsgn_nz; apply Q || (replace (2 * l a + 1)%Z with ((2 * l a) + 1)%Z by lia; apply Q); lia.
Qed.
Lemma SP0 : unit_el (sS 1) (sP 1) 1 <> 0. Proof. apply nz; [unfold physical; cbn; repeat split; lia|unfold physical; cbn; repeat split; lia|split; reflexivity|exact w_a|exact w_g|exact w_c]. Qed.
Lemma SD0 : unit_el (sS 1) (sD 1) 2 <> 0. Proof. apply nz; [unfold physical; cbn; repeat split; lia|unfold physical; cbn; repeat split; lia|split; reflexivity|exact w_b|exact w_h|exact w_d]. Qed.
Lemma SP1 : unit_el (sS 1) (sP (-1)) 1 <> 0. Proof. apply nz; [unfold physical; cbn; repeat split; lia|unfold physical; cbn; repeat split; lia|split; reflexivity|exact w_e|exact w_g|exact w_c]. Qed.
Lemma SD1 : unit_el (sS 1) (sD (-1)) 2 <> 0. Proof. apply nz; [unfold physical; cbn; repeat split; lia|unfold physical; cbn; repeat split; lia|split; reflexivity|exact w_f|exact w_h|exact w_d]. Qed.
