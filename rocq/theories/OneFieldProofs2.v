(** Proofs for PropOneField.v: the matrices. *)
From Coq Require Import ZArith Lia Bool List Reals Lra.
Import ListNotations.
From Verif Require Import Base Matrix FieldModel FieldSpec BasisnamesModel BasisProofs CombineModel InteractModel InteractSpec InteractProofs InteractProofs2 InteractProofs3 OneFieldModel OneFieldSpec OneFieldProofs.
Set Implicit Arguments.
Local Open Scope R_scope.

Section M.
Variable tol : R.
Variable dE dB : one -> one -> R.
Variable dD : nat -> one -> one -> R.
Variable fl : flags.
Variable b : names_one.
Let N := length (names1 b).
Hypothesis IX : forall i s, nth_error (names1 b) i = Some s -> idx s = Z.of_nat i.
Hypothesis DM : dim1 b = Z.of_nat N.
Let dft : one := One 0 0 0 0 0.
Let nm (i : nat) : one := nth i (names1 b) dft.
Definition which (x : slot) (s t : one) : R :=
  match x with E0 | Ep | Em => dE s t | B0 | Bp | Bm => dB s t | D00 => dD 0 s t | _ => dD 2 s t end.
Definition chain (x : slot) (s t : one) : option slot :=
  match x with E0 | Ep | Em => chainE fl s t | B0 | Bp | Bm => chainB fl s t | _ => chainD fl s t end.
Lemma nm_idx : forall i, (i < N)%nat -> idx (nm i) = Z.of_nat i.
Proof. intros i H. apply IX. unfold nm. apply nth_error_nth'. exact H. Qed.
Lemma entry_at : forall x i k, (i < N)%nat -> (k < N)%nat ->
  field_entry tol dE dB dD fl x (nm i) (nm k) = if Nat.leb k i && (has x (chain x (nm i) (nm k)) && above tol (which x (nm i) (nm k))) then [(i, k, ofR (which x (nm i) (nm k)))] else [].
Proof.
  intros x i k Hi Hk. unfold field_entry. rewrite !nm_idx by assumption. rewrite !Nat2Z.id.
  assert (LE : (Z.of_nat i <? Z.of_nat k)%Z = negb (Nat.leb k i)) by (destruct (Nat.leb_spec k i); [apply Z.ltb_ge; lia|apply Z.ltb_lt; lia]). rewrite LE.
  destruct (Nat.leb k i); cbn [negb andb]; [|reflexivity].
  destruct x; cbn [which chain]; (match goal with |- context [has ?x ?c] => destruct (has x c) end); cbn [andb]; reflexivity.
Qed.
Lemma triplets_as : forall x, field_triplets tol dE dB dD fl x (names1 b) =
  flat_map (fun k => flat_map (fun i => if Nat.leb k i && (has x (chain x (nm i) (nm k)) && above tol (which x (nm i) (nm k))) then [(i, k, ofR (which x (nm i) (nm k)))] else []) (seq 0 N)) (seq 0 N).
Proof.
  intros x. unfold field_triplets. transitivity (flat_map (fun col => flat_map (fun row => field_entry tol dE dB dD fl x row col) (map nm (seq 0 N))) (map nm (seq 0 N))); [replace (map nm (seq 0 N)) with (names1 b) by apply list_as_map; reflexivity|]. rewrite flat_map_map. rewrite !flat_map_concat_map. f_equal. apply map_ext_in. intros k Ik. apply in_seq in Ik.
  rewrite flat_map_map. rewrite !flat_map_concat_map. f_equal. apply map_ext_in. intros i Ii. apply in_seq in Ii. apply entry_at; lia.
Qed.
Lemma field_matrix_ok : forall x, exists A, field_matrix tol dE dB dD fl x b = Ok A /\ nr A = N /\ nc A = N /\
  forall r c, (r < N)%nat -> (c < N)%nat -> at_ A r c = if Nat.leb c r then pick (has x (chain x (nm r) (nm c))) (cut tol (which x (nm r) (nm c))) else ofR 0.
Proof.
  intros x. unfold field_matrix. rewrite triplets_as, DM, Nat2Z.id.
  match goal with |- context [inside N ?l] => assert (I : inside N l = true); [|rewrite I] end.
  { apply forallb_forall. intros t I. apply in_flat_map in I. destruct I as (k & Ik & I). apply in_flat_map in I. destruct I as (i & Ii & I). apply in_seq in Ik, Ii.
    match type of I with In _ (if ?c then _ else _) => destruct c; [|destruct I] end. destruct I as [<-|[]]. cbn [fst snd]. apply andb_true_iff. split; apply Nat.ltb_lt; lia. }
  eexists. split; [reflexivity|]. split; [reflexivity|]. split; [reflexivity|]. intros r c Hr Hc. cbn [mtrip at_]. rewrite tsum_seq.
  set (w := fun i k => if Nat.leb k i then pick (has x (chain x (nm i) (nm k))) (cut tol (which x (nm i) (nm k))) else ofR 0).
  transitivity (bsum N (fun k => bsum N (fun i => smul (smul (delta i r) (delta k c)) (w i k)))); [|rewrite bsum_sel by assumption; reflexivity].
  apply bsum_ext. intros k Hk. rewrite Nat.add_0_l, tsum_seq. apply bsum_ext. intros i Hi. rewrite Nat.add_0_l. unfold w, delta, cut.
  destruct (Nat.leb k i); cbn [andb].
  - destruct (has x (chain x (nm i) (nm k))); cbn [andb pick].
    + destruct (above tol (which x (nm i) (nm k))); cbn [tsum]; destruct (Nat.eqb i r), (Nat.eqb k c); cbn [andb]; apply injective_projections; cbn; ring.
    + cbn [tsum]; destruct (Nat.eqb i r), (Nat.eqb k c); apply injective_projections; cbn; ring.
  - cbn [tsum]; destruct (Nat.eqb i r), (Nat.eqb k c); apply injective_projections; cbn; ring.
Qed.
Lemma all_ok : exists ms, all_matrices tol dE dB dD fl b slots = Ok ms /\ forall x d, exists A, nth (slot_number x) ms d = A /\ field_matrix tol dE dB dD fl x b = Ok A.
Proof.
  unfold slots. cbn [all_matrices].
  destruct (field_matrix_ok E0) as (A0 & X0 & _). destruct (field_matrix_ok Ep) as (A1 & X1 & _). destruct (field_matrix_ok Em) as (A2 & X2 & _).
  destruct (field_matrix_ok B0) as (A3 & X3 & _). destruct (field_matrix_ok Bp) as (A4 & X4 & _). destruct (field_matrix_ok Bm) as (A5 & X5 & _).
  destruct (field_matrix_ok D00) as (A6 & X6 & _). destruct (field_matrix_ok D20) as (A7 & X7 & _). destruct (field_matrix_ok D2p) as (A8 & X8 & _).
  destruct (field_matrix_ok D2m) as (A9 & X9 & _). destruct (field_matrix_ok D2pp) as (A10 & X10 & _). destruct (field_matrix_ok D2mm) as (A11 & X11 & _).
  rewrite X0, X1, X2, X3, X4, X5, X6, X7, X8, X9, X10, X11. cbn [bind]. eexists. split; [reflexivity|]. intros x d. destruct x; eexists; (split; [reflexivity|assumption]).
Qed.
End M.

Lemma assemble_at : forall (En : mat CR) M e b r c,
  at_ (assemble En M e b) r c =
  cadd (at_ En r c)
 (cadd (cadd (copp (cmul (s_0 e) (at_ (M E0) r c))) (cadd (cmul (s_m e) (at_ (M Ep) r c)) (cmul (s_p e) (at_ (M Em) r c))))
 (cadd (cadd (cmul (s_0 b) (at_ (M B0) r c)) (cadd (copp (cmul (s_m b) (at_ (M Bp) r c))) (copp (cmul (s_p b) (at_ (M Bm) r c)))))
 (cadd (cmul (csub (cmul (s_0 b) (s_0 b)) (cmul (cmul (2, 0) (s_p b)) (s_m b))) (at_ (M D00) r c))
 (cadd (copp (cmul (cadd (cmul (s_0 b) (s_0 b)) (cmul (s_p b) (s_m b))) (at_ (M D20) r c)))
 (cadd (cmul (s_m b) (cmul (s_0 b) (cmul (ofR (sqrt 3)) (at_ (M D2p) r c))))
 (cadd (cmul (s_p b) (cmul (s_0 b) (cmul (ofR (sqrt 3)) (at_ (M D2m) r c))))
 (cadd (copp (cmul (s_m b) (cmul (s_m b) (cmul (ofR (sqrt (3 / 2))) (at_ (M D2pp) r c)))))
       (copp (cmul (s_p b) (cmul (s_p b) (cmul (ofR (sqrt (3 / 2))) (at_ (M D2mm) r c)))))))))))).
Proof.
  intros En M e b r c. unfold assemble, minus. cbn [madd mscale at_]. apply injective_projections; cbn; ring.
Qed.
Lemma assemble_dim : forall (En : mat CR) M e b d, nr En = d -> nc En = d -> (forall x, nr (M x) = d /\ nc (M x) = d) -> nr (assemble En M e b) = d /\ nc (assemble En M e b) = d.
Proof.
  intros En M e b d R C D. unfold assemble, minus. cbn [madd mscale nr nc]. rewrite R, C.
  repeat match goal with |- context [nr (M ?x)] => rewrite (proj1 (D x)) | |- context [nc (M ?x)] => rewrite (proj2 (D x)) end. rewrite !Nat.min_id. auto.
Qed.

(** Hermiticity of the formula *)
Lemma minus_dot_neg : forall v q, minus_dot (spherical v) (- q) = (if Z.even q then cconj (minus_dot (spherical v) q) else copp (cconj (minus_dot (spherical v) q))).
Proof.
  intros v q. unfold minus_dot. destruct (Z.eqb_spec q 0) as [E|]; [subst q; apply injective_projections; cbn; ring|]. destruct (Z.eqb_spec q 1) as [E|]; [subst q; apply injective_projections; cbn; unfold Rdiv; ring|].
  destruct (Z.eqb_spec q (-1)) as [E|]; [subst q; apply injective_projections; cbn; unfold Rdiv; ring|].
  destruct (Z.eqb_spec (-q) 0), (Z.eqb_spec (-q) 1), (Z.eqb_spec (-q) (-1)); try lia. destruct (Z.even q); apply injective_projections; cbn; ring.
Qed.
Lemma dia0_neg : forall v q, dia_rank0 (spherical v) (- q) = (if Z.even q then cconj (dia_rank0 (spherical v) q) else copp (cconj (dia_rank0 (spherical v) q))).
Proof.
  intros v q. unfold dia_rank0. destruct (Z.eqb_spec q 0) as [E|]; [subst q; apply injective_projections; cbn; unfold Rdiv; ring|].
  destruct (Z.eqb_spec (-q) 0); try lia. destruct (Z.even q); apply injective_projections; cbn; ring.
Qed.
Lemma dia2_neg : forall v q, dia_rank2 (spherical v) (- q) = (if Z.even q then cconj (dia_rank2 (spherical v) q) else copp (cconj (dia_rank2 (spherical v) q))).
Proof.
  intros v q. unfold dia_rank2. destruct (Z.eqb_spec q 0) as [E|]; [subst q; apply injective_projections; cbn; unfold Rdiv; ring|].
  destruct (Z.eqb_spec q 1) as [E|]; [subst q; apply injective_projections; cbn; unfold Rdiv; ring|]. destruct (Z.eqb_spec q (-1)) as [E|]; [subst q; apply injective_projections; cbn; unfold Rdiv; ring|].
  destruct (Z.eqb_spec q 2) as [E|]; [subst q; apply injective_projections; cbn; unfold Rdiv; ring|]. destruct (Z.eqb_spec q (-2)) as [E|]; [subst q; apply injective_projections; cbn; unfold Rdiv; ring|].
  destruct (Z.eqb_spec (-q) 0), (Z.eqb_spec (-q) 1), (Z.eqb_spec (-q) (-1)), (Z.eqb_spec (-q) 2), (Z.eqb_spec (-q) (-2)); try lia. destruct (Z.even q); apply injective_projections; cbn; ring.
Qed.
Lemma in_fields_conj : forall b dE dB dD E B dia s t, hermitian_elements b dE -> hermitian_elements b dB -> (forall k, hermitian_elements b (dD k)) -> In s (names1 b) -> In t (names1 b) -> Z.Even (mm s - mm t) ->
  in_fields dE dB dD E B dia t s = cconj (in_fields dE dB dD E B dia s t).
Proof.
  intros b dE dB dD E B dia s t H1 H2 H3 Is It [q Q]. unfold in_fields. assert (V : Z.Even (mm s - mm t)) by (exists q; exact Q).
  rewrite (H1 s t Is It V), (H2 s t Is It V), (H3 0%nat s t Is It V), (H3 2%nat s t Is It V). replace ((mm s - mm t) / 2)%Z with q by (rewrite Q, Z.mul_comm, Z.div_mul; lia).
  replace ((mm t - mm s) / 2)%Z with (- q)%Z by (replace (mm t - mm s)%Z with (- q * 2)%Z by lia; rewrite Z.div_mul; lia).
  rewrite minus_dot_neg, minus_dot_neg, dia0_neg, dia2_neg. destruct dia, (Z.even q); apply injective_projections; cbn; ring.
Qed.
