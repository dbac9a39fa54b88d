(** Proofs for PropSymmetry.v: the interaction matrix. *)
From Coq Require Import ZArith Lia Bool List Reals Lra.
Import ListNotations.
From Verif Require Import Base Matrix FieldModel BasisnamesModel BasisProofs CombineModel CombineSpec OverlapProofs PropNames CombineProofs CombineProofs2 CombineProofs3 CombineProofs4 CombineProofs5 PropCombine InteractModel InteractSpec InteractProofs InteractProofs2 InteractProofs3 SymmetrySpec SymmetryProofs.
Set Implicit Arguments.
Local Open Scope R_scope.

Add Ring CRr : (s_ring CR).
Lemma zK_CR : forall z, zK CR z = ofR (zR z).
Proof. intros z. unfold zK, zR. destruct (z =? 1)%Z; apply injective_projections; cbn; ring. Qed.
Lemma zR_pm : forall z, zR z = 1 \/ zR z = -1. Proof. intros z. unfold zR. destruct (z =? 1)%Z; auto. Qed.
Lemma cut_pm : forall tol e x, e = 1 \/ e = -1 -> cut tol (e * x) = e * cut tol x.
Proof.
  intros tol e x E. unfold cut, above. replace (Rabs (e * x)) with (Rabs x).
  - destruct (Rlt_dec tol (Rabs x)); ring.
  - rewrite Rabs_mult. destruct E as [->| ->]; [rewrite Rabs_R1|rewrite (Rabs_left (-1)) by lra]; ring.
Qed.
Lemma CR_dec : forall x : CR, x = @Matrix.s0 CR \/ x <> @Matrix.s0 CR.
Proof.
  intros [a c]. destruct (Req_dec a 0) as [->|A]; [destruct (Req_dec c 0) as [->|A]|]; [left; reflexivity|right; intros E; injection E as E; contradiction..].
Qed.
Lemma ofR_mul : forall x y, ofR (x * y) = smul (s := CR) (ofR x) (ofR y). Proof. intros. apply injective_projections; cbn; ring. Qed.
Lemma bsum_opp : forall n (f : nat -> CR), bsum n (fun r => sopp (f r)) = sopp (bsum n f).
Proof. induction n as [|n IH]; intros f; cbn [bsum]; [apply injective_projections; cbn; ring|]. rewrite IH. apply injective_projections; cbn; ring. Qed.
Lemma double_zero : forall x : CR, x = sopp x -> x = @Matrix.s0 CR.
Proof. intros [a c] H. injection H as H1 H2. apply injective_projections; cbn; lra. Qed.

Section M.
Variables kC tol : R.
Variables el1 el2 : one -> one -> nat -> R.
Variables b1 b2 : names_one.
Hypothesis E1 : elements_ok b1 el1.
Hypothesis E2 : elements_ok b2 el2.
Variable start : one * one.
Hypothesis SM : small b1 b2.
Hypothesis I1 : integer_steps b1.
Hypothesis I2 : integer_steps b2.
Variable nec : list bool.
Let N := (length (names1 b1) * length (names1 b2))%nat.
Hypothesis LN : length nec = N.
Variables (order : Z) (Vs : list (nat * full)) (p : nat) (V : full).
Hypothesis EV : interaction kC tol el1 el2 order nec (build2 start b1 b2) = Ok Vs.
Hypothesis IV : In (p, V) Vs.
Let X (r c : nat) : R := between_states (multipole kC el1 el2 p) b1 b2 r c.

Lemma V_entry : forall r c, (r < N)%nat -> (c < N)%nat -> at_ (fent V) r c = ofR (if nth r nec false && nth c nec false then cut tol (X r c) else 0).
Proof.
  intros r c Hr Hc. rewrite interaction_ok in EV by assumption. injection EV as <-. apply in_map_iff in IV. destruct IV as (n & E & _). injection E as <- <-. unfold X. rewrite fent_at by assumption. reflexivity.
Qed.
Lemma element_within : forall u w, within nec u -> within nec w ->
  element N (fent V) u w = bsum N (fun r => bsum N (fun c => smul (s := CR) (sconj (u r)) (smul (s := CR) (ofR (cut tol (X r c))) (w c)))).
Proof.
  intros u w Wu Ww. unfold element. apply bsum_ext. intros r Hr. apply bsum_ext. intros c Hc. rewrite V_entry by assumption.
  destruct (CR_dec (u r)) as [Zu|Nu]; [rewrite Zu; apply injective_projections; cbn; ring|]. destruct (CR_dec (w c)) as [Zw|Nw]; [rewrite Zw; apply injective_projections; cbn; ring|].
  rewrite (Wu r), (Ww c) by (rewrite ?LN; auto). reflexivity.
Qed.
(** an operation that permutes the coordinates and changes signs *)
Lemma element_T : forall (e : nat -> Z) (pi : nat -> nat) (T : (nat -> CR) -> nat -> CR),
  (forall r, r < N -> pi r < N)%nat -> (forall r, r < N -> pi (pi r) = r)%nat ->
  (forall r c, (r < N)%nat -> (c < N)%nat -> X (pi r) (pi c) = zR (e r) * zR (e c) * X r c) ->
  (forall u r, (r < N)%nat -> T u r = smul (s := CR) (zK CR (e r)) (u (pi r))) ->
  forall u w, within nec u -> within nec w -> within nec (T u) -> within nec (T w) -> element N (fent V) (T u) (T w) = element N (fent V) u w.
Proof.
  intros e pi T B I XS TT u w Wu Ww Wtu Wtw. rewrite !element_within by assumption.
  rewrite <- (@bsum_invol CR b1 b2 N pi (fun r => bsum N (fun c => smul (s := CR) (sconj (u r)) (smul (s := CR) (ofR (cut tol (X r c))) (w c)))) B I).
  apply bsum_ext. intros r Hr. rewrite <- (@bsum_invol CR b1 b2 N pi (fun c => smul (s := CR) (sconj (u (pi r))) (smul (s := CR) (ofR (cut tol (X (pi r) c))) (w c))) B I).
  apply bsum_ext. intros c Hc. rewrite (TT u r Hr), (TT w c Hc), (XS r c Hr Hc), s_conj_mul, zK_conj, !zK_CR.
  rewrite Rmult_assoc, (cut_pm tol _ (zR_pm (e r))), (cut_pm tol _ (zR_pm (e c))), !ofR_mul. ring.
Qed.
(** vectors with different eigenvalues *)
Lemma different : forall (e : nat -> Z) (pi : nat -> nat) (T : (nat -> CR) -> nat -> CR),
  (forall r, r < N -> pi r < N)%nat -> (forall r, r < N -> pi (pi r) = r)%nat ->
  (forall r c, (r < N)%nat -> (c < N)%nat -> X (pi r) (pi c) = zR (e r) * zR (e c) * X r c) ->
  (forall u r, (r < N)%nat -> T u r = smul (s := CR) (zK CR (e r)) (u (pi r))) ->
  forall u w z, within nec u -> within nec w -> (forall r, (r < N)%nat -> T u r = u r) -> (forall r, (r < N)%nat -> T w r = sopp (w r)) -> z = element N (fent V) u w \/ z = element N (fent V) w u -> z = @Matrix.s0 CR.
Proof.
  intros e pi T B I XS TT u w z Wu Ww Tu Tw Ez.
  assert (Wtu : within nec (T u)) by (intros r Hr; rewrite LN in Hr; rewrite Tu by exact Hr; apply Wu; rewrite LN; exact Hr).
  assert (Wtw : within nec (T w)).
  { intros r Hr Nz. assert (Hr' := Hr). rewrite LN in Hr'. apply (Ww r Hr). intros E. apply Nz. rewrite Tw, E by exact Hr'. apply injective_projections; cbn; ring. }
  destruct Ez as [-> | ->]; apply double_zero.
  - rewrite <- (element_T e pi T B I XS TT Wu Ww Wtu Wtw) at 1. unfold element. rewrite <- bsum_opp. apply bsum_ext. intros r Hr. rewrite <- bsum_opp. apply bsum_ext. intros c Hc. rewrite Tu, Tw by assumption. apply injective_projections; cbn; ring.
  - rewrite <- (element_T e pi T B I XS TT Ww Wu Wtw Wtu) at 1. unfold element. rewrite <- bsum_opp. apply bsum_ext. intros r Hr. rewrite <- bsum_opp. apply bsum_ext. intros c Hc. rewrite Tu, Tw by assumption. apply injective_projections; cbn; ring.
Qed.
End M.

(** the states of a pair coordinate *)
Lemma parts : forall b1 b2 r, (r < length (names1 b1) * length (names1 b2))%nat -> exists s t, nth_error (names1 b1) (r / length (names1 b2)) = Some s /\ nth_error (names1 b2) (r mod length (names1 b2)) = Some t.
Proof.
  intros b1 b2 r H. assert (L : (0 < length (names1 b2))%nat) by lia.
  destruct (nth_error (names1 b1) (r / length (names1 b2))) as [s|] eqn:E; [|apply nth_error_None in E; assert (r / length (names1 b2) < length (names1 b1))%nat by (apply Nat.div_lt_upper_bound; lia); lia].
  destruct (nth_error (names1 b2) (r mod length (names1 b2))) as [t|] eqn:E'; [|apply nth_error_None in E'; pose proof (Nat.mod_upper_bound r (length (names1 b2))); lia]. exists s, t. auto.
Qed.
Lemma between_parts : forall f b1 b2 r c s t s' t', nth_error (names1 b1) (r / length (names1 b2)) = Some s -> nth_error (names1 b2) (r mod length (names1 b2)) = Some t ->
  nth_error (names1 b1) (c / length (names1 b2)) = Some s' -> nth_error (names1 b2) (c mod length (names1 b2)) = Some t' -> between_states f b1 b2 r c = f s t s' t'.
Proof. intros f b1 b2 r c s t s' t' A B C D. unfold between_states. rewrite A, B, C, D. reflexivity. Qed.

Section Same.
Variables (kC : R) (el : one -> one -> nat -> R) (b : names_one).
Hypothesis E : elements_ok b el.
Hypothesis I : integer_steps b.
Let n := length (names1 b).
Let X p (r c : nat) : R := between_states (multipole kC el el p) b b r c.
Lemma swapc_lt : forall r, (r < n * n)%nat -> (swapc n r < n * n)%nat.
Proof. intros r H. unfold swapc. assert (0 < n)%nat by nia. pose proof (Nat.mod_upper_bound r n). assert (r / n < n)%nat by (apply Nat.div_lt_upper_bound; lia). nia. Qed.
Lemma exchange_X : forall p r c, (r < n * n)%nat -> (c < n * n)%nat -> X p (swapc n r) (swapc n c) = (-1) ^ (p - 1) * X p r c.
Proof.
  intros p r c Hr Hc. destruct (parts b b Hr) as (s & t & A & B). destruct (parts b b Hc) as (s' & t' & C & D).
  destruct (swapc_parts _ Hr) as [P Q]. destruct (swapc_parts _ Hc) as [P' Q']. unfold X. rewrite (@between_parts _ b b r c s t s' t') by assumption.
  rewrite (@between_parts _ b b (swapc n r) (swapc n c) t s t' s'); [|fold n; rewrite ?P, ?Q, ?P', ?Q'; assumption..].
  apply multipole_exchange. apply I; eapply nth_error_In; eauto.
Qed.
Lemma inversion_X : forall p r c, (r < n * n)%nat -> (c < n * n)%nat ->
  X p (swapc n r) (swapc n c) = zR (parity b (r / n) * parity b (r mod n)) * zR (parity b (c / n) * parity b (c mod n)) * X p r c.
Proof.
  intros p r c Hr Hc. rewrite exchange_X by assumption. destruct (parts b b Hr) as (s & t & A & B). destruct (parts b b Hc) as (s' & t' & C & D). fold n in A, B, C, D.
  unfold parity. rewrite A, B, C, D. rewrite !pm_mul, !zR_sg by apply sg_pm. unfold X. rewrite (@between_parts _ b b r c s t s' t') by assumption.
  rewrite <- (@multipole_parity kC el el _ _ E E p s t s' t') by (eapply nth_error_In; eauto). rewrite !eps_add. ring.
Qed.
End Same.

Section Reflect.
Variables (kC : R) (el1 el2 : one -> one -> nat -> R) (b1 b2 : names_one).
Hypothesis E1 : elements_ok b1 el1.
Hypothesis E2 : elements_ok b2 el2.
Hypothesis M1 : mirrored b1 el1.
Hypothesis M2 : mirrored b2 el2.
Hypothesis I1 : integer_steps b1.
Hypothesis C1 : closed b1.
Hypothesis C2 : closed b2.
Hypothesis H1 : half b1.
Hypothesis H2 : half b2.
Let n2 := length (names1 b2).
Let N := (length (names1 b1) * n2)%nat.
Let X p (r c : nat) : R := between_states (multipole kC el1 el2 p) b1 b2 r c.
Lemma odd_half : forall z, Z.odd z = true -> exists a, z = (2 * a + 1)%Z. Proof. intros z H. apply Z.odd_spec in H. exact H. Qed.
Lemma reflection_X : forall p r c, (r < N)%nat -> (c < N)%nat ->
  X p (mirror2 b1 b2 r) (mirror2 b1 b2 c) = zR (refl_sign b1 b2 (r / n2) (r mod n2)) * zR (refl_sign b1 b2 (c / n2) (c mod n2)) * X p r c.
Proof.
  intros p r c Hr Hc. destruct (parts b1 b2 Hr) as (s & t & A & B). destruct (parts b1 b2 Hc) as (s' & t' & C & D). fold n2 in A, B, C, D.
  destruct (@mirror2_parts b1 b2 C1 C2 r Hr) as (_ & Pr & Qr). destruct (@mirror2_parts b1 b2 C1 C2 c Hc) as (_ & Pc & Qc).
  destruct (mirror_spec _ C1 A) as (s_ & As & Os). destruct (mirror_spec _ C2 B) as (t_ & Bt & Ot). destruct (mirror_spec _ C1 C) as (s'_ & Cs & Os'). destruct (mirror_spec _ C2 D) as (t'_ & Dt & Ot').
  unfold X. rewrite (@between_parts _ b1 b2 r c s t s' t') by assumption. rewrite (@between_parts _ b1 b2 (mirror2 b1 b2 r) (mirror2 b1 b2 c) s_ t_ s'_ t'_); [|fold n2; fold n2 in Pr, Qr, Pc, Qc; rewrite ?Pr, ?Qr, ?Pc, ?Qc; assumption..].
  unfold refl_sign. rewrite A, B, C, D. apply nth_error_In in A, B, C, D, As, Bt, Cs, Dt.
  rewrite (@multipole_mirror kC b1 b2 el1 el2 p s t s' t' s_ t_ s'_ t'_) by auto.
  assert (PM : forall a d e, zR (sg a * sg d * sg e) = eps a * eps d * eps e).
  { intros a d e. rewrite pm_mul; [rewrite pm_mul by apply sg_pm; rewrite !zR_sg; reflexivity| |apply sg_pm]. destruct (sg_pm a) as [-> | ->], (sg_pm d) as [-> | ->]; auto. }
  rewrite !PM. rewrite Rmult_assoc, <- (@multipole_parity kC el1 el2 _ _ E1 E2 p s t s' t') by assumption.
  destruct (Z.eq_dec (mm s + mm t) (mm s' + mm t')) as [M|M].
  - rewrite M. pose proof (eps_sq ((mm s' + mm t') / 2)) as Q. set (x := eps ((mm s' + mm t') / 2)) in *. rewrite (eps_add (l_ s + l_ t)).
    set (y := eps (l_ s + l_ t)). set (z := eps (l_ s' + l_ t')). set (v := multipole _ _ _ _ _ _ _ _).
    transitivity ((x * x) * (y * z) * (eps ((jj s + jj t) / 2) * eps ((jj s' + jj t') / 2)) * v); [|ring]. rewrite Q.
    rewrite <- !eps_add. replace ((jj s + jj t) / 2 + (jj s' + jj t') / 2)%Z with ((jj s + jj s') / 2 + (jj t + jj t') / 2)%Z; [rewrite !eps_add; ring|].
    destruct (odd_half _ (proj1 (H1 s A))) as [a Ea], (odd_half _ (proj1 (H1 s' C))) as [a' Ea'], (odd_half _ (proj1 (H2 t B))) as [d Ed], (odd_half _ (proj1 (H2 t' D))) as [d' Ed']; rewrite Ea, Ea', Ed, Ed'.
    replace (2 * a + 1 + (2 * a' + 1))%Z with ((a + a' + 1) * 2)%Z by lia. replace (2 * d + 1 + (2 * d' + 1))%Z with ((d + d' + 1) * 2)%Z by lia.
    replace (2 * a + 1 + (2 * d + 1))%Z with ((a + d + 1) * 2)%Z by lia. replace (2 * a' + 1 + (2 * d' + 1))%Z with ((a' + d' + 1) * 2)%Z by lia. rewrite !Z.div_mul by lia. lia.
  - unfold multipole. destruct (Z.eqb_spec (mm s + mm t) (mm s' + mm t')); [contradiction|ring].
Qed.
End Reflect.
