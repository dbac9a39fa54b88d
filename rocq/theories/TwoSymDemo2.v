(** Interaction of concrete pairs of states that shows which symmetries the interaction does not have. *)
From Coq Require Import ZArith Lia Bool Reals Lra String List.
Import ListNotations.
From Verif Require Import Base StateModel MEModel Racah MESpec MEProofs MEReal Matrix FieldModel GreenModel TwoModel TwoSpec TwoProofs TwoProofs2 TwoProofs3 TwoMatModel TwoSymSpec TwoSymProofs TwoSymProofs2 TwoSymProofs3 TwoMatProofs TwoSymDemo.
Set Implicit Arguments.
Local Open Scope R_scope.

Lemma not_dmax : forall d, Rabs d < 2 -> d <> dmax.
Proof.
  intros d D ->. rewrite Rabs_pos_eq in D by (left; apply dmax_pos). revert D. apply Rle_not_lt.
  unfold dmax. assert (1 <= 2 ^ 52) by (apply pow_R1_Rle; lra).
  assert (/ 2 ^ 52 <= / 1) by (apply Rinv_le_contravar; lra). rewrite Rinv_1 in *.
  assert (2 ^ 1 <= 2 ^ 1023) by (apply Rle_pow; [lra|lia]). assert (0 < 2 ^ 1023) by (apply pow_lt; lra). nra.
Qed.
Definition pairSS := mkTwo_pair (sS 1) (sS 1).
Definition pairPD (m : Z) := mkTwo_pair (sP m) (sD m).
Definition pairPP (m : Z) := mkTwo_pair (sP m) (sP m).
Lemma axis_geo : forall o, let g := gsets newGeo [SetOrder2 o; SetDistance 1] in
  gdist g = 1 /\ gvx g = Some 0 /\ gvy g = Some 0 /\ gvz g = Some 1 /\ gtb g = false /\ gsurf g = None /\ gord g = o /\ gfrozen g = false.
Proof.
  intros o. cbn [gsets gsetter fst gfrozen newGeo gdist gvx gvy gvz gtb gsurf gord scale]. pose proof dmax_pos. rewrite (proj2 (Reqb_false dmax 0)) by lra.
  repeat split; f_equal; field; lra.
Qed.
Lemma perm_value : forall kC tol isreal, exists w,
  pair_entry kC tol isreal (gsets newGeo [SetOrder2 4; SetDistance 1]) unit_el unit_el pairSS (pairPD 1) = Ok (w, 0) /\
  w = kC * sqrt (C 3 1 * C 3 2) * unit_el (sS 1) (sP 1) 1 * unit_el (sS 1) (sD 1) 2.
Proof.
  intros kC tol isreal. set (w := kC * sqrt (C 3 1 * C 3 2) * unit_el (sS 1) (sP 1) 1 * unit_el (sS 1) (sD 1) 2). exists w. split; [|reflexivity].
  destruct (axis_geo 4) as (D & X & Y & Z & T & S & O & F). set (g := gsets _ _) in *. clearbody g.
  unfold pair_entry. change (artificial2 (pairPD 1) || artificial2 pairSS) with false. cbv iota. unfold interaction_entry. rewrite D, X, Y, Z. rewrite (proj2 (Reqb_false 1 dmax)) by (apply not_dmax; rewrite Rabs_R1; lra).
  unfold needs_green. rewrite X, Y, S, T, O. unfold nonzeroR. rewrite (proj2 (Reqb_true 0 0) eq_refl). cbn [negb orb andb]. f_equal. f_equal.
  unfold mult_entry. cbn [seq Nat.sub map fold_right]. unfold mult_val, pair_data. cbn [pq1 pq2 psel1 psel2 pM1 pM2 pairSS pairPD mkTwo_pair fst1 snd1 seq Nat.sub map fold_right].
  change (trunc2 (m2 (sS 1) - m2 (sP 1))) with 0%Z. change (trunc2 (m2 (sS 1) - m2 (sD 1))) with 0%Z. cbn [Z.add Z.eqb].
  change (selM (sS 1) (sP 1) 1) with true. change (selM (sS 1) (sD 1) 1) with false. change (selM (sS 1) (sD 1) 2) with true. change (selM (sS 1) (sP 1) 2) with false. cbn [andb Nat.add].
  unfold w, binom_coef. change (Z.to_nat (Z.of_nat 1 + 0)) with 1%nat. change (Z.to_nat (Z.of_nat 2 - 0)) with 2%nat. set (q := sqrt _). field.
Qed.
Lemma C_nz : sqrt (C 3 1 * C 3 2) <> 0.
Proof. apply Rgt_not_eq, sqrt_lt_R0. unfold C. cbn. apply Rmult_lt_0_compat; apply Rdiv_lt_0_compat; lra. Qed.

Lemma off_value : forall kC tol isreal, 0 <= tol < 1 -> exists w,
  pair_entry kC tol isreal (gsets newGeo [SetVector 1 0 0]) unit_el unit_el pairSS (pairPP (-1)) = Ok (w, 0) /\
  w = kC * unit_el (sS 1) (sP (-1)) 1 * unit_el (sS 1) (sP (-1)) 1 * (- (3 / 2)).
Proof.
  intros kC tol isreal T. set (w := _ * - (3 / 2)). exists w. split; [|reflexivity].
  unfold pair_entry. change (artificial2 (pairPP (-1)) || artificial2 pairSS) with false. cbv iota. cbn [gsets gsetter fst gfrozen newGeo].
  assert (Q : sqrt (1 * 1 + 0 * 0 + 0 * 0) = 1) by (replace (1 * 1 + 0 * 0 + 0 * 0) with 1 by ring; apply sqrt_1). rewrite Q.
  unfold interaction_entry. cbn [gdist gvx gvy gvz]. rewrite (proj2 (Reqb_false 1 dmax)) by (apply not_dmax; rewrite Rabs_R1; lra).
  rewrite (proj2 (Reqb_true 0 0) eq_refl). unfold needs_green. cbn [gvx gvy gvz gtb gsurf gord newGeo]. unfold nonzeroR. rewrite (proj2 (Reqb_true 0 0) eq_refl). rewrite (proj2 (Reqb_false 1 0)) by lra. cbn [negb orb andb Nat.ltb Nat.leb].
  f_equal. f_equal. unfold angle_entry, pair_data. cbn [pq1 pq2 psel1 psel2 pM1 pM2 pairSS pairPP mkTwo_pair fst1 snd1].
  change (trunc2 (m2 (sS 1) - m2 (sP (-1)))) with 1%Z. change (selM (sS 1) (sP (-1)) 1) with true. cbn [andb]. change (angle_key 1 1) with 8%Z.
  unfold angle_term. cbn [Z.eqb Pos.eqb]. assert (A : sin (atan2 1 0) = 1).
  { unfold atan2. rewrite (proj2 (Rltb_false 0 0)) by lra. rewrite (proj2 (Rltb_true 0 1)) by lra. apply sin_PI2. }
  rewrite A. rewrite (proj2 (Rltb_true _ _)). 2:{ replace (- (3 / 2) * 1 ^ 2) with (- (3 / 2)) by ring. rewrite Rabs_Ropp, Rabs_right; lra. }
  unfold w. field.
Qed.

(** ** A surface, order 4 *)
Lemma dq_sum : forall kC G p, lawful p -> dq_entry kC 0 false G p = Ok (csum27 (fun i j k => rmul (G i j k) (rmul kC (cmul (dip1 p i) (quad2 p j k))))).
Proof.
  intros kC G p L. unfold dq_entry, csum27. rewrite <- sumres_ok. f_equal. apply map_ext_in.
  intros [[i j] k] I. apply in_idx3s in I. cbn [fst snd] in *. destruct I as (Hi & Hj & Hk).
  rewrite gterm_complex, (dq_coef kC 0 0 0 0 p i j k L (no_cutoff_0 0 0 0 p) Hi Hj Hk). rewrite (kept_trunc _ _ (kept_zero _)). reflexivity.
Qed.
Lemma csum27_add : forall f g, csum27 (fun i j k => cadd (f i j k) (g i j k)) = cadd (csum27 f) (csum27 g).
Proof.
  intros. unfold csum27. induction idx3s as [|t L IH]; cbn [map fold_right]; [apply injective_projections; cbn; ring|]. rewrite IH. apply injective_projections; cbn; ring.
Qed.
Lemma plate_value : forall kC p, pq1 p = 1%Z -> pq2 p = 1%Z ->
  csum27 (fun i j k => rmul (DQplate 0 1 1 i j k) (rmul kC (cmul (dip1 p i) (quad2 p j k)))) =
  (kC * pM1 p 1%nat * pM2 p 2%nat * (- (3 / 16) * (/ sqrt 2 * / sqrt 24)), 0).
Proof.
  intros kC p Q1 Q2. assert (N : norm3 (- 0) 0 (1 + 1) = 2).
  { rewrite Ropp_0, norm_axis. rewrite Rabs_right; lra. }
  unfold DQplate. cbv zeta. rewrite N. unfold dip1, quad2. rewrite Q1, Q2. set (a := pM1 p 1%nat). set (b := pM2 p 2%nat). set (c := pM2 p 0%nat).
  unfold csum27. apply injective_projections; rewrite ?fst_sum, ?snd_sum, ?map_map; unfold idx3s, three; cbn [list_prod app map fold_right fst snd];
  unfold plateDiag, plateSecond, gradDQ, cart, qtab, qphase, phase; cbn [Z.abs Z.eqb Pos.eqb Nat.eqb negb andb orb vec3];
  unfold rmul, cmul; cbn [fst snd]; field_simplify; pose proof sqrt2_pos; pose proof sqrt24_pos; try lra; try reflexivity; field; lra.
Qed.

Lemma surface_geo : let g := gsets newGeo [SetOrder2 4; SetDistance 1; SetSurface (Some 1)] in
  gdist g = 1 /\ gvx g = Some 0 /\ gvy g = Some 0 /\ gvz g = Some 1 /\ gtb g = true /\ gsurf g = Some 1 /\ gord g = 4%nat.
Proof.
  cbn [gsets gsetter fst gfrozen newGeo gdist gvx gvy gvz gtb gsurf gord scale]. pose proof dmax_pos. rewrite (proj2 (Reqb_false dmax 0)) by lra.
  repeat split; f_equal; field; lra.
Qed.
Lemma surface_value : forall kC, exists w,
  pair_entry kC 0 false (gsets newGeo [SetOrder2 4; SetDistance 1; SetSurface (Some 1)]) unit_el unit_el pairSS (pairPD (-1)) = Ok (w, 0) /\
  w = kC * unit_el (sS 1) (sP (-1)) 1 * unit_el (sS 1) (sD (-1)) 2 * (- (3 / 16) * (/ sqrt 2 * / sqrt 24)).
Proof.
  intros kC. set (w := _ * (- (3 / 16) * _)). exists w. split; [|reflexivity].
  destruct surface_geo as (D & X & Y & Z & T & S & O). set (g := gsets _ _) in *. clearbody g.
  assert (IR : pair_of demo_states demo_states pairSS) by (split; cbn; tauto). assert (IC : pair_of demo_states demo_states (pairPD (-1))) by (split; cbn; tauto).
  assert (LW : lawful (pair_data unit_el unit_el pairSS (pairPD (-1)))) by (eapply data_lawful; [apply demo_atoms|apply demo_atoms|apply (unit_calculated demo_atoms)|apply (unit_calculated demo_atoms)|exact IR|exact IC|reflexivity|reflexivity]).
  assert (PL := data_parity unit_el unit_el pairSS (pairPD (-1))).
  unfold pair_entry. change (artificial2 (pairPD (-1)) || artificial2 pairSS) with false. cbv iota. unfold interaction_entry. rewrite D, X, Y, Z. rewrite (proj2 (Reqb_false 1 dmax)) by (apply not_dmax; rewrite Rabs_R1; lra).
  unfold needs_green. rewrite X, Y, S, T, O. rewrite !orb_true_r. unfold green_entry. rewrite T, S, O. rewrite (proj2 (Reqb_true 0 0) eq_refl). cbn [negb].
  assert (SU : addSurface 1 (newGreen 0 0 1) = (Green 0 0 1 (Some (1, 1)) None None None, Ok tt)).
  { unfold addSurface. cbn [g_y g_x g_z newGreen]. destruct (Req_EM_T 0 0) as [_|N]; [|exfalso; apply N; reflexivity].
    assert (OF : offset 0 1 = 0) by (unfold offset; replace (0 / 1) with 0 by lra; rewrite atan_0, sin_0; lra). rewrite OF.
    replace (1 - 0) with 1 by ring. replace (1 + 0) with 1 by ring. destruct (Rlt_dec 1 0); [lra|]. reflexivity. }
  rewrite SU. cbn [bind]. cbn [Nat.leb]. set (p := pair_data unit_el unit_el pairSS (pairPD (-1))) in *.
  rewrite (@dd_zero kC 0 p _ _ PL); [|reflexivity].
  replace (qd_entry kC 0 false (calcQD (Green 0 0 1 (Some (1, 1)) None None None)) p) with (Ok (0, 0)).
  2:{ symmetry. unfold qd_entry. apply sumres_zero. intros r I. apply in_map_iff in I. destruct I as ([[i j] k] & <- & _). unfold qd_val. change (psel1 p 2) with false. change (psel1 p 0) with false. cbn [andb orb]. apply gterm_none. }
  rewrite (dq_sum kC _ LW).
  assert (V : csum27 (fun i j k => rmul (calcDQ (Green 0 0 1 (Some (1, 1)) None None None) i j k) (rmul kC (cmul (dip1 p i) (quad2 p j k)))) = (w, 0)).
  { change (calcDQ (Green 0 0 1 (Some (1, 1)) None None None)) with (add3 (DQvac 0 0 1) (DQplate 0 1 1)).
    rewrite (@csum27_ext _ (fun i j k => cadd (rmul (axis i j k * (1 / Rabs 1 ^ 5)) (rmul kC (cmul (dip1 p i) (quad2 p j k)))) (rmul (DQplate 0 1 1 i j k) (rmul kC (cmul (dip1 p i) (quad2 p j k)))))).
    2:{ intros i j k Hi Hj Hk. unfold add3. rewrite DQ_axis by (try assumption; lra). apply injective_projections; cbn; ring. }
    rewrite csum27_add, csum27_axis, plate_value by reflexivity.
    assert (AX := axis_dq p). change (pq1 p) with 1%Z in AX. change (pq2 p) with 1%Z in AX. specialize (AX ltac:(cbn; lia) ltac:(cbn; lia)). change (weight4 1 1) with 0 in AX.
    replace (axis_sum (fun i j k => rmul kC (cmul (dip1 p i) (quad2 p j k)))) with (rmul kC (axis_sum (fun i j k => cmul (dip1 p i) (quad2 p j k)))) by (unfold axis_sum; apply injective_projections; cbn; ring).
    rewrite AX. change (pM1 p 1%nat) with (unit_el (sS 1) (sP (-1)) 1). change (pM2 p 2%nat) with (unit_el (sS 1) (sD (-1)) 2). fold w. apply injective_projections; cbn; ring. }
  rewrite V. unfold cplus. cbn [bind]. f_equal. apply injective_projections; cbn; ring.
Qed.
