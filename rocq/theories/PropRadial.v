(** C109: the radial equation.

    [V q r], [g q r]: the model potential and the coefficient function of the code (RadialModel; [q] holds the data of the quantum defect
    database).  [scaled u]: x -> u(x^2) / sqrt x.  [second_derivative f F]: F is the second derivative of f at all positive places.
    [raw g x n odd i]: row i computed by Numerov::integrate before the normalisation, for places x and n rows (WaveModel). *)
From Coq Require Import Reals Lra Lia ZArith Psatz String List.
From Coquelicot Require Import Coquelicot.
From Verif Require Import Base WaveModel WaveProofs2 PropWave RadialModel RadialProofs NumerovProofs.
Set Implicit Arguments.
Local Open Scope R_scope.

(** The right-hand side of the radial Schroedinger equation in atomic units: u'' = (l(l+1)/r^2 + 2 (V(r) - E)) u *)
Definition schroedinger (q : qdata) (u : R -> R) (r : R) : R :=
  (INR (q_l q) * (INR (q_l q) + 1) / (r * r) + 2 * (V q r - q_energy q / au2GHz)) * u r.

(** The equation that is integrated is the radial Schroedinger equation for the scaled radius: a function u satisfies the one at r = x^2
    exactly if u(x^2)/sqrt x satisfies the other one, X'' = g(x^2) X, at x. *)
Theorem C109_equation : forall q u u2, second_derivative u u2 -> exists X2, second_derivative (scaled u) X2 /\
  forall x, 0 < x -> (X2 x = g q (x * x) * scaled u x <-> u2 (x * x) = schroedinger q u (x * x)).
Proof.
  intros q u u2 H. eexists. split; [exact (scaled_second H)|]. intros x Hx. cbv beta.
  assert (S : 0 < sqrt x) by (apply sqrt_lt_R0; auto). assert (Q : sqrt x * sqrt x = x) by (apply sqrt_def; lra). unfold scaled, schroedinger, g.
  set (W := V q (x * x) - q_energy q / au2GHz). clearbody W. set (L := INR (q_l q)). clearbody L. generalize (u (x * x)) (u2 (x * x)). intros a b. clear H.
  assert (E : 4 * (x * sqrt x) * b + 3 / 4 * (a / (x * x * sqrt x)) - ((2 * L + / 2) * (2 * L + 3 / 2) / (x * x) + 8 * (x * x) * W) * (a / sqrt x) =
    4 * (x * sqrt x) * (b - (L * (L + 1) / (x * x * (x * x)) + 2 * W) * a)).
  { revert S Q. generalize (sqrt x) as r. intros r S Q. subst x. field. lra. }
  assert (P : 0 < 4 * (x * sqrt x)) by nra. split; intro X.
  - rewrite X in E. rewrite Rminus_diag_eq in E by reflexivity. symmetry in E. apply Rmult_integral in E. destruct E as [E|E]; [lra|]. apply Rminus_diag_uniq. exact E.
  - apply Rminus_diag_uniq. rewrite E, X. ring.
Qed.

(** Matrix elements: the integral of u v r^k over the radius is twice the integral of the scaled functions with the power the code uses; for the
    unscaled functions of the Whittaker method it is the other power. *)
Theorem C109_weights : forall u v k a b, 0 < a <= b -> (forall r, a * a <= r <= b * b -> continuous (fun r => u r * v r * r ^ k) r) ->
  RInt (fun r => u r * v r * r ^ k) (a * a) (b * b) = RInt (fun x => 2 * (scaled u x * scaled v x * x ^ numerov_kernel k)) a b /\
  RInt (fun r => u r * v r * r ^ k) (a * a) (b * b) = RInt (fun x => 2 * (u (x * x) * v (x * x) * x ^ whittaker_kernel k)) a b.
Proof.
  intros u v k a b H C. pose proof (substitution H C) as Q. split; (etransitivity; [exact Q|]); apply RInt_ext; rewrite Rmin_left, Rmax_right by lra; intros x Hx.
  - rewrite weight by lra. reflexivity.
  - rewrite weight_w. reflexivity.
Qed.

Lemma riemann_step : forall (P F F1 : R -> R) x h B, 0 < h -> (forall t, x <= t <= x + h -> is_derive P t (F t) /\ is_derive F t (F1 t) /\ Rabs (F1 t) <= B) ->
  Rabs (P (x + h) - P x - F x * h) <= B * (h * h) / 2.
Proof.
  intros P F F1 x h B Hh H. set (E := fun k t => match k with 0%nat => P (x + t) | 1%nat => F (x + t) | _ => F1 (x + t) end).
  assert (SH : forall (f : R -> R) (df t : R), is_derive f (x + t) df -> is_derive (fun t => f (x + t)) t df).
  { intros f df t D. assert (A : is_derive (fun t => x + t) t 1) by (auto_derive; auto). pose proof (is_derive_comp f (fun t => x + t) t _ _ D A) as Q.
    replace df with (scal 1 df); [exact Q|]. unfold scal; cbn. unfold mult; cbn. ring. }
  assert (T := @taylor_bound 2 E h B). specialize (T ltac:(intros k t Hk Ht; destruct (H (x + t) ltac:(lra)) as (H1 & H2 & _); destruct k as [|[|k]]; [apply SH; exact H1|apply SH; exact H2|lia])).
  specialize (T ltac:(intros t Ht; destruct (H (x + t) ltac:(lra)) as (_ & _ & H3); exact H3) h ltac:(lra)). cbn [tp] in T. unfold E in T. cbn [fact INR Nat.mul Nat.add] in T. rewrite Rplus_0_r in T.
  replace (P (x + h) - P x - F x * h) with (P (x + h) - (0 + h ^ 0 / 1 * P x + h ^ 1 / 1 * F x)) by (cbn; field). replace (B * (h * h) / 2) with (B * (h ^ 2 / (1 + 1))) by (cbn; field). exact T.
Qed.
Lemma riemann_sum : forall (F F1 : R -> R) lo h B N (y : nat -> R) eta, 0 < lo -> 0 < h -> (forall t, 0 < t -> is_derive F t (F1 t)) ->
  (forall t, lo <= t <= lo + INR N * h -> Rabs (F1 t) <= B) -> (forall i, (i < N)%nat -> Rabs (y i - F (lo + INR i * h)) <= eta) ->
  Rabs (fold_right (fun i acc => y i * h + acc) 0 (seq 0 N) - RInt F lo (lo + INR N * h)) <= INR N * h * (B * h / 2 + eta).
Proof.
  intros F F1 lo h B N y eta L0 Hh D. set (P := (fun x => RInt F lo x) : R -> R).
  assert (CF : forall t, 0 < t -> continuous F t) by (intros t Ht; apply (@ex_derive_continuous R_AbsRing R_NormedModule); eexists; apply D; auto).
  assert (DP : forall t, 0 < t -> is_derive P t (F t)).
  { intros t Ht. apply (is_derive_RInt F P lo t); [|apply CF; auto]. exists (mkposreal t Ht). intros b Hb. cbn in Hb. unfold ball in Hb; cbn in Hb. unfold AbsRing_ball, abs, minus, plus, opp in Hb; cbn in Hb.
    assert (0 < b) by (apply Rabs_def2 in Hb; lra). apply (RInt_correct F lo b). apply (ex_RInt_continuous F). intros z Hz. apply CF.
    assert (0 < Rmin lo b) by (apply Rmin_pos; auto). lra. }
  assert (FS : forall (l : list nat) z, fold_right (fun i acc => y i * h + acc) z l = fold_right (fun i acc => y i * h + acc) 0 l + z) by (induction l as [|i l IL]; intro z; cbn; [ring|rewrite IL; ring]).
  induction N as [|N IH]; intros HB HY.
  - cbn [seq fold_right INR]. assert (Z : RInt F lo lo = 0) by exact (@RInt_point R_CompleteNormedModule lo F). replace (lo + 0 * h) with lo by ring. match goal with |- Rabs (0 - ?q) <= _ => replace q with 0 by (symmetry; exact Z) end. rewrite Rminus_0_r, Rabs_R0. lra.
  - assert (NP : 0 <= INR N * h) by (apply Rmult_le_pos; [apply pos_INR|lra]). assert (SN : INR (S N) * h = INR N * h + h) by (rewrite S_INR; ring).
    specialize (IH ltac:(intros t Ht; apply HB; lra) ltac:(intros i Hi; apply HY; lia)). rewrite seq_S, fold_right_app. cbn [fold_right Nat.add]. rewrite FS. set (A := fold_right _ 0 (seq 0 N)) in *. clearbody A.
    set (x := lo + INR N * h) in *. assert (X0 : 0 < x) by (unfold x; lra). replace (lo + INR (S N) * h) with (x + h) by (unfold x; lra).
    change (RInt F lo (x + h)) with (P (x + h)). change (RInt F lo x) with (P x) in IH.
    assert (Q := @riemann_step P F F1 x h B Hh ltac:(intros t Ht; split; [apply DP; lra|split; [apply D; lra|apply HB; unfold x in Ht; lra]])).
    assert (Y := HY N ltac:(lia)). fold x in Y.
    replace (A + (y N * h + 0) - P (x + h)) with ((A - P x) + ((y N - F x) * h + - (P (x + h) - P x - F x * h))) by ring.
    eapply Rle_trans; [apply Rabs_triang|]. eapply Rle_trans; [apply Rplus_le_compat; [exact IH|apply Rabs_triang]|]. rewrite Rabs_Ropp, Rabs_mult, (Rabs_pos_eq h) by lra.
    assert (Rabs (y N - F x) * h <= eta * h) by (apply Rmult_le_compat_r; lra). rewrite SN. replace ((INR N * h + h) * (B * h / 2 + eta)) with (INR N * h * (B * h / 2 + eta) + (eta * h + B * (h * h) / 2)) by field. lra.
Qed.
(** Accuracy of radial matrix elements: if each summand differs by at most [eta] from the exact integrand at its place, whose derivative is bounded by [B],
    the returned value differs from the integral of u v r^kappa over the common range by at most (b - a) (B dx + 2 eta). *)
Theorem C109_elements : forall u v kappa a1 n1 y1 a2 n2 y2 F1 B eta, grid_ok a1 n1 -> grid_ok a2 n2 ->
  let s := Z.max (100 * a1) (100 * a2) in let e := Z.min (100 * a1 + Z.of_nat n1 - 1) (100 * a2 + Z.of_nat n2 - 1) in (s <= e)%Z ->
  let F := fun x => scaled u x * scaled v x * x ^ numerov_kernel kappa in let a := IZR s * dx in let b := IZR e * dx in
  (forall x, 0 < x -> is_derive F x (F1 x)) -> (forall x, a <= x <= b -> Rabs (F1 x) <= B) -> (forall r, 0 < r -> continuous (fun r => u r * v r * r ^ kappa) r) ->
  (forall t, (s <= t < e)%Z -> Rabs (y1 (t - 100 * a1)%Z * y2 (t - 100 * a2)%Z * grid a1 (t - 100 * a1) ^ numerov_kernel kappa - F (IZR t * dx)) <= eta) ->
  exists m, radial a1 n1 y1 a2 n2 y2 (numerov_kernel kappa) = Ok m /\
    Rabs (m - RInt (fun r => u r * v r * r ^ kappa) (a * a) (b * b)) <= (b - a) * (B * dx + 2 * eta).
Proof.
  intros u v kappa a1 n1 y1 a2 n2 y2 F1 B eta G1 G2 s e SE F a b D HB C HY. eexists. split; [apply (C69_value y1 y2 (numerov_kernel kappa) G1 G2)|]. fold s e.
  pose proof dx_pos as DX. assert (S1 : (100 <= s)%Z) by (destruct G1 as (A1 & _); unfold s; lia). assert (S2 : 100 <= IZR s) by (apply IZR_le; auto). assert (S3 : IZR s <= IZR e) by (apply IZR_le; auto).
  assert (A0 : 0 < a) by (unfold a; nra). assert (AB : a <= b) by (unfold a, b; nra).
  destruct (@C109_weights u v kappa a b ltac:(lra) ltac:(intros r Hr; apply C; nra)) as [W _]. rewrite W. fold F. clear W.
  set (N := Z.to_nat (e - s)). assert (BN : a + INR N * dx = b) by (unfold a, b, N; rewrite INR_IZR_INZ, Z2Nat.id, minus_IZR by lia; ring).
  set (y := fun i : nat => y1 (s + Z.of_nat i - 100 * a1)%Z * y2 (s + Z.of_nat i - 100 * a2)%Z * grid a1 (s + Z.of_nat i - 100 * a1) ^ numerov_kernel kappa).
  assert (Q := @riemann_sum F F1 a dx B N y eta A0 DX D ltac:(intros t Ht; apply HB; lra)).
  assert (HY' : forall i, (i < N)%nat -> Rabs (y i - F (a + INR i * dx)) <= eta).
  { intros i Hi. unfold y. replace (a + INR i * dx) with (IZR (s + Z.of_nat i) * dx) by (unfold a; rewrite plus_IZR, <- INR_IZR_INZ; ring). apply HY. unfold N in Hi. lia. }
  specialize (Q HY'). rewrite BN in Q. change (fold_right _ 0 (seq 0 N)) with (fold_right (fun i acc => y i * dx + acc) 0 (seq 0 N)).
  assert (R2 : RInt (fun x => 2 * F x) a b = 2 * RInt F a b).
  { apply (RInt_scal F a b 2). apply (ex_RInt_continuous F). rewrite Rmin_left, Rmax_right by lra. intros z Hz. apply (@ex_derive_continuous R_AbsRing R_NormedModule). eexists. apply D. lra. }
  change (RInt (fun x => 2 * (scaled u x * scaled v x * x ^ numerov_kernel kappa)) a b) with (RInt (fun x => 2 * F x) a b). rewrite R2. rewrite <- Rmult_minus_distr_l, Rabs_mult, (Rabs_pos_eq 2) by lra.
  replace ((b - a) * (B * dx + 2 * eta)) with (2 * (INR N * dx * (B * dx / 2 + eta))); [lra|]. replace (INR N * dx) with (b - a) by lra. field.
Qed.

(** The error of the whole integration is of fourth order in the step: if X solves X'' = g(x^2) X and has the two starting values of the code, then
    the computed rows differ from it by at most the local errors 7/720 M dx^6, amplified exponentially with the distance from the outer end.  [G] bounds
    |g| on the grid, [M] the sixth derivative of X; steps are small enough. *)
Theorem C109_convergence : forall (f : R -> R) D a n (odd : bool) G M, smooth6 D -> (forall t, 0 < t -> D 2%nat t = f (t * t) * D 0%nat t) -> 0 < a -> (2 <= n)%nat ->
  0 < G -> 2 * (dx * dx * G) <= 1 -> (forall i, (0 <= i < Z.of_nat n)%Z -> Rabs (f ((a + IZR i * dx) * (a + IZR i * dx))) <= G) ->
  (forall t, a <= t <= a + IZR (Z.of_nat n - 1) * dx -> Rabs (D 6%nat t) <= M) ->
  let x := fun i : Z => a + IZR i * dx in
  D 0%nat (x (Z.of_nat n - 1)%Z) = 0 -> D 0%nat (x (Z.of_nat n - 2)%Z) = (if odd then / 10 ^ 10 else - / 10 ^ 10) ->
  forall i, (0 <= i < Z.of_nat n)%Z -> let L := x (Z.of_nat n - 1)%Z - x i in
  Rabs (raw f x n odd i - D 0%nat (x i)) <= 2 * exp (2 * L * sqrt (2 * G)) * L * (7 / 720 * M * dx ^ 4) / sqrt (2 * G).
Proof.
  intros f D a n odd G M S E A N2 G0 F B1 B2 x I0 I1 i Hi L. set (k := Z.to_nat (Z.of_nat n - 1 - i)).
  assert (RK : row n k = i) by (unfold row, k; lia). assert (R0 : row n 0 = (Z.of_nat n - 1)%Z) by (unfold row; lia). assert (R1 : row n 1 = (Z.of_nat n - 2)%Z) by (unfold row; lia).
  assert (Q := @error_bound f a n odd D S E G M A G0 F B1 B2 k ltac:(unfold k; lia) N2).
  assert (LE : INR k * dx = L). { unfold L, x, k. rewrite INR_IZR_INZ, Z2Nat.id by lia. rewrite !minus_IZR. ring. }
  rewrite LE in Q. unfold y, ex in Q. rewrite RK, R0, R1 in Q. apply Q.
  - unfold raw. replace (Z.to_nat _) with 0%nat by lia. symmetry. exact I0.
  - unfold raw. replace (Z.to_nat _) with 1%nat by lia. cbn [below2 fst]. symmetry. exact I1.
Qed.

(** The sign convention: as long as g is not negative on the way from the outer end (the classically forbidden region), every row below the last one has the sign of
    the starting value, + if n - l is odd and - if it is even, and (1 - dx^2/12 g) |X| grows inwards. *)
Theorem C109_sign : forall (f : R -> R) a n (odd : bool) m, let x := fun i : Z => a + IZR i * dx in
  (forall i, (m <= i < Z.of_nat n)%Z -> 0 <= f (x i * x i) /\ dx * dx * f (x i * x i) < 12) -> (2 <= n)%nat -> (0 <= m)%Z ->
  let c := fun i => 1 - dx * dx / 12 * f (x i * x i) in let sg := if odd then 1 else -1 in
  forall i, (m <= i < Z.of_nat n - 1)%Z -> 0 < sg * raw f x n odd i /\
    c (i + 1)%Z * (sg * raw f x n odd (i + 1)) < c i * (sg * raw f x n odd i).
Proof.
  intros f a n odd m x B N2 M0 c sg i Hi.
  assert (CC : forall k, cc f a n k = c (row n k)) by (intro k; unfold cc, gat, c; change (place a (row n k)) with (x (row n k)); field).
  assert (CP : forall k, (m <= row n k)%Z -> 0 < cc f a n k).
  { intros k Hk. rewrite CC. unfold c. assert (row n k < Z.of_nat n)%Z by (unfold row; lia). destruct (B (row n k) ltac:(lia)). lra. }
  assert (K : forall k, (m <= row n (S k))%Z -> 0 < sg * y f a n odd (S k) /\ cc f a n k * (sg * y f a n odd k) < cc f a n (S k) * (sg * y f a n odd (S k))).
  { induction k as [|k IH]; intro Hk.
    - rewrite y_0. assert (P : 0 < sg * y f a n odd 1). { rewrite y_S. cbn [below2 fst]. unfold sg. destruct odd; cbn; lra. }
      split; [exact P|]. pose proof (CP 1%nat Hk). nra.
    - assert (Hk' : (m <= row n (S k))%Z) by (unfold row in *; lia). destruct (IH Hk') as [P1 P2]. pose proof (CP (S (S k)) Hk) as C2.
      assert (Rc := @recurrence f a n odd k ltac:(lra)). assert (row n (S k) < Z.of_nat n)%Z by (unfold row; lia). destruct (B (row n (S k)) ltac:(lia)) as [G0 _].
      change (f (x (row n (S k)) * x (row n (S k)))) with (gat f (place a) n (S k)) in G0. pose proof dx_pos as DP.
      set (y2 := y f a n odd (S (S k))) in *. set (y1 := y f a n odd (S k)) in *. set (y0 := y f a n odd k) in *. set (G := gat f (place a) n (S k)) in *.
      assert (E : cc f a n (S (S k)) * (sg * y2) = 2 * (cc f a n (S k) * (sg * y1)) + dx * dx * G * (sg * y1) - cc f a n k * (sg * y0)).
      { replace (cc f a n (S (S k)) * (sg * y2)) with (sg * (cc f a n (S (S k)) * y2)) by ring. rewrite Rc. ring. }
      assert (0 <= dx * dx * G * (sg * y1)) by (apply Rmult_le_pos; [apply Rmult_le_pos; nra|lra]).
      assert (Q : cc f a n (S k) * (sg * y1) < cc f a n (S (S k)) * (sg * y2)) by lra. split; [|exact Q].
      pose proof (CP (S k) Hk') as C1. assert (0 < cc f a n (S k) * (sg * y1)) by (apply Rmult_lt_0_compat; auto).
      apply Rmult_lt_reg_l with (cc f a n (S (S k))); auto. rewrite Rmult_0_r. lra. }
  set (k := Z.to_nat (Z.of_nat n - 2 - i)). assert (R1 : row n (S k) = i) by (unfold row, k; lia). assert (R2 : row n k = (i + 1)%Z) by (unfold row, k; lia).
  destruct (K k ltac:(lia)) as [K1 K2]. rewrite !CC, R1, R2 in K2. unfold y in K1, K2. rewrite R1 in K1, K2. rewrite R2 in K2. split; [exact K1|exact K2].
Qed.

(** The local error of one step: with exact values in two neighbouring rows, the next one, times 1 - dx^2/12 g, is wrong by at most 7/720 M dx^6. *)
Theorem C109_step : forall (f : R -> R) D x M, smooth6 D -> (forall t, 0 < t -> D 2%nat t = f (t * t) * D 0%nat t) -> 0 < x - dx ->
  (forall t, x - dx <= t <= x + dx -> Rabs (D 6%nat t) <= M) -> let c := fun t => 1 - dx * dx / 12 * f (t * t) in
  Rabs (c (x - dx) * D 0%nat (x - dx) - ((2 + 5 / 6 * dx * dx * f (x * x)) * D 0%nat x - c (x + dx) * D 0%nat (x + dx))) <= 7 / 720 * M * dx ^ 6.
Proof.
  intros f D x M S E X B c. pose proof dx_pos as P. assert (L := @local_error D x dx M S ltac:(lra) B). rewrite (E (x - dx)), (E x), (E (x + dx)) in L by lra.
  match type of L with Rabs ?e <= _ => replace (Rabs e) with (Rabs (c (x - dx) * D 0%nat (x - dx) - ((2 + 5 / 6 * dx * dx * f (x * x)) * D 0%nat x - c (x + dx) * D 0%nat (x + dx)))) in L; [exact L|] end.
  f_equal. unfold c. field.
Qed.

(** ** The potential *)
(** Without model potential parameters, beyond l = 3: the Coulomb potential of a unit charge. *)
Theorem C109_hydrogen : forall q r, q_Z q = 1 -> q_a3 q = 0 -> q_a4 q = 0 -> q_ac q = 0 -> (4 <= q_l q)%nat -> V q r = - 1 / r.
Proof.
  intros q r Z A3 A4 AC L. unfold V, V_core, charge, V_polarization, V_spin_orbit. rewrite Z, A3, A4, AC. replace (q_l q <? 4)%nat with false by (symmetry; apply Nat.ltb_ge; auto). unfold Rdiv. ring.
Qed.
(** The electron sees the whole charge of the nucleus at small distances (beyond l = 3, where there is no spin-orbit term): r V(r) approaches -Z ... *)
Theorem C109_near : forall q, q_rc q <> 0 -> (4 <= q_l q)%nat ->
  forall eps, 0 < eps -> exists d, 0 < d /\ forall r, 0 < r < d -> Rabs (r * V q r + q_Z q) < eps.
Proof.
  intros q RC L eps He.
  assert (C : continuity_pt (fun r => - charge q r) 0).
  { apply derivable_continuous_pt. eexists. apply is_derive_Reals. unfold charge. auto_derive; auto. }
  destruct (C (eps / 2) ltac:(lra)) as (d1 & D1 & H1). set (c := Rabs (q_ac q) / (2 * q_rc q ^ 6)).
  assert (R6 : 0 < q_rc q ^ 6). { replace (q_rc q ^ 6) with ((q_rc q * q_rc q * q_rc q) * (q_rc q * q_rc q * q_rc q)) by ring. assert (q_rc q * q_rc q * q_rc q <> 0) by (repeat apply Rmult_integral_contrapositive_currified; auto).
    assert (0 <= (q_rc q * q_rc q * q_rc q) * (q_rc q * q_rc q * q_rc q)) by apply Rle_0_sqr. destruct H0 as [H0|H0]; auto. symmetry in H0. apply Rmult_integral in H0. destruct H0; contradiction. }
  assert (C0 : 0 <= c) by (unfold c; apply Rmult_le_pos; [apply Rabs_pos|left; apply Rinv_0_lt_compat; lra]).
  exists (Rmin 1 (Rmin d1 (eps / (2 * (c + 1))))). assert (E2 : 0 < eps / (2 * (c + 1))) by (apply Rdiv_lt_0_compat; lra).
  split; [repeat apply Rmin_pos; lra|]. intros r [R0 R1].
  assert (r < 1) by (eapply Rlt_le_trans; [exact R1|apply Rmin_l]). assert (r < d1) by (eapply Rlt_le_trans; [exact R1|eapply Rle_trans; [apply Rmin_r|apply Rmin_l]]).
  assert (r < eps / (2 * (c + 1))) by (eapply Rlt_le_trans; [exact R1|eapply Rle_trans; [apply Rmin_r|apply Rmin_r]]).
  assert (A : Rabs (- charge q r + q_Z q) < eps / 2).
  { specialize (H1 r). cbn in H1. unfold R_dist in H1. replace (- charge q 0) with (- q_Z q) in H1 by (unfold charge; rewrite !Rmult_0_r, exp_0; ring).
    replace (- charge q r + q_Z q) with (- charge q r - - q_Z q) by ring. apply H1. split; [split; [exact I|lra]|]. rewrite Rminus_0_r, Rabs_pos_eq; lra. }
  assert (X : Rabs (1 - exp (- (r / q_rc q) ^ 6)) <= (r / q_rc q) ^ 6).
  { set (t := (r / q_rc q) ^ 6). assert (0 <= t) by (unfold t; replace ((r / q_rc q) ^ 6) with (Rsqr ((r / q_rc q) ^ 3)) by (unfold Rsqr; ring); apply Rle_0_sqr).
    assert (1 + - t <= exp (- t)) by (destruct (Req_dec t 0) as [->|Nt]; [rewrite Ropp_0, exp_0; lra|left; apply exp_ineq1; lra]).
    assert (exp (- t) <= 1) by (rewrite <- exp_0; destruct (Req_dec t 0) as [->|Nt]; [rewrite Ropp_0; lra|left; apply exp_increasing; lra]). rewrite Rabs_pos_eq; lra. }
  assert (B : Rabs (r * V_polarization q r) <= c * r).
  { unfold V_polarization. replace (r * (- q_ac q / (2 * r * r * r * r) * (1 - exp (- (r / q_rc q) ^ 6)))) with (- q_ac q * (1 - exp (- (r / q_rc q) ^ 6)) * / (2 * r ^ 3)) by (field; lra).
    assert (PR : 0 < r ^ 3) by (apply pow_lt; auto). assert (PI : 0 < / (2 * r ^ 3)) by (apply Rinv_0_lt_compat; lra).
    rewrite !Rabs_mult, Rabs_Ropp, (Rabs_pos_eq (/ (2 * r ^ 3))) by lra. apply Rle_trans with (Rabs (q_ac q) * (r / q_rc q) ^ 6 * / (2 * r ^ 3)).
    - apply Rmult_le_compat_r; [lra|]. apply Rmult_le_compat_l; [apply Rabs_pos|exact X].
    - replace (Rabs (q_ac q) * (r / q_rc q) ^ 6 * / (2 * r ^ 3)) with (c * (r * (r * r))) by (unfold c; field; repeat split; (exact RC || lra)). apply Rmult_le_compat_l; auto. nra. }
  replace (r * V q r + q_Z q) with ((- charge q r + q_Z q) + r * V_polarization q r).
  - eapply Rle_lt_trans; [apply Rabs_triang|]. assert (c * r <= (c + 1) * r) by nra. assert ((c + 1) * r < eps / 2).
    { replace (eps / 2) with ((c + 1) * (eps / (2 * (c + 1)))) by (field; lra). apply Rmult_lt_compat_l; lra. }
    lra.
  - unfold V, V_core, V_spin_orbit. replace (q_l q <? 4)%nat with false by (symmetry; apply Nat.ltb_ge; auto). field. lra.
Qed.
(** ... and one charge at large distances, for all l: r V(r) differs from -1 by at most K/r; here the screening parameters a1, a2 are positive. *)
Theorem C109_far : forall q, 0 < q_a1 q -> 0 < q_a2 q -> exists K, forall r, 1 <= r -> Rabs (r * V q r + 1) <= K / r.
Proof.
  intros q A1 A2.
  assert (EX : forall a r, 0 < a -> 1 <= r -> 0 < exp (- a * r) /\ exp (- a * r) <= / a * / r).
  { intros a r Ha Hr. split; [apply exp_pos|]. assert (P : 0 < a * r) by nra. replace (- a * r) with (- (a * r)) by ring. rewrite exp_Ropp.
    rewrite <- Rinv_mult_distr by lra. apply Rinv_le_contravar; auto. assert (1 + a * r < exp (a * r)) by (apply exp_ineq1; lra). lra. }
  assert (EX4 : forall a r, 0 < a -> 1 <= r -> r * r * exp (- a * r) <= 256 / (a * a * a * a) * / r).
  { intros a r Ha Hr. destruct (EX (a / 4) r ltac:(lra) Hr) as [P1 P2]. replace (- a * r) with (- (a / 4) * r + - (a / 4) * r + (- (a / 4) * r + - (a / 4) * r)) by field. rewrite !exp_plus.
    set (e := exp (- (a / 4) * r)) in *. clearbody e. assert (IR : 0 < / r) by (apply Rinv_0_lt_compat; lra). assert (IR1 : / r <= 1) by (rewrite <- Rinv_1; apply Rinv_le_contravar; lra).
    set (z := / (a / 4)) in *. assert (Z0 : 0 < z) by (apply Rinv_0_lt_compat; lra). assert (RR : r * / r = 1) by (field; lra).
    assert (Q1 : e * e <= z * / r * (z * / r)) by (apply Rmult_le_compat; lra). assert (Q2 : 0 <= e * e) by nra.
    assert (Q3 : e * e * (e * e) <= z * / r * (z * / r) * (z * / r * (z * / r))) by (apply Rmult_le_compat; auto).
    apply Rle_trans with (r * r * (z * / r * (z * / r) * (z * / r * (z * / r)))); [apply Rmult_le_compat_l; [nra|exact Q3]|].
    replace (r * r * (z * / r * (z * / r) * (z * / r * (z * / r)))) with (z * z * z * z * ((r * / r) * (r * / r)) * (/ r * / r)) by ring. rewrite RR.
    replace (256 / (a * a * a * a)) with (z * z * z * z) by (unfold z; field; lra). assert (0 < z * z * z * z) by (repeat apply Rmult_lt_0_compat; auto).
    replace (z * z * z * z * (1 * 1) * (/ r * / r)) with (z * z * z * z * (/ r * / r)) by ring. apply Rmult_le_compat_l; nra. }
  set (J := q_j q * (q_j q + 1) - INR (q_l q) * (INR (q_l q) + 1) - spin (q_species q) * (spin (q_species q) + 1)).
  exists (Rabs (q_Z q - 1) * / q_a1 q + (Rabs (q_a3 q) + Rabs (q_a4 q)) * (256 / (q_a2 q * q_a2 q * q_a2 q * q_a2 q)) + Rabs (q_ac q) + Rabs (alpha * alpha * J)).
  intros r Hr. destruct (EX _ r A1 Hr) as [P1 P2]. destruct (EX _ r A2 Hr) as [P3 _]. pose proof (EX4 _ r A2 Hr) as P4.
  assert (IR : 0 < / r) by (apply Rinv_0_lt_compat; lra). assert (IR1 : / r <= 1) by (rewrite <- Rinv_1; apply Rinv_le_contravar; lra).
  set (T1 := - (q_Z q - 1) * exp (- q_a1 q * r)). set (T2 := (r * q_a3 q + r * r * q_a4 q) * exp (- q_a2 q * r)).
  assert (B1 : Rabs T1 <= Rabs (q_Z q - 1) * / q_a1 q * / r).
  { unfold T1. rewrite Rabs_mult, Rabs_Ropp, (Rabs_pos_eq (exp _)) by lra. rewrite Rmult_assoc. apply Rmult_le_compat_l; [apply Rabs_pos|exact P2]. }
  assert (B2 : Rabs T2 <= (Rabs (q_a3 q) + Rabs (q_a4 q)) * (256 / (q_a2 q * q_a2 q * q_a2 q * q_a2 q)) * / r).
  { unfold T2. rewrite Rabs_mult, (Rabs_pos_eq (exp _)) by lra. apply Rle_trans with ((Rabs (q_a3 q) + Rabs (q_a4 q)) * (r * r * exp (- q_a2 q * r))).
    - rewrite <- Rmult_assoc. apply Rmult_le_compat_r; [lra|]. eapply Rle_trans; [apply Rabs_triang|]. rewrite !Rabs_mult, (Rabs_pos_eq r) by lra.
      pose proof (Rabs_pos (q_a3 q)). pose proof (Rabs_pos (q_a4 q)). assert (r * Rabs (q_a3 q) <= r * r * Rabs (q_a3 q)) by (apply Rmult_le_compat_r; nra). lra.
    - rewrite (Rmult_assoc (Rabs (q_a3 q) + Rabs (q_a4 q)) (256 / _) (/ r)). apply Rmult_le_compat_l; [pose proof (Rabs_pos (q_a3 q)); pose proof (Rabs_pos (q_a4 q)); lra|exact P4]. }
  assert (B3 : Rabs (r * V_polarization q r) <= Rabs (q_ac q) * / r).
  { unfold V_polarization. set (e := 1 - exp (- (r / q_rc q) ^ 6)). assert (E1 : Rabs e <= 1).
    { unfold e. set (t := (r / q_rc q) ^ 6). assert (0 <= t) by (unfold t; replace ((r / q_rc q) ^ 6) with (Rsqr ((r / q_rc q) ^ 3)) by (unfold Rsqr; ring); apply Rle_0_sqr).
      pose proof (exp_pos (- t)). assert (exp (- t) <= 1) by (rewrite <- exp_0; destruct (Req_dec t 0) as [->|Nt]; [rewrite Ropp_0; lra|left; apply exp_increasing; lra]). rewrite Rabs_pos_eq; lra. }
    replace (r * (- q_ac q / (2 * r * r * r * r) * e)) with (- q_ac q * e * (/ 2 * (/ r * / r * / r))) by (field; lra).
    rewrite !Rabs_mult, Rabs_Ropp. pose proof (Rabs_pos (q_ac q)). pose proof (Rabs_pos e). rewrite (Rabs_pos_eq (/ r)), (Rabs_pos_eq (/ 2)) by lra.
    assert (I3 : 0 <= / 2 * (/ r * / r * / r) <= / r). { assert (0 <= / r * / r <= 1) by nra. split; [assert (0 <= / r * / r * / r) by (apply Rmult_le_pos; lra); lra|nra]. }
    apply Rmult_le_compat; [apply Rmult_le_pos; lra|lra| |lra]. rewrite <- (Rmult_1_r (Rabs (q_ac q))) at 2. apply Rmult_le_compat_l; auto. }
  assert (B4 : Rabs (r * V_spin_orbit q r) <= Rabs (alpha * alpha * J) * / r).
  { unfold V_spin_orbit. fold J. pose proof (Rabs_pos (alpha * alpha * J)). destruct (q_l q <? 4)%nat; [|rewrite Rmult_0_r, Rabs_R0; apply Rmult_le_pos; lra].
    replace (r * (alpha * alpha / (4 * r * r * r) * J)) with (alpha * alpha * J * (/ 4 * (/ r * / r))) by (field; lra). rewrite Rabs_mult. apply Rmult_le_compat_l; auto.
    assert (0 <= / 4 * (/ r * / r) <= / r) by (split; nra). rewrite Rabs_pos_eq; lra. }
  replace (r * V q r + 1) with (T1 + T2 + r * V_polarization q r + r * V_spin_orbit q r) by (unfold V, V_core, charge, T1, T2; field; lra).
  unfold Rdiv at 1. rewrite !Rmult_plus_distr_r. rewrite !Rmult_plus_distr_r in B2.
  eapply Rle_trans; [apply Rabs_triang|]. apply Rplus_le_compat; [|exact B4]. eapply Rle_trans; [apply Rabs_triang|]. apply Rplus_le_compat; [|exact B3].
  eapply Rle_trans; [apply Rabs_triang|]. apply Rplus_le_compat; [exact B1|]. exact B2.
Qed.

(** Spin and orbit: the spin-orbit term is alpha^2/(2 r^3) times the eigenvalue of L.S, and its average over all states of a multiplet vanishes:
    sum over j = |l-s|, ..., l+s of (2j+1) V_so(j) is zero. *)
Definition with_j (q : qdata) (j : R) : qdata :=
  QData (q_Z q) (q_a1 q) (q_a2 q) (q_a3 q) (q_a4 q) (q_ac q) (q_rc q) (q_n q) (q_l q) j (q_energy q) (q_species q).
Lemma multiplet_sum : forall c j0 N, fold_right Rplus 0 (map (fun i => (2 * (j0 + INR i) + 1) * ((j0 + INR i) * (j0 + INR i + 1) - c)) (seq 0 N)) =
  let b := j0 + INR N in (b * b * (b * b - 1) - j0 * j0 * (j0 * j0 - 1)) / 2 - c * (b * b - j0 * j0).
Proof.
  intros c j0. induction N as [|N IH]; [cbn; field|]. rewrite seq_S, map_app, fold_right_app. cbn [map fold_right Nat.add]. cbv zeta in *.
  assert (A : forall (l : list R) z, fold_right Rplus z l = fold_right Rplus 0 l + z) by (induction l as [|u l IL]; intro z; cbn; [ring|rewrite IL; ring]).
  rewrite A, IH, S_INR. field.
Qed.
Theorem C109_multiplet : forall q r (l2 s2 : nat), INR (q_l q) = INR l2 / 2 -> spin (q_species q) = INR s2 / 2 -> r <> 0 ->
  let lo := (Nat.max l2 s2 - Nat.min l2 s2)%nat in
  fold_right Rplus 0 (map (fun i => let j := INR lo / 2 + INR i in (2 * j + 1) * V_spin_orbit (with_j q j) r) (seq 0 (Nat.min l2 s2 + 1))) = 0.
Proof.
  intros q r l2 s2 L S R0 lo. unfold V_spin_orbit. cbn [q_l q_j q_species with_j]. rewrite L, S. clear L S.
  destruct (q_l q <? 4)%nat.
  - set (c := alpha * alpha / (4 * r * r * r)). cbv zeta.
    assert (E : forall X, fold_right Rplus 0 (map (fun i => (2 * (INR lo / 2 + INR i) + 1) * (c * ((INR lo / 2 + INR i) * (INR lo / 2 + INR i + 1) - INR l2 / 2 * (INR l2 / 2 + 1) - INR s2 / 2 * (INR s2 / 2 + 1)))) X) =
      c * fold_right Rplus 0 (map (fun i => (2 * (INR lo / 2 + INR i) + 1) * ((INR lo / 2 + INR i) * (INR lo / 2 + INR i + 1) - (INR l2 / 2 * (INR l2 / 2 + 1) + INR s2 / 2 * (INR s2 / 2 + 1)))) X)).
    { induction X as [|i X IX]; cbn [map fold_right]; [ring|]. rewrite IX. cbv zeta. ring. }
    rewrite E, multiplet_sum. cbv zeta. unfold lo. destruct (Nat.le_gt_cases l2 s2) as [Q|Q].
    + rewrite Nat.max_r, Nat.min_l by lia. rewrite minus_INR, plus_INR by lia. cbn [INR]. field.
    + rewrite Nat.max_l, Nat.min_r by lia. rewrite minus_INR, plus_INR by lia. cbn [INR]. field.
  - generalize (seq 0 (Nat.min l2 s2 + 1)). cbv zeta. induction l as [|i X IX]; cbn [map fold_right]; [reflexivity|]. rewrite IX. ring.
Qed.
(** The spin is read off the last character of the name: (d - 1)/2 for a digit d, 1/2 for any other character. *)
Theorem C109_spin : forall name, (forall d, (d <= 9)%nat -> spin (name ++ String (Ascii.ascii_of_nat (48 + d)) "") = (INR d - 1) / 2) /\
  (forall c, ~ (48 <= Ascii.nat_of_ascii c <= 57)%nat -> spin (name ++ String c "") = 1 / 2).
Proof.
  intro name. assert (L : forall c, last_char (name ++ String c "") = Some c).
  { intro c. induction name as [|a n IH]; [reflexivity|]. cbn [append last_char]. rewrite IH. destruct (n ++ String c "")%string eqn:E; [destruct n; discriminate|reflexivity]. }
  unfold spin. split; [intros d Hd|intros c Hc]; rewrite L.
  - rewrite Ascii.nat_ascii_embedding by lia. replace ((48 <=? 48 + d)%nat && (48 + d <=? 57)%nat)%bool with true by (symmetry; apply Bool.andb_true_iff; split; apply Nat.leb_le; lia).
    replace (48 + d - 48)%nat with d by lia. reflexivity.
  - replace ((48 <=? Ascii.nat_of_ascii c)%nat && (Ascii.nat_of_ascii c <=? 57)%nat)%bool with false; [reflexivity|]. symmetry. apply Bool.andb_false_iff. rewrite !Nat.leb_gt. lia.
Qed.
(** Only the spin-orbit term depends on j, so that potentials of a doublet or triplet differ by a 1/r^3 term below l = 4, and agree from there on. *)
Theorem C109_fine_structure : forall q r j, V (with_j q j) r - V (with_j q (q_j q)) r =
  if (q_l q <? 4)%nat then alpha * alpha / (4 * r * r * r) * (j * (j + 1) - q_j q * (q_j q + 1)) else 0.
Proof. intros q r j. unfold V, V_core, V_polarization, V_spin_orbit, charge. cbn [q_Z q_a1 q_a2 q_a3 q_a4 q_ac q_rc q_l q_j q_species with_j]. destruct (q_l q <? 4)%nat; unfold Rdiv; ring. Qed.

(** ** Examples *)
(** The circular state n = 5, l = 4 of hydrogen: r^5 exp(-r/5) solves the radial Schroedinger equation, and so the equation of the code. *)
Definition hydrogen54 : qdata := QData 1 1 1 0 0 0 1 5 4 (9 / 2) (- au2GHz / 50) "H".
Definition circular (r : R) : R := r ^ 5 * exp (- r / 5).
Example C109_equation_nonvacuous : second_derivative circular (schroedinger hydrogen54 circular) /\
  second_derivative (scaled circular) (fun x => g hydrogen54 (x * x) * scaled circular x).
Proof.
  assert (A : second_derivative circular (schroedinger hydrogen54 circular)).
  { exists (fun r => (5 * r ^ 4 - r ^ 5 / 5) * exp (- r / 5)). intros r Hr. split.
    - unfold circular. auto_derive; auto. change (- r / 5) with (- r * / 5). field.
    - unfold schroedinger. rewrite C109_hydrogen; try reflexivity. unfold circular. cbn [q_energy q_l hydrogen54].
      assert (AU : au2GHz <> 0) by (unfold au2GHz; lra). auto_derive; auto. change (- r / 5) with (- r * / 5). replace (INR 4) with 4 by (rewrite INR_IZR_INZ; reflexivity). field. split; [exact AU|lra]. }
  split; [exact A|]. destruct (C109_equation hydrogen54 A) as (X2 & (X1 & H) & E). exists X1. intros x Hx. destruct (H x Hx) as [H1 H2]. split; [exact H1|].
  rewrite <- (proj2 (E x Hx)); [exact H2|reflexivity].
Qed.

Lemma dx_small : 0 < dx <= / 64.
Proof.
  split; [apply dx_pos|]. unfold dx. replace (Flocq.Core.Raux.bpow Flocq.Core.Zaux.radix2 (-59)) with (/ IZR 576460752303423488) by (cbn; f_equal; reflexivity).
  apply Rmult_le_reg_r with (IZR 576460752303423488); [lra|]. rewrite Rmult_assoc, Rinv_l by lra. lra.
Qed.
(** X'' = -X: the sine with the two starting values; |X| and all its derivatives are bounded by the amplitude. *)
Definition sine (A e : R) (k : nat) (t : R) : R :=
  match (k mod 4)%nat with 0%nat => A * sin (e - t) | 1%nat => - A * cos (e - t) | 2%nat => - A * sin (e - t) | _ => A * cos (e - t) end.
Example C109_convergence_nonvacuous : forall n, (2 <= n)%nat -> let e := 1 + IZR (Z.of_nat n - 1) * dx in let A := / 10 ^ 10 / sin dx in
  smooth6 (sine A e) /\ (forall t, 0 < t -> sine A e 2 t = -1 * sine A e 0 t) /\ 2 * (dx * dx * 1) <= 1 /\ (forall t, Rabs (sine A e 6 t) <= Rabs A) /\
  sine A e 0 e = 0 /\ sine A e 0 (1 + IZR (Z.of_nat n - 2) * dx) = / 10 ^ 10.
Proof.
  intros n Hn e A. pose proof dx_small as D. split; [|split; [|split; [|split; [|split]]]].
  - intros k t Hk _. destruct k as [|[|[|[|[|[|k]]]]]]; try lia; unfold sine; cbn [Nat.modulo Nat.divmod snd Nat.sub]; auto_derive; auto; unfold Rminus; ring.
  - intros t _. unfold sine; cbn [Nat.modulo Nat.divmod snd Nat.sub]. ring.
  - nra.
  - intro t. unfold sine; cbn [Nat.modulo Nat.divmod snd Nat.sub]. rewrite Rabs_mult, Rabs_Ropp. rewrite <- (Rmult_1_r (Rabs A)) at 2. apply Rmult_le_compat_l; [apply Rabs_pos|]. apply Rabs_le. pose proof (SIN_bound (e - t)). lra.
  - unfold sine; cbn [Nat.modulo Nat.divmod snd Nat.sub]. rewrite Rminus_diag_eq, sin_0 by reflexivity. ring.
  - unfold sine; cbn [Nat.modulo Nat.divmod snd Nat.sub]. replace (e - (1 + IZR (Z.of_nat n - 2) * dx)) with dx by (unfold e; rewrite !minus_IZR; ring). unfold A. field.
    assert (0 < sin dx) by (apply sin_gt_0; [lra|pose proof PI2_1; lra]). lra.
Qed.
(** g = 1: allowed by the hypotheses of C109_sign. *)
Example C109_sign_nonvacuous : 0 <= (fun _ : R => 1) 4 /\ dx * dx * (fun _ : R => 1) 4 < 12.
Proof. pose proof dx_small. split; [lra|nra]. Qed.
(** Two constant functions u = v = 1 on a grid of 200 rows beginning at 1, given by their scaled values at the rounded places. *)
Example C109_elements_nonvacuous : let Y := fun i => scaled (fun _ => 1) (grid 1 i) in let F := fun x => scaled (fun _ => 1) x * scaled (fun _ => 1) x * x ^ numerov_kernel 0 in
  grid_ok 1 200 /\ (forall x, 0 < x -> is_derive F x 1) /\
  forall t, (100 <= t < 299)%Z -> Rabs (Y (t - 100 * 1)%Z * Y (t - 100 * 1)%Z * grid 1 (t - 100 * 1) ^ numerov_kernel 0 - F (IZR t * dx)) <= / 10 ^ 12.
Proof.
  intros Y F. assert (W : forall x, 0 < x -> F x = x). { intros x Hx. unfold F. rewrite (weight (fun _ => 1) (fun _ => 1) 0 Hx). cbn. ring. }
  split; [unfold grid_ok; lia|]. split.
  - intros x Hx. apply is_derive_ext_loc with (fun x => x).
    + exists (mkposreal x Hx). intros b Hb. symmetry. apply W. unfold ball in Hb; cbn in Hb. unfold AbsRing_ball, abs, minus, plus, opp in Hb; cbn in Hb. apply Rabs_def2 in Hb. lra.
    + apply (@is_derive_id R_AbsRing).
  - intros t Ht. assert (K : WaveProofs.key 1 (t - 100 * 1) = t) by (unfold WaveProofs.key; lia).
    pose proof (@WaveProofs.grid_pos 1 (t - 100 * 1) ltac:(lia) ltac:(lia) ltac:(rewrite K; lia)) as [GP _].
    change (Y (t - 100 * 1)%Z * Y (t - 100 * 1)%Z * grid 1 (t - 100 * 1) ^ numerov_kernel 0) with (F (grid 1 (t - 100 * 1))). pose proof dx_pos as DX. assert (T1 : 100 <= IZR t <= 299) by (split; apply IZR_le; lia).
    rewrite !W by nra. pose proof (@WaveProofs.grid_near 1 (t - 100 * 1) ltac:(lia) ltac:(lia) ltac:(rewrite K; lia)) as N. rewrite K in N. pose proof WaveProofs.u_val as U. pose proof dx_small as DS.
    set (gg := grid 1 (t - 100 * 1)) in *. clearbody gg. assert (TD : 0 <= IZR t * dx <= 5) by (split; nra). set (z := IZR t * dx) in *. clearbody z. rewrite U in N. apply Rabs_le_between in N. apply Rabs_le. lra.
Qed.
(** A P doublet of rubidium: spin 1/2, l = 1. *)
Definition rubidium : qdata := QData 37 (369628474 / 10 ^ 8) (164915255 / 10 ^ 8) (- 986069196 / 10 ^ 8) (1957972 / 10 ^ 7) (9 + 76 / 1000) (15 / 10) 60 1 (3 / 2) (- 1000) "Rb".
Example C109_potential_nonvacuous : 0 < q_a1 rubidium /\ 0 < q_a2 rubidium /\ q_rc rubidium <> 0 /\ INR (q_l rubidium) = INR 2 / 2 /\ spin (q_species rubidium) = INR 1 / 2 /\
  spin "Sr3" = INR 2 / 2 /\ spin "Sr1" = INR 0 / 2 /\ (4 <= q_l hydrogen54)%nat.
Proof.
  split; [cbn; lra|]. split; [cbn; lra|]. split; [cbn; lra|]. split; [cbn; lra|]. 
  split; [change (1 / 2 = 1 / 2); reflexivity|]. split; [change ((INR 3 - 1) / 2 = INR 2 / 2); cbn; lra|]. split; [change ((INR 1 - 1) / 2 = INR 0 / 2); cbn; lra|cbn; lia].
Qed.

Print Assumptions C109_equation. Print Assumptions C109_weights. Print Assumptions C109_convergence. Print Assumptions C109_step. Print Assumptions C109_elements. Print Assumptions C109_spin. Print Assumptions C109_sign. Print Assumptions C109_hydrogen.
Print Assumptions C109_near. Print Assumptions C109_far. Print Assumptions C109_multiplet. Print Assumptions C109_fine_structure.
