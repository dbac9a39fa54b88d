From Verif Require Import Base FieldModel GreenModel GreenSpec GreenProofs TwoModel TwoSpec.
From Coq Require Import ZArith Lia Bool Arith Reals Lra Psatz List.
Import ListNotations.
Local Open Scope R_scope.

Lemma Reqb_true : forall a b, Reqb a b = true <-> a = b.
Proof. intros. unfold Reqb. destruct (Req_EM_T a b); split; intros; congruence. Qed.
Lemma Reqb_false : forall a b, Reqb a b = false <-> a <> b.
Proof. intros. unfold Reqb. destruct (Req_EM_T a b); split; intros; congruence. Qed.
Lemma Rltb_true : forall a b, Rltb a b = true <-> a < b.
Proof. intros. unfold Rltb. destruct (Rlt_dec a b); split; intros; auto; discriminate || contradiction. Qed.
Lemma Rltb_false : forall a b, Rltb a b = false <-> b <= a.
Proof. intros. unfold Rltb. destruct (Rlt_dec a b); split; intros; try lra; try discriminate; reflexivity. Qed.

Lemma dmax_pos : 0 < dmax.
Proof.
  unfold dmax. apply Rmult_lt_0_compat; [|apply pow_lt; lra].
  assert (1 < 2 ^ 52) by (apply Rlt_pow_R1; [lra|lia]).
  assert (/ 2 ^ 52 < 1) by (rewrite <- Rinv_1; apply Rinv_lt_contravar; lra). lra.
Qed.

(** ** Geometry *)
Definition geo_ok (g : geo) : Prop :=
  0 < gdist g /\ exists x y z, gvx g = Some x /\ gvy g = Some y /\ gvz g = Some z /\
    gdist g = sqrt (x * x + y * y + z * z).

Lemma geo_ok_new : geo_ok newGeo.
Proof.
  split; [apply dmax_pos|]. exists 0, 0, dmax. repeat split; auto. cbn [gdist newGeo].
  replace (0 * 0 + 0 * 0 + dmax * dmax) with (dmax * dmax) by ring.
  symmetry. apply sqrt_square. pose proof dmax_pos; lra.
Qed.

Lemma sqrt_scale : forall a x y z, 0 <= a ->
  sqrt (a * x * (a * x) + a * y * (a * y) + a * z * (a * z)) = a * sqrt (x * x + y * y + z * z).
Proof.
  intros. replace (a * x * (a * x) + a * y * (a * y) + a * z * (a * z)) with ((a * a) * (x * x + y * y + z * z)) by ring.
  rewrite sqrt_mult_alt by nra. rewrite sqrt_square by assumption. reflexivity.
Qed.

Lemma geo_ok_step : forall c g,
  match c with SetDistance d => 0 < d | SetVector x y z => ~ (x = 0 /\ y = 0 /\ z = 0) | _ => True end ->
  geo_ok g -> geo_ok (fst (gsetter c g)).
Proof.
  intros c g Hc (P & x & y & z & X & Y & Z & D). unfold gsetter. destruct (gfrozen g).
  { split; [exact P|]. exists x, y, z. auto. }
  destruct c as [b|[d|]|d|u v w|a|o].
  - destruct b, (gsurf g); (split; [exact P|]; exists x, y, z; cbn; auto).
  - split; [exact P|]; exists x, y, z; cbn; auto.
  - split; [exact P|]; exists x, y, z; cbn; auto.
  - split; [exact Hc|]. exists (d / gdist g * x), (d / gdist g * y), (d / gdist g * z). cbn.
    rewrite X, Y, Z. unfold scale. destruct (Reqb (gdist g) 0) eqn:E; [apply Reqb_true in E; lra|].
    assert (forall t, Some (t / gdist g * d) = Some (d / gdist g * t)) as Q.
    { intros. f_equal. field. lra. }
    rewrite !Q. repeat split; auto.
    rewrite sqrt_scale. { rewrite <- D. field. lra. }
    apply Rlt_le. apply Rdiv_lt_0_compat; assumption.
  - split; [cbn; apply sqrt_lt_R0; apply nz_pos; exact Hc|]. exists u, v, w. cbn. auto.
  - split; [exact P|]. exists (gdist g * sin a), 0, (gdist g * cos a). cbn. repeat split; auto.
    replace (gdist g * sin a * (gdist g * sin a) + 0 * 0 + gdist g * cos a * (gdist g * cos a))
      with (gdist g * gdist g * (sin a * sin a + cos a * cos a)) by ring.
    pose proof (sin2_cos2 a) as SC. unfold Rsqr in SC. rewrite SC, Rmult_1_r.
    symmetry. apply sqrt_square. lra.
  - split; [exact P|]; exists x, y, z; cbn; auto.
Qed.

Lemma geo_ok_run : forall h g, positive_args h -> geo_ok g -> geo_ok (gsets g h).
Proof.
  induction h as [|c h IH]; intros g H G; [exact G|]. cbn [gsets]. apply IH.
  - intros c' I. apply H. right. exact I.
  - apply geo_ok_step; [apply (H c); left; reflexivity | exact G].
Qed.

Lemma fst_gsetter_frozen : forall c g, gfrozen (fst (gsetter c g)) = gfrozen g.
Proof.
  intros. unfold gsetter. destruct (gfrozen g) eqn:E; [cbn; exact E|].
  destruct c as [b|[d|]|d|u v w|a|o]; cbn; auto. destruct b, (gsurf g); reflexivity.
Qed.

(** ** dipole-dipole by the Green tensor *)
Lemma sqrt2_pos : 0 < sqrt 2. Proof. apply sqrt_lt_R0. lra. Qed.
Lemma sqrt2_sq : sqrt 2 * sqrt 2 = 2. Proof. apply sqrt_sqrt. lra. Qed.
Lemma s2 : (1 / sqrt 2) * (1 / sqrt 2) = 1 / 2.
Proof. pose proof sqrt2_pos. pose proof sqrt2_sq as E. rewrite <- E at 3. field. lra. Qed.
Lemma s2_le : 0 < 1 / sqrt 2 <= 1.
Proof.
  pose proof sqrt2_pos. split; [apply Rdiv_lt_0_compat; lra|].
  apply Rmult_le_reg_r with (sqrt 2); [lra|]. unfold Rdiv. rewrite Rmult_1_l, Rinv_l, Rmult_1_l by lra.
  rewrite <- sqrt_1 at 1. apply sqrt_le_1_alt. lra.
Qed.

Definition coef (v : option cx) : cx := match v with Some v => v | None => (0, 0) end.
Definition trunc (tol g : R) : R := if Rltb tol (Rabs g) then g else 0.

Lemma trunc_close : forall tol g, 0 <= tol -> Rabs (trunc tol g - g) <= tol.
Proof.
  intros. unfold trunc. destruct (Rltb tol (Rabs g)) eqn:E.
  - rewrite Rminus_diag_eq by reflexivity. rewrite Rabs_R0. assumption.
  - apply Rltb_false in E. rewrite Rminus_0_l, Rabs_Ropp. exact E.
Qed.

Lemma gterm_complex : forall tol g odd v, gterm tol false g odd v = Ok (rmul (trunc tol g) (coef v)).
Proof.
  intros. unfold gterm, trunc, rmul. destruct (Rltb tol (Rabs g)).
  - destruct v as [v|]; cbn; f_equal; apply injective_projections; cbn; ring.
  - f_equal. apply injective_projections; cbn; ring.
Qed.

Lemma sumres_ok : forall A (f : A -> cx) l,
  sumres (map (fun a => Ok (f a)) l) = Ok (fold_right cadd (0, 0) (map f l)).
Proof. induction l; cbn; [reflexivity|]. rewrite IHl. reflexivity. Qed.

Lemma dd_entry_sum : forall kC tol G p, dd_entry kC tol false G p =
  Ok (fold_right cadd (0, 0) (map (fun ij => rmul (trunc tol (G (fst ij) (snd ij))) (coef (dd_val kC p (fst ij) (snd ij)))) idx2)).
Proof.
  intros. unfold dd_entry. rewrite <- sumres_ok. f_equal. apply map_ext.
  intros [i j]. cbn [fst snd]. apply gterm_complex.
Qed.

Lemma q_cases : forall q : Z, (Z.abs q <= 1)%Z -> (q = -1 \/ q = 0 \/ q = 1)%Z.
Proof. intros. lia. Qed.

Lemma vecentry_cart : forall i q d, (i < 3)%nat -> (Z.abs q <= 1)%Z ->
  rmul d (cart i q) = match vecentry i q d with
                      | Some v => phase (Nat.eqb i 1) v
                      | None => (0, 0)
                      end.
Proof.
  intros i q d Hi Hq. destruct (q_cases q Hq) as [-> | [-> | ->]];
  destruct (idx3 _ Hi) as [-> | [-> | ->]]; unfold rmul; cbn -[sqrt];
  apply injective_projections; cbn -[sqrt]; lra.
Qed.

Lemma rmul_cmul : forall a b u v, cmul (rmul a u) (rmul b v) = rmul (a * b) (cmul u v).
Proof. intros. unfold cmul, rmul. apply injective_projections; cbn; ring. Qed.

Lemma dd_coef : forall kC p i j, lawful p -> (i < 3)%nat -> (j < 3)%nat ->
  coef (dd_val kC p i j) = rmul (- kC) (cmul (dip1 p i) (dip2 p j)).
Proof.
  intros kC p i j (L1 & L2 & L3 & L4) Hi Hj. unfold dd_val.
  destruct (psel1 p 1 && psel2 p 1) eqn:S.
  - apply andb_true_iff in S. destruct S as [S1 S2].
    apply L3 in S1. apply L4 in S2. unfold dip1, dip2.
    rewrite (vecentry_cart _ _ _ Hi S1), (vecentry_cart _ _ _ Hj S2).
    destruct (vecentry i (pq1 p) (pM1 p 1)) as [v1|]; destruct (vecentry j (pq2 p) (pM2 p 1)) as [v2|]; cbn [coef].
    + destruct (idx3 _ Hi) as [-> | [-> | ->]]; destruct (idx3 _ Hj) as [-> | [-> | ->]]; cbn;
      unfold rmul, cmul; apply injective_projections; cbn; ring.
    + unfold rmul, cmul; apply injective_projections; cbn; ring.
    + unfold rmul, cmul; apply injective_projections; cbn; ring.
    + unfold rmul, cmul; apply injective_projections; cbn; ring.
  - apply andb_false_iff in S. unfold dip1, dip2. rewrite rmul_cmul.
    assert (pM1 p 1%nat * pM2 p 1%nat = 0) as Z.
    { destruct S as [S|S]; [rewrite (L1 _ S) | rewrite (L2 _ S)]; ring. }
    rewrite Z. unfold coef, rmul. apply injective_projections; cbn; ring.
Qed.

Lemma close_add : forall e1 e2 a b c d, close e1 a b -> close e2 c d -> close (e1 + e2) (cadd a c) (cadd b d).
Proof.
  intros e1 e2 a b c d [A1 A2] [B1 B2]. unfold close, cadd. cbn [fst snd]. split.
  - replace (fst a + fst c - (fst b + fst d)) with ((fst a - fst b) + (fst c - fst d)) by ring.
    eapply Rle_trans; [apply Rabs_triang|]. lra.
  - replace (snd a + snd c - (snd b + snd d)) with ((snd a - snd b) + (snd c - snd d)) by ring.
    eapply Rle_trans; [apply Rabs_triang|]. lra.
Qed.

Lemma close_refl : forall a, close 0 a a.
Proof. intros. unfold close. rewrite !Rminus_diag_eq by reflexivity. rewrite Rabs_R0. lra. Qed.

Lemma close_rmul : forall tol g c M, 0 <= tol -> Rabs (fst c) <= M -> Rabs (snd c) <= M ->
  close (tol * M) (rmul (trunc tol g) c) (rmul g c).
Proof.
  intros tol g c M T A B. pose proof (trunc_close tol g T) as TC. unfold close, rmul. cbn [fst snd].
  replace (trunc tol g * fst c - g * fst c) with ((trunc tol g - g) * fst c) by ring.
  replace (trunc tol g * snd c - g * snd c) with ((trunc tol g - g) * snd c) by ring.
  rewrite !Rabs_mult. split; apply Rmult_le_compat; auto using Rabs_pos.
Qed.

Lemma close_sum : forall A (f g : A -> cx) e l, (forall a, In a l -> close e (f a) (g a)) ->
  close (INR (length l) * e) (fold_right cadd (0, 0) (map f l)) (fold_right cadd (0, 0) (map g l)).
Proof.
  induction l as [|a l IH]; intros H.
  - cbn. rewrite Rmult_0_l. apply close_refl.
  - cbn [map fold_right length]. rewrite S_INR.
    replace ((INR (length l) + 1) * e) with (e + INR (length l) * e) by ring.
    apply close_add; [apply H; left; reflexivity | apply IH; intros; apply H; right; assumption].
Qed.

Lemma cart_bound : forall i q, Rabs (fst (cart i q)) <= 1 /\ Rabs (snd (cart i q)) <= 1 /\
  (fst (cart i q) = 0 \/ snd (cart i q) = 0).
Proof.
  intros. pose proof s2_le as B.
  assert (Rabs (1 / sqrt 2) <= 1) as B1 by (rewrite Rabs_right; lra).
  assert (Rabs (- (1 / sqrt 2)) <= 1) as B2 by (rewrite Rabs_Ropp; exact B1).
  assert (Rabs 0 <= 1) by (rewrite Rabs_R0; lra). assert (Rabs 1 <= 1) by (rewrite Rabs_R1; lra).
  destruct i as [|[|i]]; unfold cart; repeat destruct (_ =? _)%Z; cbn -[sqrt Rabs]; auto.
Qed.

Lemma prod_bound : forall u v, Rabs u <= 1 -> Rabs v <= 1 -> Rabs (u * v) <= 1.
Proof. intros. rewrite Rabs_mult. pose proof (Rabs_pos u). pose proof (Rabs_pos v). nra. Qed.

Lemma cart_prod_bound : forall i j q r,
  Rabs (fst (cmul (cart i q) (cart j r))) <= 1 /\ Rabs (snd (cmul (cart i q) (cart j r))) <= 1.
Proof.
  intros. destruct (cart_bound i q) as (A1 & A2 & A3). destruct (cart_bound j r) as (B1 & B2 & B3).
  unfold cmul. cbn [fst snd].
  destruct A3 as [E|E]; rewrite E, ?Rmult_0_l, ?Rminus_0_l, ?Rplus_0_l, ?Rminus_0_r, ?Rplus_0_r, ?Rabs_Ropp;
  split; apply prod_bound; assumption.
Qed.

Definition dd_exact (kC : R) (G : mat3) (p : pdata) : cx :=
  fold_right cadd (0, 0) (map (fun ij => rmul (G (fst ij) (snd ij))
     (rmul (- kC) (cmul (dip1 p (fst ij)) (dip2 p (snd ij))))) idx2).

Lemma in_idx2 : forall ij, In ij idx2 -> (fst ij < 3)%nat /\ (snd ij < 3)%nat.
Proof.
  intros [i j] H. apply in_prod_iff in H. cbn in H. cbn [fst snd]. lia.
Qed.

Lemma dd_entry_close : forall kC tol G p, lawful p -> 0 <= tol ->
  exists v, dd_entry kC tol false G p = Ok v /\
    close (9 * (tol * Rabs (kC * pM1 p 1%nat * pM2 p 1%nat))) v (dd_exact kC G p).
Proof.
  intros kC tol G p L T. rewrite dd_entry_sum. eexists. split; [reflexivity|].
  unfold dd_exact. replace 9 with (INR (length idx2)) by (cbn; lra).
  apply close_sum. intros ij I. apply in_idx2 in I. destruct I as [I J].
  rewrite (dd_coef kC p _ _ L I J).
  assert (forall u, Rabs u <= 1 -> Rabs (- kC * (pM1 p 1%nat * pM2 p 1%nat * u)) <= Rabs (kC * pM1 p 1%nat * pM2 p 1%nat)) as Q.
  { intros u Hu. replace (- kC * (pM1 p 1%nat * pM2 p 1%nat * u)) with (- (kC * pM1 p 1%nat * pM2 p 1%nat * u)) by ring.
    rewrite Rabs_Ropp, Rabs_mult. pose proof (Rabs_pos (kC * pM1 p 1%nat * pM2 p 1%nat)). nra. }
  destruct (cart_prod_bound (fst ij) (snd ij) (pq1 p) (pq2 p)) as [B1 B2].
  apply close_rmul; [exact T | |]; unfold dip1, dip2; rewrite rmul_cmul; unfold rmul; cbn [fst snd];
  apply Q; assumption.
Qed.

Lemma dd_exact_physics : forall kC x y z p, nz x y z ->
  dd_exact kC (DDvac x y z) p = dipole_dipole kC x y z (dip1 p) (dip2 p).
Proof.
  intros kC x y z p H. pose proof (norm_pos _ _ _ H) as N.
  unfold dd_exact, dipole_dipole. cbv zeta. change (sqrt (x * x + y * y + z * z)) with (norm3 x y z).
  unfold idx2, three. cbn [list_prod app map fold_right fst snd].
  unfold dot, csum3.
  generalize (dip1 p 0), (dip1 p 1), (dip1 p 2), (dip2 p 0), (dip2 p 1), (dip2 p 2).
  intros [a0 a0'] [a1 a1'] [a2 a2'] [b0 b0'] [b1 b1'] [b2 b2'].
  unfold DDvac, eye, cadd, csub, cmul, rmul. cbn [Nat.eqb vec3 fst snd].
  apply injective_projections; cbn [fst snd]; field; lra.
Qed.
