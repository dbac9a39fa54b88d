From Verif Require Import Base FieldModel GreenModel GreenSpec GreenProofs TwoModel TwoSpec TwoProofs TwoProofs2 TwoProofs3.
From Coq Require Import ZArith Lia Bool Arith Reals Lra Psatz List.
Import ListNotations.
Local Open Scope R_scope.

Lemma close_weaken : forall e e' a b, e <= e' -> close e a b -> close e' a b.
Proof. intros e e' a b H [A B]. split; lra. Qed.

Lemma nz_of_dist : forall x y z, 0 < sqrt (x * x + y * y + z * z) -> nz x y z.
Proof.
  intros x y z H (-> & -> & ->). replace (0 * 0 + 0 * 0 + 0 * 0) with 0 in H by ring. rewrite sqrt_0 in H. lra.
Qed.

Lemma green3 : forall kC tol g x y z p, gtb g = true -> gsurf g = None -> gord g = 3%nat ->
  green_entry kC tol false g x y z p = dd_entry kC tol false (DDvac x y z) p.
Proof.
  intros kC tol g x y z p T S O. unfold green_entry. rewrite T, S, O. cbn [negb bind Nat.leb].
  unfold calcDD. cbn [newGreen g_plate g_x g_y g_z].
  rewrite dd_entry_sum. unfold cplus. cbn [bind]. f_equal.
  apply injective_projections; unfold cadd; cbn [fst snd]; ring.
Qed.

Lemma entry_physics : forall kC tol g p x y z, lawful p -> 0 <= tol ->
  gvx g = Some x -> gvy g = Some y -> gvz g = Some z ->
  gdist g = sqrt (x * x + y * y + z * z) -> 0 < gdist g -> gdist g <> dmax ->
  gsurf g = None -> gord g = 3%nat -> gtb g = true \/ y = 0 ->
  exists v, interaction_entry kC tol false g p = Ok v /\
    close (tol * Rabs (kC * pM1 p 1%nat * pM2 p 1%nat) * (9 + 1 / gdist g ^ 3)) v
          (dipole_dipole kC x y z (dip1 p) (dip2 p)).
Proof.
  intros kC tol g p x y z L T X Y Z D P M S O G.
  assert (nz x y z) as N by (apply nz_of_dist; lra).
  set (K := Rabs (kC * pM1 p 1%nat * pM2 p 1%nat)).
  assert (0 <= K) as K0 by apply Rabs_pos.
  assert (0 < 1 / gdist g ^ 3) as D3 by (apply Rdiv_lt_0_compat; [lra | apply pow_lt; lra]).
  assert (0 <= tol * K) as TK by (apply Rmult_le_pos; assumption).
  unfold interaction_entry. rewrite (proj2 (Reqb_false _ _) M), X, Y, Z.
  destruct (gtb g) eqn:GT.
  - assert (needs_green g = true) as NG by (unfold needs_green; rewrite GT; apply orb_true_r).
    rewrite NG, green3 by assumption.
    destruct (dd_entry_close kC tol (DDvac x y z) p L T) as (v & V & C). exists v. split; [exact V|].
    rewrite dd_exact_physics in C by exact N. eapply close_weaken; [|exact C]. fold K. nra.
  - destruct G as [G|G]; [discriminate|]. subst y.
    assert (needs_green g = false) as NG.
    { unfold needs_green. rewrite GT, S, O, Y. cbn [nonzeroR]. rewrite (proj2 (Reqb_true 0 0) eq_refl).
      cbn [negb orb]. change (3 <? 3)%nat with false. rewrite andb_false_r. reflexivity. }
    rewrite NG. destruct (Reqb x 0) eqn:X0; cbn [negb].
    + apply Reqb_true in X0. subst x. exists (mult_entry kC (gord g) (gdist g) p, 0). split; [reflexivity|].
      rewrite O, D, mult_entry3; [|exact L|].
      2:{ intros ->. apply N. auto. }
      apply close_weaken with 0; [|apply close_refl]. rewrite <- D. apply Rmult_le_pos; lra.
    + apply Reqb_false in X0. exists (angle_entry kC tol (atan2 x z) (gdist g) p, 0). split; [reflexivity|].
      pose proof (angle_entry_close kC tol x z p L T X0) as C. cbv zeta in C. rewrite <- D in C. fold K in C.
      eapply close_weaken; [|exact C]. unfold Rdiv in *. nra.
Qed.

Lemma entry_axis4 : forall kC tol g p z, lawful p -> z <> 0 -> no_cutoff tol 0 0 z p ->
  gvx g = Some 0 -> gvy g = Some 0 -> gvz g = Some z -> gdist g = Rabs z -> gdist g <> dmax ->
  gsurf g = None -> gord g = 4%nat ->
  interaction_entry kC tol false g p =
  Ok (mult_val kC 3 p * (1 / Rabs z ^ 3) + (if gtb g then z / Rabs z else 1) * mult_val kC 4 p * (1 / Rabs z ^ 4), 0).
Proof.
  intros kC tol g p z L Z N X Y Zz D M S O.
  assert (0 < Rabs z) as P by (apply Rabs_pos_lt; exact Z).
  unfold interaction_entry. rewrite (proj2 (Reqb_false _ _) M), X, Y, Zz.
  assert (needs_green g = gtb g) as NG.
  { unfold needs_green. rewrite S, O, X, Y. cbn [nonzeroR]. rewrite (proj2 (Reqb_true 0 0) eq_refl). reflexivity. }
  rewrite NG. destruct (gtb g) eqn:GT.
  - unfold green_entry. rewrite GT, S, O. cbn [negb bind Nat.leb].
    unfold calcDD, calcDQ, calcQD. cbn [newGreen g_plate g_x g_y g_z].
    rewrite green4_axis by assumption. rewrite (dd_entry_exact kC tol 0 0 z p L N).
    rewrite dd_exact_physics by (intros (_ & _ & Q); contradiction).
    rewrite <- mult_entry3 by assumption. change (0 * 0 + 0 * 0 + z * z) with (0 * 0 + 0 * 0 + z * z).
    assert (sqrt (0 * 0 + 0 * 0 + z * z) = Rabs z) as NA by (rewrite <- norm_axis; reflexivity).
    rewrite NA. unfold cplus. cbn [bind]. f_equal. unfold mult_entry. cbn [seq map fold_right Nat.sub].
    unfold cadd. apply injective_projections; cbn [fst snd]; [field; lra | ring].
  - rewrite (proj2 (Reqb_true 0 0) eq_refl). cbn [negb]. rewrite O, D. f_equal.
    unfold mult_entry. cbn [seq map fold_right Nat.sub]. apply injective_projections; cbn [fst snd]; [ring | reflexivity].
Qed.

(** ** Real scalars *)
Lemma gterm_real : forall tol g odd v, (odd = true -> Rabs g <= tol) ->
  gterm tol true g odd v = gterm tol false g odd v.
Proof.
  intros tol g odd v H. unfold gterm. destruct (Rltb tol (Rabs g)) eqn:E; [|reflexivity].
  destruct v; [|reflexivity]. destruct odd; [|reflexivity]. apply Rltb_true in E. specialize (H eq_refl). lra.
Qed.

Lemma dd_odd : forall x z i j, (i < 3)%nat -> (j < 3)%nat -> Nat.odd (3 * j + i) = true -> DDvac x 0 z i j = 0.
Proof.
  intros x z i j Hi Hj O. unfold DDvac, eye.
  destruct (idx3 _ Hi) as [-> | [-> | ->]]; destruct (idx3 _ Hj) as [-> | [-> | ->]]; cbn in O; try discriminate;
  cbn [Nat.eqb vec3]; unfold Rdiv; ring.
Qed.
Lemma dq_odd : forall x z i j k, (i < 3)%nat -> (j < 3)%nat -> (k < 3)%nat ->
  Nat.odd (9 * k + 3 * j + i) = true -> DQvac x 0 z i j k = 0 /\ QDvac x 0 z i j k = 0.
Proof.
  intros x z i j k Hi Hj Hk O. 
  assert (QDvac x 0 z i j k = 0) as E.
  { unfold QDvac, eye. cbv zeta.
    destruct (idx3 _ Hi) as [-> | [-> | ->]]; destruct (idx3 _ Hj) as [-> | [-> | ->]];
    destruct (idx3 _ Hk) as [-> | [-> | ->]]; cbn in O; try discriminate;
    cbn [Nat.eqb vec3]; unfold Rdiv; ring. }
  split; [rewrite dq_is_minus_qd, E; ring | exact E].
Qed.

Lemma entry_real : forall kC tol g p, 0 <= tol -> gsurf g = None -> gvy g = Some 0 ->
  interaction_entry kC tol true g p = interaction_entry kC tol false g p.
Proof.
  intros kC tol g p T S Y. unfold interaction_entry. rewrite Y.
  destruct (Reqb (gdist g) dmax); [reflexivity|].
  destruct (gvx g) as [x|]; [|reflexivity]. destruct (gvz g) as [z|]; [|reflexivity].
  destruct (needs_green g); [|reflexivity].
  assert (dd_entry kC tol true (DDvac x 0 z) p = dd_entry kC tol false (DDvac x 0 z) p) as E1.
  { unfold dd_entry. f_equal. apply map_ext_in. intros [i j] I. apply in_idx2 in I. cbn [fst snd] in I.
    apply gterm_real. intros O. rewrite dd_odd by tauto. rewrite Rabs_R0. exact T. }
  assert (dq_entry kC tol true (DQvac x 0 z) p = dq_entry kC tol false (DQvac x 0 z) p) as E2.
  { unfold dq_entry. f_equal. apply map_ext_in. intros [[i j] k] I. apply in_idx3s in I. cbn [fst snd] in I.
    apply gterm_real. intros O. destruct (dq_odd x z i j k) as [-> _]; try tauto. rewrite Rabs_R0. exact T. }
  assert (qd_entry kC tol true (QDvac x 0 z) p = qd_entry kC tol false (QDvac x 0 z) p) as E3.
  { unfold qd_entry. f_equal. apply map_ext_in. intros [[i j] k] I. apply in_idx3s in I. cbn [fst snd] in I.
    apply gterm_real. intros O. destruct (dq_odd x z i j k) as [_ ->]; try tauto. rewrite Rabs_R0. exact T. }
  unfold green_entry. rewrite S. cbn [bind]. unfold calcDD, calcDQ, calcQD. cbn [newGreen g_plate g_x g_y g_z].
  rewrite E1, E2, E3. reflexivity.
Qed.

(** ** Errors *)
Lemma dq_ok : forall kC tol G p, exists v, dq_entry kC tol false G p = Ok v.
Proof.
  intros. unfold dq_entry.
  rewrite (map_ext _ (fun t => Ok (rmul (trunc tol (G (fst (fst t)) (snd (fst t)) (snd t))) (coef (dq_val kC tol p (fst (fst t)) (snd (fst t)) (snd t)))))).
  - rewrite sumres_ok. eauto.
  - intros [[i j] k]. apply gterm_complex.
Qed.
Lemma qd_ok : forall kC tol G p, exists v, qd_entry kC tol false G p = Ok v.
Proof.
  intros. unfold qd_entry.
  rewrite (map_ext _ (fun t => Ok (rmul (trunc tol (G (fst (fst t)) (snd (fst t)) (snd t))) (coef (qd_val kC tol p (fst (fst t)) (snd (fst t)) (snd t)))))).
  - rewrite sumres_ok. eauto.
  - intros [[i j] k]. apply gterm_complex.
Qed.

Lemma green_error : forall kC tol g x y z p,
  gtb g = true -> (gsurf g = None) -> 
  (green_entry kC tol false g x y z p = Throw <-> (5 <= gord g)%nat) /\
  green_entry kC tol false g x y z p <> UB.
Proof.
  intros kC tol g x y z p T S. unfold green_entry. rewrite T, S. cbn [negb bind].
  destruct (Nat.leb 5 (gord g)) eqn:O.
  - apply Nat.leb_le in O. split; [tauto | discriminate].
  - apply Nat.leb_gt in O. rewrite dd_entry_sum.
    destruct (dq_ok kC tol (calcDQ (newGreen x y z)) p) as [a A].
    destruct (qd_ok kC tol (calcQD (newGreen x y z)) p) as [b B].
    rewrite A, B. unfold cplus.
    destruct (Nat.leb 3 (gord g)), (Nat.leb 4 (gord g)); cbn [bind]; (split; [split; [discriminate | lia] | discriminate]).
Qed.


(** ** Trace *)
Lemma qtab_m0 : forall j k q m2 m0, (j < 3)%nat -> (k < 3)%nat ->
  qtab j k q m2 m0 = qtab j k q m2 0 + (if Z.eqb q 0 then eye j k * (m0 / 6) else 0).
Proof.
  intros j k q m2 m0 Hj Hk.
  destruct (idx3 _ Hj) as [-> | [-> | ->]]; destruct (idx3 _ Hk) as [-> | [-> | ->]];
  unfold qtab, eye; cbv zeta; cbn [Nat.eqb]; destruct (Z.eqb q 0) eqn:Q;
  try (apply Z.eqb_eq in Q; subst q; cbn [Z.abs Z.eqb]; lra);
  repeat match goal with |- context [(?a =? ?b)%Z] => destruct (a =? b)%Z end; lra.
Qed.

Lemma csum27_add : forall f g, csum27 (fun i j k => cadd (f i j k) (g i j k)) = cadd (csum27 f) (csum27 g).
Proof.
  intros f g. unfold csum27. induction idx3s as [|t l IH]; cbn [map fold_right].
  - unfold cadd. apply injective_projections; cbn [fst snd]; ring.
  - rewrite IH. unfold cadd. apply injective_projections; cbn [fst snd]; ring.
Qed.

Lemma csum27_trace23 : forall (G : ten3) (d : nat -> cx),
  (forall i, (i < 3)%nat -> G i 0%nat 0%nat + G i 1%nat 1%nat + G i 2%nat 2%nat = 0) ->
  csum27 (fun i j k => rmul (G i j k) (rmul (eye j k) (d i))) = (0, 0).
Proof.
  intros G d T. pose proof (T 0%nat ltac:(lia)) as T0. pose proof (T 1%nat ltac:(lia)) as T1. pose proof (T 2%nat ltac:(lia)) as T2.
  assert (G 0%nat 2%nat 2%nat = - G 0%nat 0%nat 0%nat - G 0%nat 1%nat 1%nat) as E0 by lra.
  assert (G 1%nat 2%nat 2%nat = - G 1%nat 0%nat 0%nat - G 1%nat 1%nat 1%nat) as E1 by lra.
  assert (G 2%nat 2%nat 2%nat = - G 2%nat 0%nat 0%nat - G 2%nat 1%nat 1%nat) as E2 by lra.
  unfold csum27. apply injective_projections; rewrite ?fst_sum, ?snd_sum;
  unfold idx3s, three; cbn [list_prod map app fold_right]; unfold eye, rmul; cbn [fst snd Nat.eqb];
  rewrite E0, E1, E2; ring.
Qed.
Lemma csum27_trace12 : forall (G : ten3) (d : nat -> cx),
  (forall i, (i < 3)%nat -> G 0%nat 0%nat i + G 1%nat 1%nat i + G 2%nat 2%nat i = 0) ->
  csum27 (fun i j k => rmul (G i j k) (rmul (eye i j) (d k))) = (0, 0).
Proof.
  intros G d T. pose proof (T 0%nat ltac:(lia)) as T0. pose proof (T 1%nat ltac:(lia)) as T1. pose proof (T 2%nat ltac:(lia)) as T2.
  assert (G 2%nat 2%nat 0%nat = - G 0%nat 0%nat 0%nat - G 1%nat 1%nat 0%nat) as E0 by lra.
  assert (G 2%nat 2%nat 1%nat = - G 0%nat 0%nat 1%nat - G 1%nat 1%nat 1%nat) as E1 by lra.
  assert (G 2%nat 2%nat 2%nat = - G 0%nat 0%nat 2%nat - G 1%nat 1%nat 2%nat) as E2 by lra.
  unfold csum27. apply injective_projections; rewrite ?fst_sum, ?snd_sum;
  unfold idx3s, three; cbn [list_prod map app fold_right]; unfold eye, rmul; cbn [fst snd Nat.eqb];
  rewrite E0, E1, E2; ring.
Qed.

Lemma QD_trace12 : forall x y z k, nz x y z -> (k < 3)%nat ->
  QDvac x y z 0%nat 0%nat k + QDvac x y z 1%nat 1%nat k + QDvac x y z 2%nat 2%nat k = 0.
Proof. intros x y z k N Hk. pose proof (QD_traceless x y z k Hk N) as T. unfold sum3 in T. lra. Qed.
Lemma DQ_trace23 : forall x y z k, nz x y z -> (k < 3)%nat ->
  DQvac x y z k 0%nat 0%nat + DQvac x y z k 1%nat 1%nat + DQvac x y z k 2%nat 2%nat = 0.
Proof.
  intros x y z k N Hk. pose proof (QD_trace12 x y z k N Hk) as T. rewrite !dq_is_minus_qd.
  assert (forall j, QDvac x y z k j j = QDvac x y z j j k) as S.
  { intros j. destruct (QD_sym x y z k j j) as [-> _]. destruct (QD_sym x y z j k j) as [_ ->]. reflexivity. }
  rewrite !S. lra.
Qed.

Lemma quad_m0 : forall j k q m2 m0, (j < 3)%nat -> (k < 3)%nat ->
  phase (qphase j k) (qtab j k q m2 m0) =
  cadd (phase (qphase j k) (qtab j k q m2 0)) (rmul (eye j k) (if Z.eqb q 0 then m0 / 6 else 0, 0)).
Proof.
  intros j k q m2 m0 Hj Hk. rewrite (qtab_m0 j k q m2 m0 Hj Hk).
  destruct (idx3 _ Hj) as [-> | [-> | ->]]; destruct (idx3 _ Hk) as [-> | [-> | ->]];
  unfold phase, qphase, cadd, rmul, eye; cbn [Nat.eqb negb andb orb];
  apply injective_projections; cbn [fst snd]; destruct (Z.eqb q 0); ring.
Qed.

(** The rank-0 matrix element has no influence. *)
Lemma trace_free : forall kC tol x y z p p', nz x y z -> lawful p -> lawful p' ->
  no_cutoff tol x y z p -> no_cutoff tol x y z p' ->
  pq1 p = pq1 p' -> pq2 p = pq2 p' ->
  (forall k, (1 <= k)%nat -> pM1 p k = pM1 p' k /\ pM2 p k = pM2 p' k) ->
  dq_entry kC tol false (DQvac x y z) p = dq_entry kC tol false (DQvac x y z) p' /\
  qd_entry kC tol false (QDvac x y z) p = qd_entry kC tol false (QDvac x y z) p'.
Proof.
  intros kC tol x y z p p' N L L' C C' Q1 Q2 E.
  destruct (E 1%nat) as [E1 E1']; [lia|]. destruct (E 2%nat) as [E2 E2']; [lia|].
  rewrite (dq_entry_exact kC tol x y z p L C), (dq_entry_exact kC tol x y z p' L' C').
  rewrite (qd_entry_exact kC tol x y z p L C), (qd_entry_exact kC tol x y z p' L' C').
  split; f_equal.
  - assert (forall p1, csum27 (fun i j k => rmul (DQvac x y z i j k) (rmul kC (cmul (dip1 p1 i) (quad2 p1 j k))))
       = csum27 (fun i j k => rmul (DQvac x y z i j k) (rmul kC (cmul (dip1 p1 i) (phase (qphase j k) (qtab j k (pq2 p1) (pM2 p1 2%nat) 0)))))) as F.
    { intros p1.
      rewrite (csum27_ext _ (fun i j k => cadd (rmul (DQvac x y z i j k) (rmul kC (cmul (dip1 p1 i) (phase (qphase j k) (qtab j k (pq2 p1) (pM2 p1 2%nat) 0)))))
         (rmul (DQvac x y z i j k) (rmul (eye j k) (rmul kC (cmul (dip1 p1 i) (if Z.eqb (pq2 p1) 0 then pM2 p1 0%nat / 6 else 0, 0))))))).
      2:{ intros i j k Hi Hj Hk. unfold quad2. rewrite quad_m0 by assumption. unfold cadd, rmul, cmul.
          apply injective_projections; cbn [fst snd]; ring. }
      rewrite csum27_add.
      rewrite (csum27_trace23 (DQvac x y z) (fun i => rmul kC (cmul (dip1 p1 i) (if Z.eqb (pq2 p1) 0 then pM2 p1 0%nat / 6 else 0, 0)))).
      - unfold cadd. apply injective_projections; cbn [fst snd]; ring.
      - intros i Hi. apply DQ_trace23; assumption. }
    rewrite (F p), (F p'). apply csum27_ext. intros i j k Hi Hj Hk. unfold dip1. rewrite Q1, Q2, E1, E2'. reflexivity.
  - assert (forall p1, csum27 (fun i j k => rmul (QDvac x y z i j k) (rmul kC (cmul (quad1 p1 i j) (dip2 p1 k))))
       = csum27 (fun i j k => rmul (QDvac x y z i j k) (rmul kC (cmul (phase (qphase i j) (qtab i j (pq1 p1) (pM1 p1 2%nat) 0)) (dip2 p1 k))))) as F.
    { intros p1.
      rewrite (csum27_ext _ (fun i j k => cadd (rmul (QDvac x y z i j k) (rmul kC (cmul (phase (qphase i j) (qtab i j (pq1 p1) (pM1 p1 2%nat) 0)) (dip2 p1 k))))
         (rmul (QDvac x y z i j k) (rmul (eye i j) (rmul kC (cmul (if Z.eqb (pq1 p1) 0 then pM1 p1 0%nat / 6 else 0, 0) (dip2 p1 k))))))).
      2:{ intros i j k Hi Hj Hk. unfold quad1. rewrite quad_m0 by assumption. unfold cadd, rmul, cmul.
          apply injective_projections; cbn [fst snd]; ring. }
      rewrite csum27_add.
      rewrite (csum27_trace12 (QDvac x y z) (fun k => rmul kC (cmul (if Z.eqb (pq1 p1) 0 then pM1 p1 0%nat / 6 else 0, 0) (dip2 p1 k)))).
      - unfold cadd. apply injective_projections; cbn [fst snd]; ring.
      - intros i Hi. apply QD_trace12; assumption. }
    rewrite (F p), (F p'). apply csum27_ext. intros i j k Hi Hj Hk. unfold dip2. rewrite Q1, Q2, E1', E2. reflexivity.
Qed.
