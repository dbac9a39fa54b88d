(** C60, C65, C66: geometry of the two-atom system and the interaction built from it.

    [gsets newGeo h]: the geometry after the setter calls [h] on a new system (TwoModel);
    [gdist], [gvx], [gvy], [gvz]: distance and distance vector ([None]: NaN).
    [interaction_entry kC tol isreal g p]: the matrix element that the interaction adds to the
    Hamiltonian for a pair of two-atom states with one-atom matrix elements [p]. *)
From Verif Require Import Base FieldModel GreenModel GreenSpec GreenProofs TwoModel TwoSpec TwoProofs TwoProofs2 TwoProofs3 TwoProofs4.
From Coq Require Import ZArith Lia Bool Arith Reals Lra Psatz List.
Import ListNotations.
Local Open Scope R_scope.

(** *** C60 *)

(** The stored distance is positive and is the length of the stored vector. *)
Theorem C60_length : forall h, positive_args h ->
  0 < gdist (gsets newGeo h) /\
  exists x y z, gvx (gsets newGeo h) = Some x /\ gvy (gsets newGeo h) = Some y /\ gvz (gsets newGeo h) = Some z /\
    gdist (gsets newGeo h) = sqrt (x * x + y * y + z * z).
Proof. intros h H. exact (geo_ok_run h newGeo H geo_ok_new). Qed.
Print Assumptions C60_length.

(** setDistance(d) scales the vector, i.e. keeps the direction; setAngle(a) gives d (sin a, 0, cos a);
    setDistanceVector stores the vector. *)
Theorem C60_setters : forall h g, positive_args h -> g = gsets newGeo h ->
  exists x y z, gvx g = Some x /\ gvy g = Some y /\ gvz g = Some z /\ gfrozen g = false /\
  (forall d, let g' := fst (gsetter (SetDistance d) g) in
     gdist g' = d /\ gvx g' = Some (x / gdist g * d) /\ gvy g' = Some (y / gdist g * d) /\ gvz g' = Some (z / gdist g * d)) /\
  (forall a, let g' := fst (gsetter (SetAngle a) g) in
     gdist g' = gdist g /\ gvx g' = Some (gdist g * sin a) /\ gvy g' = Some 0 /\ gvz g' = Some (gdist g * cos a)) /\
  (forall u v w, let g' := fst (gsetter (SetVector u v w) g) in
     gvx g' = Some u /\ gvy g' = Some v /\ gvz g' = Some w).
Proof.
  intros h g H ->.
  assert (F : forall h g, gfrozen (gsets g h) = gfrozen g).
  { clear. induction h as [|c h IH]; intros g; [reflexivity|]. cbn [gsets]. rewrite IH. apply fst_gsetter_frozen. }
  destruct (geo_ok_run h newGeo H geo_ok_new) as (P & x & y & z & X & Y & Z & D).
  specialize (F h newGeo). cbn [gfrozen newGeo] in F.
  exists x, y, z. split; [exact X|]. split; [exact Y|]. split; [exact Z|]. split; [exact F|].
  unfold gsetter. rewrite F. split; [|split].
  - intros d. cbn. rewrite X, Y, Z. unfold scale. rewrite (proj2 (Reqb_false (gdist (gsets newGeo h)) 0)) by lra.
    auto.
  - intros a. cbn. auto.
  - intros u v w. cbn. auto.
Qed.
Print Assumptions C60_setters.

(** The order of setDistance and setAngle does not matter, and the last setDistance wins. *)
Theorem C60_commute : forall h d d' a, positive_args h -> 0 < d -> 0 < d' ->
  gsets newGeo (h ++ [SetDistance d; SetAngle a]) = gsets newGeo (h ++ [SetAngle a; SetDistance d]) /\
  gsets newGeo (h ++ [SetDistance d'; SetDistance d]) = gsets newGeo (h ++ [SetDistance d]) /\
  gsets newGeo (h ++ [SetAngle d'; SetAngle a]) = gsets newGeo (h ++ [SetAngle a]).
Proof.
  intros h d d' a H D D'.
  assert (A : forall h1 h2 g, gsets g (h1 ++ h2) = gsets (gsets g h1) h2).
  { clear. induction h1 as [|c h1 IH]; intros; [reflexivity|]. cbn [app gsets]. apply IH. }
  destruct (C60_setters h _ H eq_refl) as (x & y & z & X & Y & Z & F & _).
  destruct (C60_length h H) as (P & _).
  rewrite !A. set (g := gsets newGeo h) in *. clearbody g.
  destruct g as [f dist vx vy vz t s o]. cbn [gvx gvy gvz gfrozen gdist] in *. subst vx vy vz f.
  unfold gsets, gsetter. cbn [gfrozen fst gdist gvx gvy gvz gtb gsurf gord].
  unfold scale. rewrite (proj2 (Reqb_false dist 0)) by lra. rewrite (proj2 (Reqb_false d' 0)) by lra.
  refine (conj _ (conj _ _)); try reflexivity; f_equal; f_equal; field; lra.
Qed.
Print Assumptions C60_commute.

Example C60_nonvacuous : positive_args [SetVector 3 0 4; SetDistance 10; SetAngle 0; EnableGT true] /\
  gdist (gsets newGeo [SetVector 3 0 4; SetDistance 10]) = 10 /\
  gvx (gsets newGeo [SetVector 3 0 4; SetDistance 10]) = Some 6.
Proof.
  split; [|split].
  - intros c [<-|[<-|[<-|[<-|[]]]]]; cbn; auto; lra.
  - reflexivity.
  - cbn. assert (sqrt (3 * 3 + 0 * 0 + 4 * 4) = 5) as E.
    { replace (3 * 3 + 0 * 0 + 4 * 4) with (5 * 5) by ring. apply sqrt_square. lra. }
    rewrite E. unfold scale. rewrite (proj2 (Reqb_false 5 0)) by lra. f_equal. lra.
Qed.

(** A pair of states with only a z dipole of size 1 in both atoms. *)
Definition pz : pdata :=
  PData 0%Z 0%Z (fun k => Nat.eqb k 1) (fun k => Nat.eqb k 1)
        (fun k => if Nat.eqb k 1 then 1 else 0) (fun k => if Nat.eqb k 1 then 1 else 0).
Lemma pz_lawful : lawful pz.
Proof.
  unfold lawful, pz; cbn. repeat split; intros k E;
  try (rewrite E; reflexivity); apply Nat.eqb_eq in E; subst k; cbn; lia.
Qed.
Lemma mult_pz : forall kC, mult_val kC 3 pz = - 2 * kC.
Proof. intros. rewrite (mult3 kC pz pz_lawful). cbn. ring. Qed.
Lemma ipow_pos : forall d n, 0 < d -> 0 < 1 / d ^ n.
Proof. intros. apply Rdiv_lt_0_compat; [lra | apply pow_lt; lra]. Qed.
Lemma small_dmax : forall d, Rabs d < 2 -> d <> dmax.
Proof.
  intros d D ->. rewrite Rabs_pos_eq in D by (left; apply dmax_pos). revert D. apply Rle_not_lt.
  unfold dmax. assert (1 <= 2 ^ 52) by (apply pow_R1_Rle; lra).
  assert (/ 2 ^ 52 <= / 1) by (apply Rinv_le_contravar; lra). rewrite Rinv_1 in *.
  assert (2 <= 2 ^ 1023).
  { change (2 ^ 1023) with (2 * 2 ^ 1022). assert (1 <= 2 ^ 1022) by (apply pow_R1_Rle; lra). lra. }
  assert (1 <= 2 - / 2 ^ 52) by lra. nra.
Qed.

(** A negative distance is accepted; the stored distance is then not the length of the vector and
    the interaction has the wrong sign. *)
Theorem C85_negative_distance_refuted : forall kC tol, kC <> 0 ->
  let g := gsets newGeo [SetDistance (-1)] in
  snd (gsetter (SetDistance (-1)) newGeo) = Ok tt /\
  gvx g = Some 0 /\ gvy g = Some 0 /\ gvz g = Some (-1) /\ gdist g = -1 /\
  exists v, interaction_entry kC tol false (gsets newGeo [SetDistance 1]) pz = Ok (v, 0) /\
            interaction_entry kC tol false g pz = Ok (- v, 0) /\ v <> 0.
Proof.
  intros kC tol K g. split; [reflexivity|].
  assert (forall d, gsets newGeo [SetDistance d] = Geo false d (Some 0) (Some 0) (Some d) false None 3) as E.
  { intros d. cbn. unfold scale. pose proof dmax_pos. rewrite (proj2 (Reqb_false dmax 0)) by lra.
    replace (0 / dmax * d) with 0 by (field; lra). replace (dmax / dmax * d) with d by (field; lra). reflexivity. }
  unfold g. rewrite !E. cbn [gvx gvy gvz gdist]. do 4 (split; [reflexivity|]).
  assert (Z : Reqb 0 0 = true) by (apply Reqb_true; reflexivity).
  assert (I : forall d, Rabs d < 2 -> interaction_entry kC tol false (Geo false d (Some 0) (Some 0) (Some d) false None 3) pz
     = Ok (mult_entry kC 3 d pz, 0)).
  { intros d D. unfold interaction_entry. cbn [gdist gvx gvy gvz]. rewrite (proj2 (Reqb_false d dmax)) by (apply small_dmax; exact D).
    unfold needs_green. cbn [gvx gvy gsurf gtb gord nonzeroR]. rewrite Z. reflexivity. }
  exists (mult_entry kC 3 1 pz). rewrite !I.
  2:{ unfold Rabs. destruct (Rcase_abs (-1)); lra. }
  2:{ rewrite Rabs_R1. lra. }
  unfold mult_entry. cbn [seq map fold_right Nat.sub]. rewrite mult_pz. split; [reflexivity|]. split.
  - f_equal. f_equal. field.
  - intros Q. apply K. field_simplify in Q. lra.
Qed.
Print Assumptions C85_negative_distance_refuted.

(** The zero vector is accepted; a later setDistance cannot restore a direction: the coordinates are
    NaN, and with the Green tensor approach the atoms silently do not interact. *)
Theorem C85_zero_distance_refuted : forall kC tol,
  let g := gsets newGeo [EnableGT true; SetVector 0 0 0; SetDistance 1] in
  gdist g = 1 /\ gvx g = None /\ gvy g = None /\ gvz g = None /\
  forall p, interaction_entry kC tol false g p = Ok (0, 0).
Proof.
  intros kC tol g.
  assert (E : g = Geo false 1 None None None true None 3).
  { unfold g. cbn. replace (0 * 0 + 0 * 0 + 0 * 0) with 0 by ring. rewrite sqrt_0. unfold scale.
    rewrite (proj2 (Reqb_true 0 0)) by reflexivity. reflexivity. }
  rewrite E. cbn [gdist gvx gvy gvz]. do 4 (split; [reflexivity|]). intros p.
  unfold interaction_entry. cbn [gdist gvx gvy gvz gtb gsurf gord]. rewrite (proj2 (Reqb_false 1 dmax)).
  - reflexivity.
  - apply small_dmax. rewrite Rabs_R1. lra.
Qed.
Print Assumptions C85_zero_distance_refuted.

(** enableGreenTensor(false) in the presence of a surface throws, but has switched it off: the
    following calculation fails for every pair of atoms at a finite distance. *)
Theorem C30_surface_refuted : forall kC tol p, exists g,
  g = gsets newGeo [SetSurface (Some 1); SetDistance 1] /\ gtb g = true /\
  snd (gsetter (EnableGT false) g) = Throw /\ gtb (fst (gsetter (EnableGT false) g)) = false /\
  interaction_entry kC tol false (fst (gsetter (EnableGT false) g)) p = Throw.
Proof.
  intros kC tol p. eexists. split; [reflexivity|]. cbn. do 3 (split; [reflexivity|]).
  unfold interaction_entry. cbn [gdist gvx gvy gvz gtb gsurf gord].
  rewrite (proj2 (Reqb_false 1 dmax)) by (apply small_dmax; rewrite Rabs_R1; lra).
  unfold scale. pose proof dmax_pos. rewrite (proj2 (Reqb_false dmax 0)) by lra.
  unfold needs_green. cbn [gsurf]. rewrite orb_true_r. reflexivity.
Qed.
Print Assumptions C30_surface_refuted.

(** *** C65 *)

(** At order 3 without a surface, whatever setters were called before (Green tensor enabled or
    not, angle or no angle), the matrix element is the physical dipole-dipole energy
    kC (a.b/r^3 - 3 (a.R)(b.R)/r^5) up to the cut-off [tol] of tensor elements. *)
Theorem C65_physics : forall kC tol h p, positive_args h -> lawful p -> 0 <= tol ->
  let g := gsets newGeo h in
  gdist g <> dmax -> gsurf g = None -> gord g = 3%nat ->
  gtb g = true \/ gvy g = Some 0 ->
  exists x y z v, gvx g = Some x /\ gvy g = Some y /\ gvz g = Some z /\
    interaction_entry kC tol false g p = Ok v /\
    close (tol * Rabs (kC * pM1 p 1%nat * pM2 p 1%nat) * (9 + 1 / gdist g ^ 3)) v
          (dipole_dipole kC x y z (dip1 p) (dip2 p)).
Proof.
  intros kC tol h p H L T g M S O G.
  destruct (geo_ok_run h newGeo H geo_ok_new) as (P & x & y & z & X & Y & Z & D). fold g in P, X, Y, Z, D.
  destruct (entry_physics kC tol g p x y z L T X Y Z D P M S O) as (v & V & C).
  { destruct G as [G|G]; [left; exact G | right; congruence]. }
  exists x, y, z, v. auto.
Qed.
Print Assumptions C65_physics.

(** A y component switches the Green tensor approach on, so that the interaction is computed for every vector unless the user has
    called enableGreenTensor(false). *)
Theorem C65_switch : forall kC tol h p, positive_args h -> ~ In (EnableGT false) h -> lawful p -> 0 <= tol ->
  let g := gsets newGeo h in
  gdist g <> dmax -> gsurf g = None -> gord g = 3%nat ->
  exists x y z v, gvx g = Some x /\ gvy g = Some y /\ gvz g = Some z /\ (y <> 0 -> gtb g = true) /\
    interaction_entry kC tol false g p = Ok v /\
    close (tol * Rabs (kC * pM1 p 1%nat * pM2 p 1%nat) * (9 + 1 / gdist g ^ 3)) v
          (dipole_dipole kC x y z (dip1 p) (dip2 p)).
Proof.
  intros kC tol h p H NE L T g M S O.
  assert (I : forall k g0, (gtb g0 = true \/ gvy g0 = Some 0) -> gfrozen g0 = false -> geo_ok g0 -> positive_args k -> ~ In (EnableGT false) k -> gtb (gsets g0 k) = true \/ gvy (gsets g0 k) = Some 0).
  { clear. induction k as [|c k IH]; intros g0 I F OK PA N; [exact I|]. cbn [gsets]. apply IH.
    - unfold gsetter. rewrite F. destruct c as [b|[d|]|d|x y z|a|o]; cbn.
      + destruct b; [left; destruct (gsurf g0); reflexivity|]. exfalso. apply N. left. reflexivity.
      + left. reflexivity.
      + exact I.
      + destruct I as [I|I]; [left; exact I|right]. rewrite I. unfold scale. destruct OK as [P _]. rewrite (proj2 (Reqb_false (gdist g0) 0)) by lra. f_equal. field. lra.
      + destruct (Reqb y 0) eqn:E; [apply Reqb_true in E; subst; right; reflexivity|left; reflexivity].
      + right. reflexivity.
      + exact I.
    - rewrite fst_gsetter_frozen. exact F.
    - apply (geo_ok_run [c] g0); [intros c' [<-|[]]; apply PA; left; reflexivity|exact OK].
    - intros c' Ic. apply PA. right. exact Ic.
    - intros X. apply N. right. exact X. }
  assert (G : gtb g = true \/ gvy g = Some 0).
  { exact (I h newGeo (or_intror eq_refl) eq_refl geo_ok_new H NE). }
  destruct (C65_physics kC tol h p H L T M S O G) as (x & y & z & v & X & Y & Z & E & C). fold g in X, Y, Z, E, C.
  exists x, y, z, v. repeat (split; [assumption|]). split; [|split; assumption]. intros Ny. destruct G as [G|G]; [exact G|]. rewrite Y in G. injection G as G. contradiction.
Qed.
Print Assumptions C65_switch.
Example C65_switch_nonvacuous : let h := [SetVector 0 1 0; SetDistance 2; SetOrder2 3] in
  positive_args h /\ ~ In (EnableGT false) h /\ gtb (gsets newGeo h) = true.
Proof.
  split; [|split].
  - intros c [<-|[<-|[<-|[]]]]; cbn; auto; [intros (_ & E & _); lra|lra].
  - intros [E|[E|[E|[]]]]; discriminate.
  - cbn. rewrite (proj2 (Reqb_false 1 0)) by lra. reflexivity.
Qed.

(** Hence the approaches agree exactly if no cut-off is applied (tol = 0). *)
Theorem C65_approaches_agree : forall kC h h' p, positive_args h -> positive_args h' -> lawful p ->
  let g := gsets newGeo h in let g' := gsets newGeo h' in
  gvx g = gvx g' -> gvy g = gvy g' -> gvz g = gvz g' -> gdist g <> dmax ->
  gsurf g = None -> gsurf g' = None -> gord g = 3%nat -> gord g' = 3%nat ->
  gtb g = true \/ gvy g = Some 0 -> gtb g' = true \/ gvy g' = Some 0 ->
  interaction_entry kC 0 false g p = interaction_entry kC 0 false g' p.
Proof.
  intros kC h h' p H H' L g g' X Y Z M S S' O O' G G'.
  destruct (geo_ok_run h newGeo H geo_ok_new) as (_ & x1 & y1 & z1 & X1 & Y1 & Z1 & D1).
  destruct (geo_ok_run h' newGeo H' geo_ok_new) as (_ & x2 & y2 & z2 & X2 & Y2 & Z2 & D2).
  fold g in X1, Y1, Z1, D1. fold g' in X2, Y2, Z2, D2.
  rewrite X1, X2 in X. rewrite Y1, Y2 in Y. rewrite Z1, Z2 in Z. injection X as <-. injection Y as <-. injection Z as <-.
  assert (M' : gdist g' <> dmax) by congruence.
  destruct (C65_physics kC 0 h p H L (Rle_refl 0) M S O G) as (x & y & z & v & Xv & Yv & Zv & V & C).
  destruct (C65_physics kC 0 h' p H' L (Rle_refl 0) M' S' O' G') as (x' & y' & z' & v' & Xw & Yw & Zw & V' & C').
  fold g in Xv, Yv, Zv, V. fold g' in Xw, Yw, Zw, V'. rewrite V, V'. f_equal.
  assert (x = x' /\ y = y' /\ z = z') as (<- & <- & <-).
  { repeat split; congruence. }
  rewrite !Rmult_0_l in C, C'.
  assert (forall a b, close 0 a b -> a = b) as Q.
  { intros [a1 a2] [b1 b2] [A B]. cbn in A, B. assert (Rabs (a1 - b1) = 0) by (pose proof (Rabs_pos (a1 - b1)); lra).
    assert (Rabs (a2 - b2) = 0) by (pose proof (Rabs_pos (a2 - b2)); lra).
    assert (forall t, Rabs t = 0 -> t = 0) as W.
    { intros t Ht. destruct (Req_dec t 0) as [|Nt]; [assumption|]. apply Rabs_pos_lt in Nt. lra. }
    f_equal; [assert (a1 - b1 = 0) by auto | assert (a2 - b2 = 0) by auto]; lra. }
  rewrite (Q _ _ C), (Q _ _ C'). reflexivity.
Qed.
Print Assumptions C65_approaches_agree.

(** The real-valued system gives the same numbers, and does not throw for the sake of a complex
    number, if the atoms lie in the xz plane. *)
Theorem C65_real_scalar : forall kC tol h p, 0 <= tol ->
  let g := gsets newGeo h in gsurf g = None -> gvy g = Some 0 ->
  interaction_entry kC tol true g p = interaction_entry kC tol false g p.
Proof. intros. apply entry_real; assumption. Qed.
Print Assumptions C65_real_scalar.

(** The only error of the Green tensor approach in vacuum is the announced one: orders of 5 and above. *)
Theorem C65_errors : forall kC tol h p, positive_args h ->
  let g := gsets newGeo h in gdist g <> dmax -> gtb g = true -> gsurf g = None ->
  (interaction_entry kC tol false g p = Throw <-> (5 <= gord g)%nat) /\
  interaction_entry kC tol false g p <> UB.
Proof.
  intros kC tol h p H g M T S.
  destruct (geo_ok_run h newGeo H geo_ok_new) as (_ & x & y & z & X & Y & Z & D). fold g in X, Y, Z, D.
  unfold interaction_entry. rewrite (proj2 (Reqb_false _ _) M), X, Y, Z.
  assert (needs_green g = true) as NG by (unfold needs_green; rewrite T; apply orb_true_r).
  rewrite NG. apply green_error; assumption.
Qed.
Print Assumptions C65_errors.

Example C65_nonvacuous :
  let h := [SetDistance 1; SetAngle 1; SetOrder2 3] in
  positive_args h /\ gdist (gsets newGeo h) <> dmax /\ gsurf (gsets newGeo h) = None /\
  gord (gsets newGeo h) = 3%nat /\ gvy (gsets newGeo h) = Some 0 /\ lawful pz /\
  (forall kC, dipole_dipole kC 0 0 1 (dip1 pz) (dip2 pz) = (-2 * kC, 0)).
Proof.
  refine (conj _ (conj _ (conj _ (conj _ (conj _ (conj _ _)))))); try reflexivity.
  - intros c [<-|[<-|[<-|[]]]]; cbn; auto; lra.
  - apply small_dmax. cbn. rewrite Rabs_R1. lra.
  - apply pz_lawful.
  - intros kC. unfold dipole_dipole. cbv zeta. replace (0 * 0 + 0 * 0 + 1 * 1) with 1 by ring. rewrite sqrt_1.
    unfold dip1, dip2, dot, csum3, rmul, cart, pz, vec3, csub, cadd, cmul. cbn.
    apply injective_projections; cbn [fst snd]; field.
Qed.

(** Order 2, which asks for no multipole interaction, still gives the full dipole-dipole
    interaction if the atoms are not on the z axis - while on the z axis it gives none. *)
Theorem C87_low_order_refuted : forall kC tol p,
  interaction_entry kC tol false (gsets newGeo [SetOrder2 2; SetDistance 1]) p = Ok (0, 0) /\
  (forall x z, x <> 0 -> sqrt (x * x + 0 * 0 + z * z) <> dmax ->
     interaction_entry kC tol false (gsets newGeo [SetOrder2 2; SetVector x 0 z]) p =
     interaction_entry kC tol false (gsets newGeo [SetOrder2 3; SetVector x 0 z]) p).
Proof.
  intros kC tol p. assert (Z : Reqb 0 0 = true) by (apply Reqb_true; reflexivity). split.
  - cbn [gsets gsetter newGeo gfrozen fst gdist gvx gvy gvz gtb gsurf gord].
    unfold interaction_entry. cbn [gdist gvx gvy gvz gtb gsurf gord].
    rewrite (proj2 (Reqb_false 1 dmax)) by (apply small_dmax; rewrite Rabs_R1; lra).
    unfold scale. pose proof dmax_pos. rewrite (proj2 (Reqb_false dmax 0)) by lra.
    replace (0 / dmax * 1) with 0 by (field; lra). unfold needs_green. cbn [gvx gvy gsurf gtb gord nonzeroR].
    rewrite Z. reflexivity.
  - intros x z X M. cbn [gsets gsetter newGeo gfrozen fst gdist gvx gvy gvz gtb gsurf gord]. rewrite Z.
    unfold interaction_entry. cbn [gdist gvx gvy gvz gtb gsurf gord].
    rewrite (proj2 (Reqb_false _ _) M). unfold needs_green. cbn [gvx gvy gsurf gtb gord nonzeroR].
    rewrite Z, (proj2 (Reqb_false _ _) X). reflexivity.
Qed.
Print Assumptions C87_low_order_refuted.

(** *** C66 *)

(** The matrices that the code fills with quadrupole matrix elements are the spherical components
    of the Cartesian tensor x_j x_k / 2 - delta_jk (r^2 - m0)/6: contracted with the
    solid harmonics of any point they give the coordinates back. *)
Theorem C66_table : forall x y z j k m0, (j < 3)%nat -> (k < 3)%nat ->
  cadd (csum_q (fun q => cmul (phase (qphase j k) (matentry j k q 1 0 / sqrt 30)) (rC2 x y z q)))
       (matentry j k 0 0 m0 / sqrt 30, 0)
  = (vec3 x y z j * vec3 x y z k / 2 - eye j k * (x * x + y * y + z * z - m0) / 6, 0).
Proof. exact table_cartesian. Qed.
Print Assumptions C66_table.

(** Order 4 on the z axis: Green tensor approach and multipole expansion give the dipole-dipole
    term plus the dipole-quadrupole terms; they agree if the second atom is above the first. *)
Theorem C66_axis_agree_partial : forall kC tol h h' p z, positive_args h -> positive_args h' -> lawful p ->
  let g := gsets newGeo h in let g' := gsets newGeo h' in
  gvx g = Some 0 -> gvy g = Some 0 -> gvz g = Some z -> 
  gvx g' = Some 0 -> gvy g' = Some 0 -> gvz g' = Some z -> 0 < z -> z <> dmax ->
  no_cutoff tol 0 0 z p -> gsurf g = None -> gsurf g' = None -> gord g = 4%nat -> gord g' = 4%nat ->
  interaction_entry kC tol false g p = interaction_entry kC tol false g' p.
Proof.
  intros kC tol h h' p z H H' L g g' X Y Z X' Y' Z' P M N S S' O O'.
  assert (D : forall k, positive_args k -> gvx (gsets newGeo k) = Some 0 -> gvy (gsets newGeo k) = Some 0 -> gvz (gsets newGeo k) = Some z ->
              gdist (gsets newGeo k) = Rabs z).
  { intros k K A B C. destruct (geo_ok_run k newGeo K geo_ok_new) as (_ & a & b & c & Ea & Eb & Ec & ->).
    rewrite A in Ea. rewrite B in Eb. rewrite C in Ec. injection Ea as <-. injection Eb as <-. injection Ec as <-.
    rewrite <- norm_axis. reflexivity. }
  assert (Rabs z = z) as A by (apply Rabs_pos_eq; lra).
  rewrite (entry_axis4 kC tol g p z L), (entry_axis4 kC tol g' p z L); try assumption; try lra;
  try (unfold g, g'; rewrite D by assumption; congruence).
  - rewrite A. assert (z / z = 1) as Q by (field; lra). destruct (gtb g), (gtb g'); rewrite ?Q; reflexivity.
Qed.
Print Assumptions C66_axis_agree_partial.

(** Missing in the partial theorem: z < 0.  The multipole expansion only uses |z|, so the
    dipole-quadrupole energy has the wrong sign if the second atom is below the first: the two
    approaches differ by twice this energy. *)
Theorem C66_axis_refuted : forall kC tol p z, lawful p -> z < 0 -> Rabs z <> dmax -> no_cutoff tol 0 0 z p ->
  let g := gsets newGeo [SetOrder2 4; SetVector 0 0 z] in
  let g' := gsets newGeo [SetOrder2 4; SetVector 0 0 z; EnableGT true] in
  exists dd dq, dq = mult_val kC 4 p / Rabs z ^ 4 /\
    interaction_entry kC tol false g p = Ok (dd + dq, 0) /\
    interaction_entry kC tol false g' p = Ok (dd - dq, 0).
Proof.
  intros kC tol p z L P M N g g'.
  assert (sqrt (0 * 0 + 0 * 0 + z * z) = Rabs z) as A by (rewrite <- norm_axis; reflexivity).
  assert (Z : Reqb 0 0 = true) by (apply Reqb_true; reflexivity).
  exists (mult_val kC 3 p * (1 / Rabs z ^ 3)), (mult_val kC 4 p / Rabs z ^ 4). split; [reflexivity|].
  assert (Rabs z = - z) as B by (apply Rabs_left; lra).
  rewrite (entry_axis4 kC tol g p z L), (entry_axis4 kC tol g' p z L); try assumption; try lra; try reflexivity;
  try (unfold g, g'; cbn [gsets gsetter newGeo gfrozen fst gdist gvx gvy gvz gtb gsurf gord]; rewrite A; auto; fail).
  unfold g, g'. cbn [gsets gsetter newGeo gfrozen fst gdist gvx gvy gvz gtb gsurf gord]. rewrite Z. cbn.
  rewrite B. split; f_equal; f_equal; field; lra.
Qed.
Print Assumptions C66_axis_refuted.

(** A pair with a dipole in atom 1 and a quadrupole in atom 2, for which the term is not zero. *)
Definition pq : pdata :=
  PData 0%Z 0%Z (fun k => Nat.eqb k 1) (fun k => Nat.eqb k 2)
        (fun k => if Nat.eqb k 1 then 1 else 0) (fun k => if Nat.eqb k 2 then 1 else 0).
Example C66_nonvacuous : lawful pq /\ (forall z, no_cutoff 0 0 0 z pq) /\ (forall kC, mult_val kC 4 pq = 3 * kC).
Proof.
  assert (L : lawful pq).
  { unfold lawful, pq; cbn. repeat split; intros k E;
    try (rewrite E; reflexivity); apply Nat.eqb_eq in E; subst k; cbn; lia. }
  split; [exact L|]. split; [intros; apply no_cutoff_0|].
  intros kC. rewrite (mult4 kC pq L). unfold weight4, pq. cbn. field.
Qed.

(** Without a plate the dipole-quadrupole part is the full contraction of the tensors of C45 with the
    dipole vector and the quadrupole table ... *)
Theorem C66_contraction : forall kC tol x y z p, lawful p -> no_cutoff tol x y z p ->
  dq_entry kC tol false (DQvac x y z) p =
    Ok (csum27 (fun i j k => rmul (DQvac x y z i j k) (rmul kC (cmul (dip1 p i) (quad2 p j k))))) /\
  qd_entry kC tol false (QDvac x y z) p =
    Ok (csum27 (fun i j k => rmul (QDvac x y z i j k) (rmul kC (cmul (quad1 p i j) (dip2 p k))))).
Proof. intros. split; [apply dq_entry_exact | apply qd_entry_exact]; assumption. Qed.
Print Assumptions C66_contraction.

(** ... and the rank-0 matrix element that the code puts on the diagonal (getElectricMultipole(..., 0),
    which is not <r^2>) has no influence. *)
Theorem C66_trace_free : forall kC tol x y z p p', ~ (x = 0 /\ y = 0 /\ z = 0) -> lawful p -> lawful p' ->
  no_cutoff tol x y z p -> no_cutoff tol x y z p' ->
  pq1 p = pq1 p' -> pq2 p = pq2 p' ->
  (forall k, (1 <= k)%nat -> pM1 p k = pM1 p' k /\ pM2 p k = pM2 p' k) ->
  dq_entry kC tol false (DQvac x y z) p = dq_entry kC tol false (DQvac x y z) p' /\
  qd_entry kC tol false (QDvac x y z) p = qd_entry kC tol false (QDvac x y z) p'.
Proof. exact trace_free. Qed.
Print Assumptions C66_trace_free.
