(** [combine] with reflection symmetry. *)
From Coq Require Import ZArith Lia Bool List.
Import ListNotations.
From Verif Require Import Base Matrix BasisnamesModel CombineModel CombineSpec OverlapProofs BasisProofs PropNames CombineProofs CombineProofs2 CombineProofs3 CombineProofs4.
Set Implicit Arguments.

Section Proofs.
Variable K : StarRing.
Add Ring KRing : (s_ring K).
Local Open Scope star_scope.
Variable rt : K.
Variable keep : K -> bool.
Notation zK := (zK K).

Definition rvalue (p : par) : Z := match p with EVEN => 1%Z | _ => (-1)%Z end.
Definition rot_ok (R : option Z) (m : Z) : bool := match R with Some R => (2 * R =? m)%Z || (2 * R =? - m)%Z | None => true end.

Lemma one_entry_ref : forall p R names map n2 num dif e1 e2 i2 a b r',
  p <> NA -> nth_error names (n2 * fst e1 + fst e2) = Some (Two i2 a b) ->
  Z.odd (jj a) = true -> Z.odd (jj b) = true -> Z.odd (mm a) = true -> Z.odd (mm b) = true ->
  (n2 * fst e1 + fst e2 < num)%nat -> (exists o, nth_error map (n2 * fst e1 + fst e2) = Some o) ->
  ((0 <= mm a)%Z -> nth_error map (n2 * fst e1 + fst e2) = Some (Some r') /\ (r' < num)%nat) ->
  one_entry rt (Sym NA p NA R) names map n2 num dif e1 e2 =
  Ok (if rot_ok R (mm a + mm b) && (0 <=? mm a)%Z then
    [((n2 * fst e1 + fst e2)%nat, snd e1 * snd e2 * rt);
     (r', sc (rvalue p * (sg (l_ a + l_ b) * sg ((jj a + jj b) / 2) * sg ((mm a + mm b) / 2))) (snd e1 * snd e2 * rt))] else []).
Proof.
  intros p R names map n2 num dif e1 e2 i2 a b r' NP N J1 J2 M1 M2 B1 [o Ho] Hm. unfold one_entry, at_vec. rewrite N. cbn [bind fst_ snd_].
  rewrite psign_half by auto. cbn [bind]. rewrite (psign_half _ _ M1 M2). cbn [bind].
  assert (U : used p = true) by (destruct p; [contradiction|reflexivity|reflexivity]). cbn [inv per ref rot]. rewrite U, Ho. cbn [bind used andb orb negb].
  assert (RS : refsign (Sym NA p NA R) (sg (l_ a + l_ b)) (sg ((jj a + jj b) / 2)) (sg ((mm a + mm b) / 2)) =
     (rvalue p * (sg (l_ a + l_ b) * sg ((jj a + jj b) / 2) * sg ((mm a + mm b) / 2)))%Z).
  { unfold refsign, rvalue. cbn [ref]. destruct p; [contradiction| |]; lia. }
  rewrite RS.
  assert (RO : match R with Some R0 => negb (2 * R0 =? mm a + mm b)%Z && negb (2 * R0 =? - (mm a + mm b))%Z | None => false end = negb (rot_ok R (mm a + mm b))).
  { unfold rot_ok. destruct R as [R|]; [|reflexivity]. rewrite negb_orb. reflexivity. }
  rewrite RO. destruct (rot_ok R (mm a + mm b)); cbn [negb andb]; [|reflexivity].
  rewrite andb_true_r. destruct (Z.ltb_spec (mm a) 0) as [Lt|Ge].
  - destruct (Z.leb_spec 0 (mm a)); [lia|reflexivity].
  - destruct (Z.leb_spec 0 (mm a)); [|lia]. destruct (Hm Ge) as [Hm1 Hm2]. assert (o = Some r') by congruence. subst o. unfold put. apply Nat.ltb_lt in B1, Hm2. rewrite B1, Hm2. cbn [bind app].
    rewrite ?andb_false_r. cbn. reflexivity.
Qed.

Section Cols.
Variables (b1 b2 : names_one) (start : one * one) (p : par) (R : option Z) (dif : bool) (c1 c2 : list (nat * K)) (m1 m2 : Z).
Let n1 := length (names1 b1).
Let n2 := length (names1 b2).
Let names := names2 (build2 start b1 b2).
Hypothesis NP : p <> NA.
Hypothesis C1 : closed b1.
Hypothesis C2 : closed b2.
Hypothesis H1 : half b1.
Hypothesis H2 : half b2.
Hypothesis SM : small b1 b2.
Hypothesis R1 : forall e, In e c1 -> (fst e < n1)%nat.
Hypothesis R2 : forall e, In e c2 -> (fst e < n2)%nat.
Hypothesis D1 : forall e s, In e c1 -> nth_error (names1 b1) (fst e) = Some s -> mm s = m1.
Hypothesis D2 : forall e s, In e c2 -> nth_error (names1 b2) (fst e) = Some s -> mm s = m2.

Definition rsel : bool := rot_ok R (m1 + m2) && (0 <=? m1)%Z.
Definition rcol : list (nat * K) :=
  flat_map (fun e1 => flat_map (fun e2 => if rsel then
    [((n2 * fst e1 + fst e2)%nat, snd e1 * snd e2 * rt);
     ((n2 * mirror b1 (fst e1) + mirror b2 (fst e2))%nat, sc (rvalue p * refl_sign b1 b2 (fst e1) (fst e2)) (snd e1 * snd e2 * rt))] else []) c2) c1.

Lemma rcolumn_ok : forall map, (forall r s1, (r < n1 * n2)%nat -> nth_error (names1 b1) (r / n2) = Some s1 -> (0 <= mm s1)%Z -> nth_error map r = Some (Some (mirror2 b1 b2 r))) ->
  length map = (n1 * n2)%nat ->
  column rt (Sym NA p NA R) names map n2 (n1 * n2) dif c1 c2 = Ok rcol.
Proof.
  intros map HM LM. unfold column, rcol. apply mapR_ok. intros e1 I1. apply mapR_ok. intros e2 I2.
  assert (A1 := R1 _ I1). assert (A2 := R2 _ I2). assert (N2 : n2 <> 0%nat) by (clear - A2; lia).
  destruct (nth_error (names1 b1) (fst e1)) as [s1|] eqn:E1; [|apply nth_error_None in E1; unfold n1 in A1; lia].
  destruct (nth_error (names1 b2) (fst e2)) as [s2|] eqn:E2; [|apply nth_error_None in E2; unfold n2 in A2; lia].
  assert (N : nth_error names (n2 * fst e1 + fst e2) = Some (Two (Z.of_nat (fst e1 * n2 + fst e2)) s1 s2)).
  { rewrite (Nat.mul_comm n2). apply C55_rowmajor; auto. }
  destruct (H1 s1) as [J1 M1]; [eapply nth_error_In; eauto|]. destruct (H2 s2) as [J2 M2]; [eapply nth_error_In; eauto|].
  assert (B : (n2 * fst e1 + fst e2 < n1 * n2)%nat) by (clear - A1 A2; nia).
  assert (DV : ((n2 * fst e1 + fst e2) / n2 = fst e1 /\ (n2 * fst e1 + fst e2) mod n2 = fst e2)%nat).
  { replace (n2 * fst e1 + fst e2)%nat with (fst e2 + fst e1 * n2)%nat by lia. rewrite Nat.div_add, Nat.mod_add, Nat.div_small, Nat.mod_small by auto. auto. }
  assert (MR : mirror2 b1 b2 (n2 * fst e1 + fst e2) = (n2 * mirror b1 (fst e1) + mirror b2 (fst e2))%nat).
  { unfold mirror2. fold n2. destruct DV as [-> ->]. reflexivity. }
  rewrite (@one_entry_ref p R names map n2 (n1 * n2) dif e1 e2 (Z.of_nat (fst e1 * n2 + fst e2)) s1 s2 (n2 * mirror b1 (fst e1) + mirror b2 (fst e2))%nat); auto.
  - unfold rsel. rewrite <- (D1 _ I1 E1), <- (D2 _ I2 E2). unfold refl_sign. rewrite E1, E2. reflexivity.
  - destruct (nth_error map (n2 * fst e1 + fst e2)) as [o|] eqn:Q; [exists o; reflexivity|]. apply nth_error_None in Q. clear - Q B LM. lia.
  - intros Po. rewrite <- MR. split; [|apply mirror2_parts; auto]. apply (HM _ s1); auto. destruct DV as [-> _]. exact E1.
Qed.

Lemma rcol_empty : c1 <> [] -> c2 <> [] -> (rcol = [] <-> rsel = false).
Proof.
  clear R1 R2 D1 D2. intros N1 N2. unfold rcol. destruct rsel.
  - split; [|discriminate]. destruct c1 as [|e1 d1]; [destruct N1; reflexivity|]. destruct c2 as [|e2 d2]; [destruct N2; reflexivity|]. cbn [flat_map app]. discriminate.
  - split; auto. intros _. apply flat_nil. intros. apply flat_nil. auto.
Qed.

Lemma refl_sign_mirror : forall i k, (i < n1)%nat -> (k < n2)%nat -> refl_sign b1 b2 (mirror b1 i) (mirror b2 k) = refl_sign b1 b2 i k.
Proof.
  clear R1 R2 D1 D2. intros i k Hi Hk. destruct (nth_error (names1 b1) i) as [s|] eqn:Es; [|apply nth_error_None in Es; unfold n1 in Hi; lia].
  destruct (nth_error (names1 b2) k) as [t|] eqn:Et; [|apply nth_error_None in Et; unfold n2 in Hk; lia].
  destruct (mirror_spec _ C1 Es) as (s' & Es' & Os). destruct (mirror_spec _ C2 Et) as (t' & Et' & Ot). apply opposite_iff in Os, Ot.
  unfold refl_sign. rewrite Es, Et, Es', Et'. destruct Os as (_ & L1 & JJ1 & MM1), Ot as (_ & L2 & JJ2 & MM2). rewrite L1, L2, JJ1, JJ2. f_equal.
  destruct (H1 s') as [_ O1]; [eapply nth_error_In; eauto|]. destruct (H2 t') as [_ O2]; [eapply nth_error_In; eauto|]. rewrite MM1, MM2.
  apply Z.odd_spec in O1, O2. destruct O1 as [x Hx], O2 as [y Hy]. rewrite Hx, Hy.
  replace (- (2 * x + 1) + - (2 * y + 1))%Z with ((- (x + y + 1)) * 2)%Z by lia. replace (2 * x + 1 + (2 * y + 1))%Z with ((x + y + 1) * 2)%Z by lia. rewrite !Z.div_mul by lia.
  unfold sg. rewrite Z.even_opp. reflexivity.
Qed.

Lemma zK_mul' : forall x y, (x = 1 \/ x = -1)%Z -> (y = 1 \/ y = -1)%Z -> zK (x * y) = zK x * zK y.
Proof. intros x y [->| ->] [->| ->]; unfold CombineProofs3.zK; cbn; ring. Qed.
Lemma rs_pm : forall i k, (refl_sign b1 b2 i k = 1 \/ refl_sign b1 b2 i k = -1)%Z.
Proof.
  clear R1 R2 D1 D2. intros. unfold refl_sign. destruct (nth_error (names1 b1) i) as [s|]; auto. destruct (nth_error (names1 b2) k) as [t|]; auto.
  destruct (sg_cases (l_ s + l_ t)) as [->| ->], (sg_cases ((jj s + jj t) / 2)) as [->| ->], (sg_cases ((mm s + mm t) / 2)) as [->| ->]; cbn; auto.
Qed.
Lemma rv_pm : (rvalue p = 1 \/ rvalue p = -1)%Z. Proof. destruct p; cbn; auto. Qed.

Lemma rcol_coef : forall r, (r < n1 * n2)%nat -> rsel = true ->
  coef rcol r = rt * (kron n2 (coef c1) (coef c2) r + zK (rvalue p) * reflected b1 b2 (kron n2 (coef c1) (coef c2)) r).
Proof.
  intros r Hr S. unfold rcol. rewrite S. rewrite coef_flat. unfold reflected. fold n2. rewrite sc_zK.
  assert (N2 : n2 <> 0%nat) by (clear - Hr; lia).
  destruct (@mirror2_parts b1 b2 C1 C2 r Hr) as (Bm & Dm & Mm). fold n2 in Bm, Dm, Mm. unfold mirror2 in Bm, Dm, Mm. fold n2 in Bm, Dm, Mm. set (r' := (n2 * mirror b1 (r / n2) + mirror b2 (r mod n2))%nat) in *.
  assert (KR : kron n2 (coef c1) (coef c2) r = lsum (fun e1 => lsum (fun e2 => if Nat.eqb (n2 * fst e1 + fst e2) r then snd e1 * snd e2 else 0) c2) c1).
  { unfold kron. symmetry. apply kron_sum. auto. }
  assert (KR' : kron n2 (coef c1) (coef c2) r' = lsum (fun e1 => lsum (fun e2 => if Nat.eqb (n2 * fst e1 + fst e2) r' then snd e1 * snd e2 else 0) c2) c1).
  { unfold kron. symmetry. apply kron_sum. auto. }
  rewrite KR, KR'. set (g := zK (rvalue p) * zK (refl_sign b1 b2 (r / n2) (r mod n2))).
  transitivity (lsum (fun e1 => lsum (fun e2 => rt * (if Nat.eqb (n2 * fst e1 + fst e2) r then snd e1 * snd e2 else 0) + rt * g * (if Nat.eqb (n2 * fst e1 + fst e2) r' then snd e1 * snd e2 else 0)) c2) c1).
  - apply lsum_ext. intros e1 I1. rewrite coef_flat. apply lsum_ext. intros e2 I2. rewrite coef_cons, coef_one. cbn [fst snd].
    assert (A1 := R1 _ I1). assert (A2 := R2 _ I2).
    assert (EQ : Nat.eqb (n2 * mirror b1 (fst e1) + mirror b2 (fst e2)) r = Nat.eqb (n2 * fst e1 + fst e2) r').
    { rewrite !pair_eqb; [|exact A2|apply mirror_lt; auto]. rewrite Dm, Mm. 
      assert (G : forall b i k, closed b -> (i < length (names1 b))%nat -> (k < length (names1 b))%nat -> Nat.eqb (mirror b i) k = Nat.eqb i (mirror b k)).
      { intros b i k C Hi Hk. destruct (nth_error (names1 b) i) as [s|] eqn:Es; [|apply nth_error_None in Es; lia]. destruct (nth_error (names1 b) k) as [t|] eqn:Et; [|apply nth_error_None in Et; lia].
        destruct (Nat.eqb_spec (mirror b i) k) as [<-|X]; [rewrite (mirror_invol _ C Es), Nat.eqb_refl; reflexivity|].
        destruct (Nat.eqb_spec i (mirror b k)) as [->|_]; [|reflexivity]. rewrite (mirror_invol _ C Et) in X. contradiction. }
      rewrite !G; auto; [apply Nat.mod_upper_bound; auto|apply Nat.div_lt_upper_bound; auto; fold n1; lia]. }
    rewrite EQ. destruct (Nat.eqb (n2 * fst e1 + fst e2) r') eqn:Q.
    + rewrite pair_eqb in Q by exact A2. apply andb_true_iff in Q. destruct Q as [Q1 Q2]. apply Nat.eqb_eq in Q1, Q2. rewrite Dm in Q1. rewrite Mm in Q2.
      rewrite sc_zK, zK_mul' by (apply rv_pm || apply rs_pm). unfold g. rewrite Q1, Q2, refl_sign_mirror.
      * match goal with |- context [if ?c then _ else _] => destruct c end; ring.
      * apply Nat.div_lt_upper_bound; auto. lia.
      * apply Nat.mod_upper_bound; auto.
    + match goal with |- context [if ?c then _ else _] => destruct c end; ring.
  - transitivity (rt * lsum (fun e1 => lsum (fun e2 => if Nat.eqb (n2 * fst e1 + fst e2) r then snd e1 * snd e2 else 0) c2) c1 +
      rt * g * lsum (fun e1 => lsum (fun e2 => if Nat.eqb (n2 * fst e1 + fst e2) r' then snd e1 * snd e2 else 0) c2) c1); [|unfold g; ring].
    rewrite <- !lsum_mul_l, <- lsum_add. apply lsum_ext. intros e1 _. rewrite <- !lsum_mul_l, <- lsum_add. reflexivity.
Qed.
End Cols.

Theorem combine_ref : forall (lhs rhs : hmat K) b1 b2 start p R m1 m2,
  p <> NA -> over lhs b1 -> over rhs b2 -> half b1 -> half b2 -> small b1 b2 -> closed b1 -> closed b2 ->
  (forall k, k < dim lhs -> definite lhs b1 mm k (m1 k))%nat -> (forall k, k < dim rhs -> definite rhs b2 mm k (m2 k))%nat ->
  let ps := pairs_with (dim lhs) (dim rhs) (fun c1 c2 => keep (energy lhs c1 + energy rhs c2) && rsel R (m1 c1) (m2 c2)) in
  exists M, combine rt keep lhs rhs (names2 (build2 start b1 b2)) (Sym NA p NA R) = Ok M /\ coords M = (coords lhs * coords rhs)%nat /\
  dim M = length ps /\ length (ediag M) = length ps /\
  forall k c1 c2, nth_error ps k = Some (c1, c2) -> energy M k = energy lhs c1 + energy rhs c2 /\
    forall r, (r < coords lhs * coords rhs)%nat -> bvec M k r = rt * (kron (coords rhs) (bvec lhs c1) (bvec rhs c2) r +
                 zK (rvalue p) * reflected b1 b2 (kron (coords rhs) (bvec lhs c1) (bvec rhs c2)) r).
Proof.
  intros lhs rhs b1 b2 start p R m1 m2 NP (L1 & E1 & V1) (L2 & E2 & V2) H1 H2 SM CL1 CL2 DM1 DM2 ps.
  set (COL := fun c1 c2 => rcol b1 b2 p R (nth c1 (bcols lhs) []) (nth c2 (bcols rhs) []) (m1 c1) (m2 c2)).
  assert (IN1 : forall c, (c < dim lhs)%nat -> In (nth c (bcols lhs) []) (bcols lhs)) by (intros; apply nth_In; auto).
  assert (IN2 : forall c, (c < dim rhs)%nat -> In (nth c (bcols rhs) []) (bcols rhs)) by (intros; apply nth_In; auto).
  assert (R1 : forall c1, (c1 < dim lhs)%nat -> forall e, In e (nth c1 (bcols lhs) []) -> (fst e < length (names1 b1))%nat).
  { intros c1 B e He. rewrite <- L1. destruct (V1 _ (IN1 _ B)) as [_ V]. auto. }
  assert (R2 : forall c2, (c2 < dim rhs)%nat -> forall e, In e (nth c2 (bcols rhs) []) -> (fst e < length (names1 b2))%nat).
  { intros c2 B e He. rewrite <- L2. destruct (V2 _ (IN2 _ B)) as [_ V]. auto. }
  destruct (@mapping_ref b1 b2 start CL1 CL2 SM (Sym NA p NA R)) as (mp & HM & HT); auto.
  assert (PS : pairs_with (dim lhs) (dim rhs) (fun c1 c2 => negb (skipped (Sym NA p NA R) c1 c2) && keep (energy lhs c1 + energy rhs c2) && rsel R (m1 c1) (m2 c2)) = ps) by reflexivity.
  assert (LM : length mp = (length (names1 b1) * length (names1 b2))%nat).
  { revert HM. unfold mapping. assert (U : used p = true) by (destruct p; [contradiction|reflexivity|reflexivity]). cbn [ref inv per]. rewrite U. cbn [used orb].
    assert (G : forall buf ts m m', map_loop buf false ts m = Ok m' -> length m' = length m).
    { assert (SV : forall A (l : list A) i x l', set_vec l i x = Ok l' -> length l' = length l).
      { intros A l. induction l as [|y l IH]; intros i x l' H; [discriminate|]. destruct i; cbn in H; [injection H as <-; reflexivity|].
        destruct (set_vec l i x) as [l''| |] eqn:Q; cbn in H; try discriminate. injection H as <-. cbn. f_equal. eapply IH; eauto. }
      intros buf ts. induction ts as [|t ts IH]; intros m m' H; [injection H as <-; reflexivity|]. cbn [map_loop] in H. destruct (0 <? mm (fst_ t))%Z; [eauto|].
      destruct (set_vec m _ _) as [m0| |] eqn:Q; cbn [bind] in H; try discriminate. apply SV in Q. apply IH in H. congruence. }
    intros Hm. apply G in Hm. rewrite Hm. apply repeat_length. }
  eexists. split; [|split; [|split; [|split]]].
  - eapply (@combine_ok K rt keep lhs rhs (names2 (build2 start b1 b2)) (Sym NA p NA R) mp COL (fun c1 c2 => rsel R (m1 c1) (m2 c2))); auto.
    + rewrite L1, L2. exact HM.
    + intros c1 c2 B1 B2. rewrite L2, L1. unfold COL. apply rcolumn_ok; auto; [apply (R1 _ B1)|apply (R2 _ B2)|apply (DM1 _ B1)|apply (DM2 _ B2)].
    + intros c1 c2 B1 B2. apply rcol_empty; [apply (V1 _ (IN1 _ B1))|apply (V2 _ (IN2 _ B2))].
  - reflexivity.
  - unfold dim. cbn [bcols]. rewrite map_length. rewrite <- PS. reflexivity.
  - cbn [ediag]. rewrite map_length. rewrite <- PS. reflexivity.
  - rewrite PS. intros k c1 c2 Hk. unfold energy at 1, bvec at 1. cbn [ediag bcols].
    assert (Lk : (k < length ps)%nat) by (apply nth_error_Some; congruence).
    assert (Hin := nth_error_In _ _ Hk). apply in_pairs_with in Hin. destruct Hin as [[B1 B2] Hs]. apply andb_true_iff in Hs. destruct Hs as [_ Hs].
    assert (N : nth k ps (0, 0)%nat = (c1, c2)) by (apply nth_error_nth; auto).
    split.
    + rewrite (nth_indep _ _ ((fun c => energy lhs (fst c) + energy rhs (snd c)) (0, 0)%nat)) by (rewrite map_length; auto).
      rewrite (map_nth (fun c => energy lhs (fst c) + energy rhs (snd c))). rewrite N. reflexivity.
    + intros r Hr. rewrite (nth_indep _ _ ((fun c => COL (fst c) (snd c)) (0, 0)%nat)) by (rewrite map_length; auto).
      rewrite (map_nth (fun c => COL (fst c) (snd c))). rewrite N. cbn [fst snd]. unfold COL. rewrite L2. rewrite L1, L2 in Hr.
      rewrite (@rcol_coef b1 b2 p R); auto; [apply (R1 _ B1)|apply (R2 _ B2)].
Qed.
End Proofs.
