(** The matrix elements of the library fulfil the laws assumed in TwoSymProofs*.v; hermiticity of the matrix. *)
From Coq Require Import ZArith Lia Bool Reals Lra String List.
Import ListNotations.
From Verif Require Import Base StateModel MEModel Racah MESpec MEProofs MEReal Matrix FieldModel GreenModel TwoModel TwoSpec TwoMatModel TwoSymSpec TwoSymProofs TwoSymProofs2 TwoSymProofs3.
Set Implicit Arguments.
Local Open Scope R_scope.

Lemma rsgn_par : forall z, rsgn z = par z. Proof. intros z. unfold rsgn, par. destruct (Z.even z); reflexivity. Qed.
Lemma par_opp : forall z, par (- z) = par z. Proof. intros z. unfold par. rewrite Z.even_opp. reflexivity. Qed.
Lemma par_eq : forall a b, Z.even (a + b) = true -> par a = par b.
Proof. intros a b E. unfold par. rewrite Z.even_add in E. destruct (Z.even a), (Z.even b); cbn in E; congruence. Qed.
Lemma trunc2_opp : forall z, trunc2 (- z) = (- trunc2 z)%Z. Proof. intros z. unfold trunc2. apply Z.quot_opp_l. lia. Qed.

Section E.
Variable radial : string -> Z -> string -> Z -> Z -> Z -> Z -> Z -> Z -> Z -> res R.
Variables (e : R) (dn : string) (mth : Z).
Variable ss : list state1.
Variable el : state1 -> state1 -> nat -> R.
Hypothesis A : atom_states ss.
Hypothesis C : calculated radial e dn mth ss el.

Lemma phys : forall a, In a ss -> isArtificial a = false -> physical a.
Proof. intros a I N. destruct A as (H & _). destruct (H a I); [congruence|assumption]. Qed.

Lemma m_even : forall a c, In a ss -> In c ss -> isArtificial a = false -> isArtificial c = false -> Z.even (m2 a - m2 c) = true.
Proof.
  intros a c Ia Ic Na Nc. destruct (phys _ Ia Na) as (_ & _ & _ & E1 & E2 & _). destruct (phys _ Ic Nc) as (_ & _ & _ & F1 & F2 & _).
  destruct A as (_ & S). destruct (S a c Ia Ic Na Nc) as (_ & S2). rewrite S2 in E1. apply even_ex in E1, E2, F1, F2. destruct E1 as (x1 & E1), E2 as (x2 & E2), F1 as (y1 & F1), F2 as (y2 & F2).
  apply even_ex. exists (l a - l c - x1 + y1 - x2 + y2)%Z. lia.
Qed.
Lemma selM_sym : forall a c k, selM a c k = selM c a k.
Proof. intros a c k. unfold selM. rewrite (proj1 (sel_sym a c _)). reflexivity. Qed.
Lemma selM_q : forall a c k, selM a c k = true -> (Z.abs (trunc2 (m2 a - m2 c)) <= Z.of_nat k)%Z.
Proof.
  intros a c k H. unfold selM, selMultipole, guard2 in H. destruct (isArtificial a || isArtificial c); [discriminate H|].
  apply andb_prop in H. destruct H as (H & _). apply andb_prop in H. destruct H as (_ & H). apply Z.leb_le in H. unfold trunc2. Z.to_euclidean_division_equations; lia.
Qed.
Lemma selM_l : forall a c k, selM a c k = true -> Z.even (Z.of_nat k + (l a + l c)) = true.
Proof.
  intros a c k H. unfold selM, selMultipole, guard2 in H. destruct (isArtificial a || isArtificial c); [discriminate H|].
  apply andb_prop in H. destruct H as (H & _). apply andb_prop in H. destruct H as (H & _). apply andb_prop in H. destruct H as (H & _). unfold validL_mult in H. apply andb_prop in H. destruct H as (_ & H). apply Z.eqb_eq in H.
  apply even_ex. destruct (Z.abs_spec (l a - l c)) as [(_ & Q)|(_ & Q)]; rewrite Q in H; clear Q.
  - exists (l c + (Z.quot (Z.of_nat k) 2 + Z.quot (l a - l c) 2) + Z.rem (Z.of_nat k) 2)%Z. pose proof (Z.quot_rem' (Z.of_nat k) 2). pose proof (Z.quot_rem' (l a - l c) 2). lia.
  - exists (l a + (Z.quot (Z.of_nat k) 2 + Z.quot (- (l a - l c)) 2) + Z.rem (Z.of_nat k) 2)%Z. pose proof (Z.quot_rem' (Z.of_nat k) 2). pose proof (Z.quot_rem' (- (l a - l c)) 2). lia.
Qed.
Lemma el_zero : forall a c k, In a ss -> In c ss -> isArtificial a = false -> isArtificial c = false -> selM a c k = false -> el a c k = 0.
Proof.
  intros a c k Ia Ic Na Nc H. assert (E := C _ _ k Ia Ic Na Nc). eapply (@multipole_forbidden radial e) in E; [exact E|apply phys; assumption|apply phys; assumption|apply A; assumption|].
  unfold selM in H. unfold selMultipole, guard2 in *. rewrite Na, Nc in *. cbn in *. rewrite H. reflexivity.
Qed.
Lemma el_T : forall a c k, In a ss -> In c ss -> isArtificial a = false -> isArtificial c = false -> el c a k = par (trunc2 (m2 a - m2 c)) * el a c k.
Proof.
  intros a c k Ia Ic Na Nc. assert (E := C _ _ k Ia Ic Na Nc). assert (F := C _ _ k Ic Ia Nc Na). eapply (@multipole_adjoint radial e) in E; [|apply phys; assumption|apply phys; assumption|apply A; assumption].
  rewrite E in F. injection F as <-. unfold MESpec.phase. rewrite rsgn_par, (trunc2_div _ (m_even _ _ Ia Ic Na Nc)). reflexivity.
Qed.
Lemma mirror_art : forall a a', mirror1 a a' -> isArtificial a' = isArtificial a.
Proof. intros a a' (_ & N & _). unfold isArtificial. rewrite N. reflexivity. Qed.
Lemma selM_mirror : forall a a' c c' k, mirror1 a a' -> mirror1 c c' -> selM a' c' k = selM a c k.
Proof.
  intros a a' c c' k Ma Mc. unfold selM, selMultipole, guard2. rewrite (mirror_art Ma), (mirror_art Mc). destruct (isArtificial a || isArtificial c); [reflexivity|].
  destruct Ma as (_ & _ & La & Ja & _ & Ma), Mc as (_ & _ & Lc & Jc & _ & Mc). unfold validL_mult, validJ_mult, noZero. rewrite La, Ja, Ma, Lc, Jc, Mc.
  replace (- m2 a - - m2 c)%Z with (- (m2 a - m2 c))%Z by lia. rewrite Z.abs_opp. replace (- m2 a =? - - m2 c)%Z with (m2 a =? - m2 c)%Z; [reflexivity|].
  destruct (Z.eqb_spec (m2 a) (- m2 c)), (Z.eqb_spec (- m2 a) (- - m2 c)); lia.
Qed.
Lemma el_mirror : forall a a' c c' k, In a ss -> In c ss -> In a' ss -> In c' ss -> isArtificial a = false -> isArtificial c = false ->
  mirror1 a a' -> mirror1 c c' -> el a' c' k = (reflection_sign a * reflection_sign c * par (trunc2 (m2 a - m2 c))) * el a c k.
Proof.
  intros a a' c c' k Ia Ic Ia' Ic' Na Nc Ma Mc. assert (Na' : isArtificial a' = false) by (rewrite (mirror_art Ma); exact Na). assert (Nc' : isArtificial c' = false) by (rewrite (mirror_art Mc); exact Nc).
  destruct (selM a c k) eqn:SL.
  2:{ rewrite (@el_zero a c k), (@el_zero a' c' k); try assumption; [ring|]. rewrite (selM_mirror k Ma Mc). exact SL. }
  apply selM_l in SL. assert (PA := phys _ Ia Na). assert (PC := phys _ Ic Nc). assert (SA := proj2 A _ _ Ia Ic Na Nc).
  assert (E := C _ _ k Ia Ic Na Nc). assert (F := C _ _ k Ia' Ic' Na' Nc').
  apply (@multipole_ok radial e) in E; [|assumption|assumption|assumption]. apply (@multipole_ok radial e) in F; [|apply phys; assumption|apply phys; assumption|apply A; assumption].
  unfold multipole_textbook in E, F. assert (RO : forall kk, radial_of radial dn mth a' c' kk = radial_of radial dn mth a c kk).
  { intros kk. destruct Ma as (X1 & X2 & X3 & X4 & _), Mc as (Y1 & Y2 & Y3 & Y4 & _). unfold radial_of. rewrite X1, X2, X3, X4, Y2, Y3, Y4. reflexivity. }
  rewrite RO in F. clear RO. destruct (radial_of radial dn mth a c _) as [v| |]; [|discriminate E|discriminate E]. cbn [bind] in E, F. injection E as <-. injection F as <-.
  replace (reduced_orbital a' c' (Z.of_nat k)) with (reduced_orbital a c (Z.of_nat k)) by (destruct Ma as (X1 & X2 & X3 & X4 & X5 & _), Mc as (Y1 & Y2 & Y3 & Y4 & _); unfold reduced_orbital; rewrite X3, X4, X5, Y3, Y4; reflexivity).
  replace (reduced_Ck a' c' (Z.of_nat k)) with (reduced_Ck a c (Z.of_nat k)) by (destruct Ma as (X1 & X2 & X3 & X4 & X5 & _), Mc as (Y1 & Y2 & Y3 & Y4 & _); unfold reduced_Ck; rewrite X3, Y3; reflexivity).
  replace (wigner_eckart a' c' (Z.of_nat k)) with (reflection_sign a * reflection_sign c * par (trunc2 (m2 a - m2 c)) * wigner_eckart a c (Z.of_nat k)); [ring|].
  assert (EM := m_even _ _ Ia Ic Na Nc). rewrite (trunc2_div _ EM).
  destruct Ma as (X1 & X2 & X3 & X4 & X5 & X6), Mc as (Y1 & Y2 & Y3 & Y4 & Y5 & Y6). unfold wigner_eckart. rewrite X4, X6, Y4, Y6. replace (- m2 a - - m2 c)%Z with (- (m2 a - m2 c))%Z by lia.
  rewrite W3j_flip. unfold MESpec.phase, reflection_sign. repeat match goal with |- context [rsgn ?z] => change (rsgn z) with (par z) end. rewrite <- !Rmult_assoc. f_equal. rewrite <- !par_add. apply par_eq.
  destruct PA as (_ & _ & _ & E1 & E2 & _), PC as (_ & _ & _ & F1 & F2 & _). destruct SA as (_ & SA). rewrite SA in E1. clear - E1 E2 F1 F2 SL.
  apply even_ex in E1, E2, F1, F2, SL. destruct E1 as (x1 & E1), E2 as (x2 & E2), F1 as (y1 & F1), F2 as (y2 & F2), SL as (z & SL).
  apply even_ex. set (u := Z.of_nat k) in *. clearbody u.
  rewrite (div2_of (j2 a - m2 a) x2), (div2_of (j2 c - m2 c) y2), (div2_of (m2 a - m2 c) (l a - l c - x1 + y1 - x2 + y2)) by lia.
  rewrite (div2_of (j2 a - - m2 a) (j2 a - x2)) by lia. rewrite (div2_of (j2 a + 2 * u + j2 c) (u + j2 a - (l a - l c - x1 + y1))) by lia.
  exists (z + y2 + j2 a)%Z. lia.
Qed.
End E.

(** ** Pairs *)
Section P.
Variable radial1 radial2 : string -> Z -> string -> Z -> Z -> Z -> Z -> Z -> Z -> Z -> res R.
Variables (e1 e2 : R) (dn1 dn2 : string) (mth1 mth2 : Z).
Variables ss1 ss2 : list state1.
Variables el1 el2 : state1 -> state1 -> nat -> R.
Hypothesis A1 : atom_states ss1.
Hypothesis A2 : atom_states ss2.
Hypothesis C1 : calculated radial1 e1 dn1 mth1 ss1 el1.
Hypothesis C2 : calculated radial2 e2 dn2 mth2 ss2 el2.

Lemma art2 : forall x, artificial2 x = false -> isArtificial (fst1 x) = false /\ isArtificial (snd1 x) = false.
Proof. intros x H. unfold artificial2 in H. apply orb_false_elim in H. exact H. Qed.
Lemma data_lawful : forall r c, pair_of ss1 ss2 r -> pair_of ss1 ss2 c -> artificial2 r = false -> artificial2 c = false -> lawful (pair_data el1 el2 r c).
Proof.
  intros r c (R1 & R2) (D1 & D2) Nr Nc. destruct (art2 _ Nr), (art2 _ Nc). unfold lawful, pair_data. cbn [psel1 psel2 pM1 pM2 pq1 pq2]. split; [|split; [|split]].
  - intros k H'. eapply (el_zero A1 C1); eassumption.
  - intros k H'. eapply (el_zero A2 C2); eassumption.
  - intros k. apply selM_q.
  - intros k. apply selM_q.
Qed.
Lemma data_T : forall r c, pair_of ss1 ss2 r -> pair_of ss1 ss2 c -> artificial2 r = false -> artificial2 c = false -> transposed (pair_data el1 el2 r c) (pair_data el1 el2 c r).
Proof.
  intros r c (R1 & R2) (D1 & D2) Nr Nc. destruct (art2 _ Nr), (art2 _ Nc). unfold transposed, pair_data. cbn [psel1 psel2 pM1 pM2 pq1 pq2].
  rewrite <- !trunc2_opp. split; [f_equal; lia|]. split; [f_equal; lia|]. split; [intros; apply selM_sym|]. split; [intros; apply selM_sym|]. split; intros k.
  - apply (el_T A1 C1); assumption.
  - apply (el_T A2 C2); assumption.
Qed.
Lemma data_parity : forall r c, parity_law (pair_data el1 el2 r c) (l (fst1 r) + l (fst1 c)) (l (snd1 r) + l (snd1 c)).
Proof. intros r c. split; intros k; cbn [psel1 psel2 pair_data]; apply selM_l. Qed.
Lemma data_R : forall r c r' c', pair_of ss1 ss2 r -> pair_of ss1 ss2 c -> pair_of ss1 ss2 r' -> pair_of ss1 ss2 c' -> artificial2 r = false -> artificial2 c = false ->
  mirror2 r r' -> mirror2 c c' ->
  reflected_data (pair_data el1 el2 r c) (pair_data el1 el2 r' c')
    (reflection_sign (fst1 r) * reflection_sign (fst1 c) * par (trunc2 (m2 (fst1 r) - m2 (fst1 c))))
    (reflection_sign (snd1 r) * reflection_sign (snd1 c) * par (trunc2 (m2 (snd1 r) - m2 (snd1 c)))).
Proof.
  intros r c r' c' (R1 & R2) (D1 & D2) (R1' & R2') (D1' & D2') Nr Nc (M1 & M2) (M1' & M2'). destruct (art2 _ Nr), (art2 _ Nc). unfold reflected_data, pair_data. cbn [psel1 psel2 pM1 pM2 pq1 pq2].
  rewrite <- !trunc2_opp.
  assert (X : forall a a' c c', mirror1 a a' -> mirror1 c c' -> trunc2 (m2 a' - m2 c') = trunc2 (- (m2 a - m2 c))).
  { intros a a' x x' (_ & _ & _ & _ & _ & E) (_ & _ & _ & _ & _ & F). rewrite E, F. f_equal. lia. }
  split; [apply X; assumption|]. split; [apply X; assumption|]. split; [intros; apply selM_mirror; assumption|]. split; [intros; apply selM_mirror; assumption|]. split; intros k.
  - apply (el_mirror A1 C1); assumption.
  - apply (el_mirror A2 C2); assumption.
Qed.

Variables kC tol : R.
Variable isreal : bool.
Variable g : geo.
Let entry := pair_entry kC tol isreal g el1 el2.

Lemma pair_T : forall r c, pair_of ss1 ss2 r -> pair_of ss1 ss2 c -> entry c r = rmap cconj (entry r c).
Proof.
  intros r c Pr Pc. unfold entry, pair_entry. rewrite (orb_comm (artificial2 r)). destruct (artificial2 c) eqn:Nc, (artificial2 r) eqn:Nr; cbn [orb]; try (cbn; f_equal; apply injective_projections; cbn; ring).
  apply entry_T; [apply data_T; assumption|apply data_lawful; assumption].
Qed.
Lemma pair_R : forall r c r' c', 0 <= tol -> gvy g = Some 0 -> pair_of ss1 ss2 r -> pair_of ss1 ss2 c -> pair_of ss1 ss2 r' -> pair_of ss1 ss2 c' ->
  mirror2 r r' -> mirror2 c c' -> entry r' c' = rmap (times (reflection_sign2 r * reflection_sign2 c)) (entry r c).
Proof.
  intros r c r' c' T0 Y Pr Pc Pr' Pc' Mr Mc. unfold entry, pair_entry.
  assert (AR : forall x x', mirror2 x x' -> artificial2 x' = artificial2 x) by (intros x x' (M & M'); unfold artificial2; rewrite (mirror_art M), (mirror_art M'); reflexivity).
  rewrite (AR r r' Mr), (AR c c' Mc). destruct (artificial2 c) eqn:Nc, (artificial2 r) eqn:Nr; cbn [orb]; try (cbn; f_equal; apply injective_projections; cbn; ring).
  assert (PM : forall a, reflection_sign a = 1 \/ reflection_sign a = -1) by (intros a; apply par_pm).
  assert (PP : forall a c q, reflection_sign a * reflection_sign c * par q = 1 \/ reflection_sign a * reflection_sign c * par q = -1) by (intros a b q; destruct (PM a) as [-> | ->], (PM b) as [-> | ->], (par_pm q) as [-> | ->]; lra).
  rewrite (@entry_R kC tol) with (p := pair_data el1 el2 r c) (f1 := reflection_sign (fst1 r) * reflection_sign (fst1 c) * par (trunc2 (m2 (fst1 r) - m2 (fst1 c)))) (f2 := reflection_sign (snd1 r) * reflection_sign (snd1 c) * par (trunc2 (m2 (snd1 r) - m2 (snd1 c))));
    [|assumption|apply PP|apply PP|apply data_R; assumption|apply data_lawful; assumption|assumption].
  f_equal. f_equal. unfold reflection_sign2. cbn [pq1 pq2 pair_data]. rewrite par_add. set (u := par (trunc2 _)). set (v := par (trunc2 (m2 (snd1 r) - _))).
  assert (u * u = 1) by apply par_sq. assert (v * v = 1) by apply par_sq.
  match goal with |- ?L = _ => replace L with ((u * u) * (v * v) * (reflection_sign (fst1 r) * reflection_sign (snd1 r) * (reflection_sign (fst1 c) * reflection_sign (snd1 c)))) by ring end. rewrite H, H0. ring.
Qed.
Lemma pair_rot : forall r c, 0 <= tol -> gvx g = Some 0 -> gvy g = Some 0 -> gsurf g = None \/ (gord g <= 3)%nat -> pair_of ss1 ss2 r -> pair_of ss1 ss2 c ->
  momentum2 r <> momentum2 c -> entry r c = Ok (0, 0) \/ entry r c = Throw.
Proof.
  intros r c T0 X Y S Pr Pc M. unfold entry, pair_entry. destruct (artificial2 c) eqn:Nc, (artificial2 r) eqn:Nr; cbn [orb]; auto.
  apply entry_rot; try assumption; [apply data_lawful; assumption|]. cbn [pq1 pq2 pair_data]. destruct (art2 _ Nr), (art2 _ Nc). destruct Pr as (R1 & R2), Pc as (D1 & D2).
  assert (E1 := m_even A1 _ _ R1 D1 H H1). assert (E2 := m_even A2 _ _ R2 D2 H0 H2). rewrite (trunc2_div _ E1), (trunc2_div _ E2). apply even_ex in E1, E2. destruct E1 as (x & E1), E2 as (y & E2). rewrite (div2_of _ _ E1), (div2_of _ _ E2).
  unfold momentum2 in M. lia.
Qed.
End P.

Section X.
Variable radial : string -> Z -> string -> Z -> Z -> Z -> Z -> Z -> Z -> Z -> res R.
Variables (e : R) (dn : string) (mth : Z).
Variables ss : list state1.
Variables el : state1 -> state1 -> nat -> R.
Hypothesis A : atom_states ss.
Hypothesis C : calculated radial e dn mth ss el.
Variables kC tol : R.
Variable isreal : bool.
Variable g : geo.
Let entry := pair_entry kC tol isreal g el el.
Definition exch (x : state2) : state2 := mkTwo_pair (snd1 x) (fst1 x).

Lemma par_pairs : forall r c, par (l (fst1 r) + l (fst1 c) + (l (snd1 r) + l (snd1 c))) = parity2 r * parity2 c.
Proof. intros r c. unfold parity2. rewrite <- par_add. f_equal. lia. Qed.
Lemma art_exch : forall x, artificial2 (exch x) = artificial2 x. Proof. intros x. unfold artificial2. cbn. apply orb_comm. Qed.
Lemma pair_X : forall r c, gsurf g = None -> pair_of ss ss r -> pair_of ss ss c ->
  entry (exch r) (exch c) = rmap (times (parity2 r * parity2 c)) (entry r c).
Proof.
  intros r c N Pr Pc. unfold entry, pair_entry. rewrite !art_exch. destruct (artificial2 c) eqn:Nc, (artificial2 r) eqn:Nr; cbn [orb]; try (cbn; f_equal; apply injective_projections; cbn; ring).
  change (pair_data el el (exch r) (exch c)) with (swapped (pair_data el el r c)). rewrite <- par_pairs. apply entry_X; [apply data_parity|eapply data_lawful; eassumption|assumption].
Qed.
Lemma pair_perm : forall r c, gsurf g = None -> (gord g <= 3)%nat -> pair_of ss ss r -> pair_of ss ss c -> entry (exch r) (exch c) = entry r c.
Proof.
  intros r c N O Pr Pc. unfold entry, pair_entry. rewrite !art_exch. destruct (artificial2 c) eqn:Nc, (artificial2 r) eqn:Nr; cbn [orb]; try reflexivity.
  change (pair_data el el (exch r) (exch c)) with (swapped (pair_data el el r c)). eapply entry_perm; [apply data_parity|eapply data_lawful; eassumption|assumption|assumption].
Qed.
End X.

(** ** The matrix *)
Section Mat.
Variables kC tol : R.
Variable isreal : bool.
Variable g : geo.
Variables el1 el2 : state1 -> state1 -> nat -> R.
Let entry := pair_entry kC tol isreal g el1 el2.
Let F (i j : nat) (v : (nat * state2) * (nat * state2) -> CR) := fun (e : (nat * state2) * (nat * state2)) (acc : CR) => if Nat.eqb (fst (fst e)) i && Nat.eqb (fst (snd e)) j then sadd (s := CR) (v e) acc else acc.

Lemma hits_none : forall i j v L acc, (forall e, In e L -> fst (fst e) = i -> fst (snd e) = j -> False) -> fold_right (F i j v) acc L = acc.
Proof.
  intros i j v L acc H. induction L as [|e L IH]; cbn [fold_right]; [reflexivity|]. rewrite IH by (intros x I; apply H; right; exact I). unfold F.
  destruct (Nat.eqb_spec (fst (fst e)) i), (Nat.eqb_spec (fst (snd e)) j); cbn [andb]; try reflexivity. exfalso. apply (H e); [left; reflexivity|assumption|assumption].
Qed.
Lemma computed_in : forall tbl e, In e (computed tbl) <-> In (fst e) tbl /\ In (snd e) tbl /\ (fst (snd e) <= fst (fst e))%nat.
Proof.
  intros tbl [r c]. unfold computed. rewrite in_flat_map. split.
  - intros (c' & Ic & H). apply in_map_iff in H. destruct H as (r' & E & H). apply filter_In in H. destruct H as (Ir & H). injection E as <- <-. cbn. apply negb_true_iff, Nat.ltb_ge in H. auto.
  - cbn. intros (Ir & Ic & H). exists c. split; [exact Ic|]. apply in_map_iff. exists r. split; [reflexivity|]. apply filter_In. split; [exact Ir|]. apply negb_true_iff, Nat.ltb_ge. exact H.
Qed.
Lemma key_inj : forall (tbl : list (nat * state2)) a b, NoDup (map fst tbl) -> In a tbl -> In b tbl -> fst a = fst b -> a = b.
Proof.
  intros tbl a b N Ia Ib E. induction tbl as [|x tbl IH]; [destruct Ia|]. cbn in N. inversion N as [|? ? N1 N2]. subst. destruct Ia as [<-|Ia], Ib as [<-|Ib]; auto.
  - exfalso. apply N1. rewrite E. apply in_map. exact Ib.
  - exfalso. apply N1. rewrite <- E. apply in_map. exact Ia.
Qed.
Lemma computed_nodup : forall tbl, NoDup (map fst tbl) -> NoDup (computed tbl).
Proof.
  intros tbl N. assert (ND : NoDup tbl) by (eapply NoDup_map_inv; exact N). unfold computed. assert (G : forall T : list (nat * state2), NoDup T -> NoDup (flat_map (fun c => map (fun r => (r, c)) (filter (fun r => negb (Nat.ltb (fst r) (fst c))) tbl)) T)); [|apply G; exact ND].
  clear N. intros T. induction T as [|c T IH]; intros NT; cbn [flat_map]; [constructor|]. inversion NT as [|? ? N1 N2]. subst.
  assert (AP : forall (X Y : list ((nat * state2) * (nat * state2))), NoDup X -> NoDup Y -> (forall z, In z X -> In z Y -> False) -> NoDup (X ++ Y)).
  { intros X Y NX NY D. induction X as [|z X IX]; [exact NY|]. cbn. inversion NX. subst. constructor.
    - rewrite in_app_iff. intros [Q|Q]; [contradiction|]. apply (D z); [left; reflexivity|exact Q].
    - apply IX; [assumption|]. intros w I1 I2. apply (D w); [right; exact I1|exact I2]. }
  apply AP; [|apply IH; exact N2|].
  - apply FinFun.Injective_map_NoDup; [|apply NoDup_filter; exact ND]. intros x y E. injection E as E. exact E.
  - intros z Z1 Z2. apply in_map_iff in Z1. destruct Z1 as (r & <- & _). apply in_flat_map in Z2. destruct Z2 as (c' & Ic & Z2). apply in_map_iff in Z2. destruct Z2 as (r' & E & _). injection E as _ <-. contradiction.
Qed.
Definition valof (r : res cx) : CR := match r with Ok v => v | _ => (0, 0) end.
Lemma stored_value : forall tbl i j x y, NoDup (map fst tbl) -> In (i, x) tbl -> In (j, y) tbl -> (j <= i)%nat ->
  stored kC tol isreal g el1 el2 tbl i j = valof (entry x y).
Proof.
  intros tbl i j x y N Ix Iy L. unfold stored. set (v := fun e : (nat * state2) * (nat * state2) => valof (entry (snd (fst e)) (snd (snd e)))).
  change (fold_right (F i j v) (@Matrix.s0 CR) (computed tbl) = valof (entry x y)).
  assert (I : In ((i, x), (j, y)) (computed tbl)) by (apply computed_in; cbn; auto). apply in_split in I. destruct I as (L1 & L2 & E). assert (ND := computed_nodup _ N). rewrite E in ND |- *. rewrite fold_right_app. cbn [fold_right].
  assert (U : forall e, In e (computed tbl) -> fst (fst e) = i -> fst (snd e) = j -> e = ((i, x), (j, y))).
  { intros [r c] Ie E1 E2. apply computed_in in Ie. cbn in Ie, E1, E2. destruct Ie as (Ir & Ic & _). f_equal; eapply key_inj; try exact N; assumption. }
  apply NoDup_remove_2 in ND. rewrite E in U. rewrite hits_none.
  - rewrite (@hits_none i j v L2); [|intros e Ie E1 E2; apply ND; apply in_or_app; right; rewrite <- (U e); [exact Ie|apply in_or_app; right; right; exact Ie|exact E1|exact E2]].
    unfold F. cbn [fst snd]. rewrite !Nat.eqb_refl. cbn [andb]. unfold v. cbn [fst snd]. apply injective_projections; cbn; ring.
  - intros e Ie E1 E2. apply ND, in_or_app. left. rewrite <- (U e); [exact Ie|apply in_or_app; left; exact Ie|exact E1|exact E2].
Qed.
Lemma tbl_nth : forall (tbl : list (nat * state2)) i x, map fst tbl = seq 0 (length tbl) -> nth_error (map snd tbl) i = Some x -> In (i, x) tbl /\ (i < length tbl)%nat.
Proof.
  intros tbl i x M H. assert (L : (i < length tbl)%nat) by (rewrite <- (map_length snd tbl); apply nth_error_Some; congruence). split; [|exact L].
  rewrite nth_error_map in H. destruct (nth_error tbl i) as [[k y]|] eqn:E; [|discriminate H]. cbn in H. injection H as ->. assert (K : nth_error (map fst tbl) i = Some k) by (rewrite nth_error_map, E; reflexivity).
  rewrite M in K. assert (K2 : nth_error (seq 0 (length tbl)) i = Some i) by (rewrite nth_error_nth' with (d := 0%nat) by (rewrite seq_length; exact L); rewrite seq_nth by exact L; reflexivity). rewrite K2 in K. injection K as <-. apply nth_error_In in E. exact E.
Qed.
Lemma nodup_tbl : forall (tbl : list (nat * state2)), map fst tbl = seq 0 (length tbl) -> NoDup (map fst tbl).
Proof. intros tbl ->. apply seq_NoDup. Qed.

Section H.
Variables P : state2 -> Prop.
Hypothesis HT : forall r c, P r -> P c -> entry c r = rmap cconj (entry r c).

Lemma matrix_spec : forall tbl, map fst tbl = seq 0 (length tbl) -> (forall x, In x (map snd tbl) -> P x) ->
  match pair_matrix kC tol isreal g el1 el2 tbl with
  | Ok V => nr V = length tbl /\ nc V = length tbl /\
            (forall i j x y, nth_error (map snd tbl) i = Some x -> nth_error (map snd tbl) j = Some y -> entry x y = Ok (at_ V i j))
  | Throw => exists x y, In x (map snd tbl) /\ In y (map snd tbl) /\ (forall v, entry x y <> Ok v)
  | UB => False
  end.
Proof.
  intros tbl M PT. assert (N := nodup_tbl _ M). unfold pair_matrix. destruct (forallb _ (computed tbl)) eqn:FB.
  - split; [reflexivity|]. split; [reflexivity|]. rewrite forallb_forall in FB.
    assert (B : forall i j x y, nth_error (map snd tbl) i = Some x -> nth_error (map snd tbl) j = Some y -> (j <= i)%nat -> entry x y = Ok (stored kC tol isreal g el1 el2 tbl i j)).
    { intros i j x y Hx Hy L. apply tbl_nth in Hx, Hy; try exact M. destruct Hx as (Ix & _), Hy as (Iy & _). rewrite (@stored_value tbl i j x y N Ix Iy L). assert (Q := FB ((i, x), (j, y)) (proj2 (computed_in tbl ((i, x), (j, y))) (conj Ix (conj Iy L)))). cbn [fst snd] in Q. fold entry in Q. destruct (entry x y); [reflexivity|discriminate Q|discriminate Q]. }
    intros i j x y Hx Hy. cbn [at_]. destruct (Nat.leb_spec j i) as [L|L]; [apply B; assumption|].
    assert (Q := B j i y x Hy Hx (Nat.lt_le_incl _ _ L)). rewrite (@HT y x); [rewrite Q; reflexivity|apply PT; eapply nth_error_In; exact Hy|apply PT; eapply nth_error_In; exact Hx].
  - assert (EX : exists e, In e (computed tbl) /\ (match entry (snd (fst e)) (snd (snd e)) with Ok _ => true | _ => false end) = false).
    { clear - FB. induction (computed tbl) as [|e L IH]; [discriminate FB|]. cbn [forallb] in FB. apply andb_false_iff in FB. destruct FB as [FB|FB]; [exists e; split; [left; reflexivity|exact FB]|]. destruct (IH FB) as (e' & I & Q). exists e'. split; [right; exact I|exact Q]. }
    destruct EX as ([[i x] [j y]] & I & Q). apply computed_in in I. cbn in I, Q. destruct I as (Ix & Iy & _). exists x, y. split; [change x with (snd (i, x)); apply in_map; exact Ix|]. split; [change y with (snd (j, y)); apply in_map; exact Iy|].
    intros v Hv. rewrite Hv in Q. discriminate Q.
Qed.
End H.
End Mat.
