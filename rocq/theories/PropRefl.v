(** C59: the one-atom basis with a conserved parity under reflection.

    [initBasis1 hs hi hf rt iu energy sp sref srot rq] is SystemOne::initializeBasis (RangeModel); [rt] is 1/sqrt 2 and
    [iu] the imaginary unit of the scalar type ([None] for real scalars).  [wanted] and [passes] are the states that
    the restrictions and the added states ask for (C22).  [alone], [mirror], [amp], [mirrored]: ReflSpec. *)
From Verif Require Import Base StateModel StateProofs Matrix LookupModel SystemModel RangeModel RangeProofs BasisProofs
  ReflSpec ReflProofs ReflProofs2.
From Coq Require Import ZArith Lia Bool String Ascii List.
Import ListNotations.
Set Implicit Arguments.
Local Open Scope string_scope.
Local Open Scope list_scope.
Local Open Scope Z_scope.

Section P.
Context {K : StarRing}.
Add Ring Kr5 : (s_ring K).
Variable hs : string -> N.
Variable hi : Z -> N.
Variable hf : Z -> N.
Variable rt : K.
Variable iu : option K.

(** The imaginary unit, if there is one. *)
Definition iunit : K := match iu with Some i => i | None => s0 end.

(** What a successful call has built: one basis vector for every asked-for state with m >= 0 (and every artificial
    state), and nothing else; its coefficients; the states are the represented states and their
    mirror images; the Hamiltonian is diagonal with the energies of the represented states; nothing that the
    restrictions ask for is lost, as the mirror image of an asked-for state is asked for.
    Restrictions of the wrong parity are excluded as in C22 (C22_parity_refuted). *)
Theorem C59_columns : forall sref energy sp srot (rq : @request K state1) s2 tbl b h,
  sref <> NA -> spin2 sp = Ok s2 -> 0 <= s2 -> sets_ok srot rq ->
  (forall j, In j (rg_j (rq_rg rq)) -> Z.Even (j - s2)) ->
  (forall m, In m (rg_m (rq_rg rq)) -> Z.Even (m - s2)) ->
  (rg_j (rq_rg rq) = [] \/ s2 <= 1) ->
  distinct (rq_add rq) ->
  initBasis1 hs hi hf rt iu energy sp sref srot rq = (tbl, Ok (b, h)) ->
  exists reps : list state1,
    distinct reps /\
    (forall st, In st reps <-> (isArtificial st = true \/ 0 <= m2 st) /\
       ((exists nn ll jj mm, wanted energy sp srot rq s2 nn ll jj mm /\ mkOne hs hi hf sp nn ll jj mm = Ok st) \/
        (In st (rq_add rq) /\ passes srot st = true))) /\
    (forall nn ll jj mm, wanted energy sp srot rq s2 nn ll jj mm -> wanted energy sp srot rq s2 nn ll jj (- mm)) /\
    map fst tbl = seq 0 (List.length tbl) /\ distinct (map snd tbl) /\
    (forall s, In s (map snd tbl) <-> exists st, In st reps /\ (s = st \/ (alone st = false /\ getReflected hs hi hf st = Ok s))) /\
    nr b = List.length tbl /\ nc b = List.length reps /\
    (forall r c s st, nth_error (map snd tbl) r = Some s -> nth_error reps c = Some st ->
       at_ b r c = amp rt iunit sref st s) /\
    nr h = List.length reps /\ nc h = List.length reps /\ diagonal h /\
    (forall c st, nth_error reps c = Some st ->
       if isArtificial st then at_ h c c = s0 else energy (species st) (n st) (l st) (j2 st) = Ok (at_ h c c)).
Proof.
  intros sref energy sp srot rq s2 tbl b h NA0 Hs H0 So Pj Pm Hr Da H.
  destruct (@refl_final K hs hi hf rt iu sref NA0 energy sp srot rq s2 tbl b h Hs H0 So Pj Pm Hr Da H) as (reps & Q).
  exists reps. unfold iunit. unfold ival in Q. tauto.
Qed.

(** The basis vectors are orthonormal. *)
Theorem C59_orthonormal : forall sref energy sp srot (rq : @request K state1) s2 tbl b h,
  sref <> NA -> spin2 sp = Ok s2 -> 0 <= s2 -> sets_ok srot rq ->
  (forall j, In j (rg_j (rq_rg rq)) -> Z.Even (j - s2)) ->
  (forall m, In m (rg_m (rq_rg rq)) -> Z.Even (m - s2)) ->
  (rg_j (rq_rg rq) = [] \/ s2 <= 1) ->
  distinct (rq_add rq) ->
  sconj rt = rt -> sadd (smul rt rt) (smul rt rt) = s1 -> (forall i, iu = Some i -> smul (sconj i) i = s1) ->
  initBasis1 hs hi hf rt iu energy sp sref srot rq = (tbl, Ok (b, h)) ->
  isometry b.
Proof.
  intros sref energy sp srot rq s2 tbl b h NA0 Hs H0 So Pj Pm Hr Da R1 R2 I H.
  destruct (@refl_final K hs hi hf rt iu sref NA0 energy sp srot rq s2 tbl b h Hs H0 So Pj Pm Hr Da H) as (reps & Q). tauto.
Qed.

(** With a real scalar type a basis with a state of m <> 0 cannot be built. *)
Theorem C59_real_scalars : forall sref energy sp srot (rq : @request K state1) s2 tbl b h,
  sref <> NA -> spin2 sp = Ok s2 -> 0 <= s2 -> sets_ok srot rq ->
  (forall j, In j (rg_j (rq_rg rq)) -> Z.Even (j - s2)) ->
  (forall m, In m (rg_m (rq_rg rq)) -> Z.Even (m - s2)) ->
  (rg_j (rq_rg rq) = [] \/ s2 <= 1) ->
  distinct (rq_add rq) ->
  iu = None -> (exists nn ll jj mm, wanted energy sp srot rq s2 nn ll jj mm /\ mm <> 0) ->
  initBasis1 hs hi hf rt iu energy sp sref srot rq <> (tbl, Ok (b, h)).
Proof.
  intros sref energy sp srot rq s2 tbl b h NA0 Hs H0 So Pj Pm Hr Da I (nn & ll & jj & mm & W & N) H.
  destruct (@refl_final K hs hi hf rt iu sref NA0 energy sp srot rq s2 tbl b h Hs H0 So Pj Pm Hr Da H)
    as (reps & _ & Q1 & _ & _ & _ & Q2 & _ & _ & _ & _ & _ & _ & _ & Q3 & _).
  assert (exists mm', wanted energy sp srot rq s2 nn ll jj mm' /\ 0 < mm') as (mm' & W' & N').
  { destruct (Z_lt_le_dec 0 mm); [exists mm; auto|exists (- mm); split; [auto|lia]]. }
  destruct (spin2_analyze sp Hs) as [el Ha].
  destruct (@mkOne_ok hs hi hf sp nn ll jj mm' _ ltac:(destruct W'; lia) Ha) as [st Hst].
  pose proof (mkOne_inv _ _ _ _ _ _ _ _ Hst) as (Nz & _ & E1 & _ & _ & E4 & _).
  apply (Q2 st); auto.
  - apply Q1. split; [right; lia|]. left. exists nn, ll, jj, mm'. auto.
  - unfold alone, isArtificial. apply orb_false_iff. rewrite !Z.eqb_neq. lia.
Qed.

(** Mirror images. *)
Lemma mirror_iff : forall s t, mirror s t = true <->
  species s = species t /\ n s = n t /\ l s = l t /\ j2 s = j2 t /\ m2 s = - m2 t.
Proof. intros. unfold mirror. rewrite !andb_true_iff, !Z.eqb_eq, String.eqb_eq. tauto. Qed.

Lemma mirror_neq : forall s t, mirror s t = true -> m2 t <> 0 -> eq1 s t = false.
Proof.
  intros s t M N. apply mirror_iff in M. apply not_true_iff_false. intro E. apply eq1_iff in E. destruct E as (_ & _ & _ & _ & E). lia.
Qed.

Definition sg (p : parity) : K := match p with ODD => sopp s1 | _ => s1 end.

(** Coefficients of the vector of [st] and of its image under the reflection, at [st] and its mirror image [str]. *)
Lemma reflect_pair : forall i p st str, smul i i = sopp s1 -> p <> NA -> mirror str st = true -> alone st = false ->
  Z.Even (m2 st - j2 st) ->
  let f := amp rt i p st in
  mirrored i f str st = smul (sg p) (f str) /\
  mirrored i f st str = smul (if Z.even (m2 st) then sopp (sg p) else sg p) (f st).
Proof.
  intros i p st str I P M Al [q Hq]. pose proof Al as Al'. unfold alone in Al. apply orb_false_iff in Al. destruct Al as [A Mz]. apply Z.eqb_neq in Mz.
  pose proof (mirror_neq _ _ M Mz) as Ne. apply mirror_iff in M. pose proof M as (M1 & M2 & M3 & M4 & M5).
  apply mirror_iff in M. cbv zeta. unfold mirrored, amp. rewrite Al', M, Ne, eq1_refl.
  unfold phase_of, sg. split.
  - destruct p; try congruence; ring.
  - rewrite M3, M4, M5. replace (- m2 st - j2 st) with (2 * (q - m2 st)) by lia. rewrite Hq.
    rewrite !(Z.mul_comm 2), !Z.div_mul by lia.
    assert (Ev : Z.even (l st + (q - m2 st)) = Bool.eqb (Z.even (l st + q)) (Z.even (m2 st))).
    { replace (l st + (q - m2 st)) with ((l st + q) - m2 st) by lia. rewrite Z.even_sub. reflexivity. }
    rewrite Ev. assert (X : forall a, smul (smul a i) (smul rt i) = sopp (smul a rt)).
    { intros a. transitivity (smul (smul a rt) (smul i i)); [ring|]. rewrite I. ring. }
    destruct (Z.even (l st + q)), (Z.even (m2 st)); cbn [Bool.eqb]; destruct p; try congruence;
         match goal with |- smul (smul (smul ?a i) s1) (smul rt (smul (smul ?b i) ?c)) = _ =>
         transitivity (smul (smul (smul a i) (smul rt i)) (smul b c)); [ring|rewrite X; ring] end.
Qed.

(** Half-integer j: the vector of a state with m <> 0 is an eigenvector of the reflection, with eigenvalue +1 (EVEN)
    or -1 (ODD).  Missing: integer j and m = 0, where it is false (below). *)
Theorem C59_parity_partial : forall i p st str s s', smul i i = sopp s1 -> p <> NA ->
  mirror str st = true -> alone st = false -> Z.Odd (j2 st) -> Z.Even (m2 st - j2 st) ->
  In (s, s') [(st, str); (str, st)] ->
  mirrored i (amp rt i p st) s s' = smul (sg p) (amp rt i p st s).
Proof.
  intros i p st str s s' I P M Al [o Ho] Ev H.
  destruct (@reflect_pair i p st str I P M Al Ev) as [Q1 Q2]. cbv zeta in Q1, Q2.
  destruct Ev as [q Hq]. assert (E : Z.even (m2 st) = false).
  { replace (m2 st) with (2 * (q + o) + 1) by lia. rewrite Z.even_add, Z.even_mul. reflexivity. }
  rewrite E in Q2. destruct H as [H|[H|[]]]; injection H as <- <-; auto.
Qed.

(** Integer j: the two coefficients are reflected with opposite signs, so the vector has no parity. *)
Theorem C59_integer_refuted : forall i p st str, smul i i = sopp s1 -> p <> NA ->
  mirror str st = true -> alone st = false -> Z.Even (j2 st) -> Z.Even (m2 st - j2 st) ->
  let f := amp rt i p st in
  mirrored i f str st = smul (sg p) (f str) /\ mirrored i f st str = sopp (smul (sg p) (f st)).
Proof.
  intros i p st str I P M Al [o Ho] Ev f. subst f.
  destruct (@reflect_pair i p st str I P M Al Ev) as [Q1 Q2]. cbv zeta in Q1, Q2. split; auto.
  destruct Ev as [q Hq]. assert (E : Z.even (m2 st) = true).
  { replace (m2 st) with (2 * (q + o)) by lia. rewrite Z.even_mul. reflexivity. }
  rewrite E in Q2. rewrite Q2. ring.
Qed.

(** m = 0: the bases of both parities contain the same vector. *)
Theorem C59_m0_refuted : forall i st s, m2 st = 0 -> amp rt i EVEN st s = amp rt i ODD st s.
Proof. intros i st s H. unfold amp, alone. rewrite H. rewrite orb_true_r. reflexivity. Qed.

(** The vectors of opposite parity of a state with m <> 0 are orthogonal. *)
Theorem C59_opposite : forall i st str, sconj rt = rt -> smul (sconj i) i = s1 -> mirror str st = true -> alone st = false ->
  sadd (smul (sconj (amp rt i EVEN st st)) (amp rt i ODD st st)) (smul (sconj (amp rt i EVEN st str)) (amp rt i ODD st str)) = s0.
Proof.
  intros i st str R I M Al. pose proof Al as Al'. unfold alone in Al. apply orb_false_iff in Al. destruct Al as [A Mz]. apply Z.eqb_neq in Mz.
  pose proof (mirror_neq _ _ M Mz) as Ne. unfold amp. rewrite Al', M, Ne, eq1_refl. unfold phase_of. rewrite !s_conj_mul, R.
  destruct (Z.even _); rewrite ?sconj_opp, !sconj_1.
  - transitivity (sadd (smul rt rt) (sopp (smul (smul rt rt) (smul (sconj i) i)))); [ring|]. rewrite I. ring.
  - transitivity (sadd (smul rt rt) (sopp (smul (smul rt rt) (smul (sconj i) i)))); [ring|]. rewrite I. ring.
Qed.
End P.

(** A basis with reflection symmetry: n = 2 of a spin-1/2 atom has 8 states and 4 basis vectors of each parity (over the
    Gaussian integers, with 1 in place of 1/sqrt 2). *)
Definition h0 {A} : A -> N := fun _ => 0%N.
Definition gi : GZ := (0, 1).
Example C59_nonvacuous : let rq := Request (K:=GZ) (State:=state1) (Ranges [2] [] [] []) None None [] in
  let r := initBasis1 (K:=GZ) h0 h0 h0 s1 (Some gi) (fun _ _ _ _ => Ok s1) "Rb" EVEN None rq in
  match snd r with Ok (b, h) => nr b = 8%nat /\ nc b = 4%nat | _ => False end /\ List.length (fst r) = 8%nat /\
  spin2 "Rb" = Ok 1 /\ sets_ok None rq /\
  wanted (K:=GZ) (fun _ _ _ _ => Ok s1) "Rb" None rq 1 2 1 3 (-3) /\
  smul gi gi = sopp (s1 : GZ) /\ smul (sconj gi) gi = (s1 : GZ).
Proof.
  cbv zeta. split. { vm_compute. split; reflexivity. }
  split; [vm_compute; reflexivity|]. split; [reflexivity|]. split.
  { repeat split; cbn; repeat constructor; cbn; intuition lia. }
  split; [|split; reflexivity].
  unfold wanted. cbn. repeat split; try lia; auto.
  - exists 1; reflexivity.
  - exists (-3); reflexivity.
  - exists (1, 0). split; [reflexivity|split; intros ? ?; discriminate].
Qed.

Print Assumptions C59_columns. Print Assumptions C59_orthonormal. Print Assumptions C59_real_scalars.
Print Assumptions C59_parity_partial. Print Assumptions C59_integer_refuted. Print Assumptions C59_m0_refuted.
Print Assumptions C59_opposite.
