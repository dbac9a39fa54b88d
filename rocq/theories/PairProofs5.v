(** Exchange-symmetrised pair bases: the sectors of inversion, permutation and rotation symmetry. *)
From Verif Require Import Base StateModel StateProofs Matrix LookupModel LookupProofs SystemModel RangeModel BasisProofs
  SystemProofs OverlapProofs OverlapProofs2 PairModel PairSpec PairProofs PairProofs2 PairProofs3 PairProofs4.
From Coq Require Import ZArith Lia Bool String Arith List.
Import ListNotations.
Set Implicit Arguments.
Local Open Scope nat_scope.
Local Open Scope list_scope.

Lemma pm_add : forall a b, pm (a + b) = (pm a * pm b)%Z.
Proof. intros. unfold pm. rewrite Z.even_add. destruct (Z.even a), (Z.even b); reflexivity. Qed.

Section Sector.
Context {K : StarRing}.
Add Ring Kr11 : (s_ring K).
Local Open Scope star_scope.

Lemma exchange_basis_ext : forall rt (s : @onesys K) rq thr sg (al al' : nat -> nat -> Prop) tbl b h,
  (forall i j, (i < length (o_cols s))%nat -> (j <= i)%nat -> (al i j <-> al' i j)) ->
  exchange_basis rt s rq thr sg al tbl b h -> exchange_basis rt s rq thr sg al' tbl b h.
Proof.
  intros rt s rq thr sg al al' tbl b h H (ps & N & I & R). exists ps. split; auto. split; auto.
  intros i j. rewrite I. split; intros (A & B & C & D); (split; [auto|split; [auto|split; [apply (H i j A B); auto|auto]]]).
Qed.

Variable hs : string -> N.
Variable hi : Z -> N.
Variable hf : Z -> N.
Variable rt : K.
Hypothesis rt_conj : sconj rt = rt.
Hypothesis rt_half : rt * rt + rt * rt = 1.
Variable energy : state1 -> res K.
Variable s : @onesys K.
Variables species1 species2 : string.
Variables sinv sperm : parity.
Variable srot : option (list Z).
Variable thr : K.
Hypothesis thr0 : sltre thr 0 = false.
Hypothesis thr1 : sltre thr 1 = true.
Variable rq : @request K state2.
Hypothesis rq0 : rq_add rq = [].
Hypothesis WF : wf_one s.
Hypothesis SK : same_kind s.
Hypothesis ON : orthonormal s.
Variables p m : nat -> Z.
Hypothesis some_sym : sinv <> NA \/ sperm <> NA.
Hypothesis par : sinv <> NA -> forall i, (i < length (o_cols s))%nat -> parity_of s i (p i).
Hypothesis mom : srot <> None -> forall i, (i < length (o_cols s))%nat -> momentum_of s i (m i).

Notation n := (length (o_cols s)).
Notation u := (amp s).
Notation colofS := (colof s).

Definition dia0 : bool := match sinv with EVEN => false | _ => match sperm with EVEN => false | _ => true end end.
Definition live0 (i j : nat) : bool :=
  match srot with None => true | Some ms => existsb (Z.eqb (Z.quot (m i + m j) 2)) ms end &&
  negb (negb (Nat.eqb i j) && isS sinv && isS sperm && negb (Z.eqb (inversion_sign sinv p i j) (permutation_sign sperm))).

Definition occ (i : nat) (a : state1) : bool :=
  existsb (fun e => match nth_error (o_states s) (fst e) with Some st => eq1 st a | None => false end) (colofS i).

Lemma occ_false : forall i a, occ i a = false -> u i a = 0.
Proof.
  intros i a H. unfold amp. apply lsum_zero. intros e He. destruct (nth_error (o_states s) (fst e)) as [st|] eqn:E; auto.
  destruct (eq1 st a) eqn:Q; auto. apply not_true_iff_false in H. exfalso. apply H. apply existsb_exists. exists e. rewrite E. auto.
Qed.
Lemma occ_true : forall i a, occ i a = true -> exists e st, In e (colofS i) /\ nth_error (o_states s) (fst e) = Some st /\ eq1 st a = true.
Proof.
  intros i a H. apply existsb_exists in H. destruct H as (e & He & H). destruct (nth_error (o_states s) (fst e)) as [st|] eqn:E; [|discriminate]. eauto.
Qed.
Lemma occ_par : forall i a, (i < n)%nat -> sinv <> NA -> occ i a = true -> pm (l a) = p i.
Proof.
  intros i a Hi Hs H. destruct (occ_true _ _ H) as (e & st & He & E & Q). destruct (par Hs Hi) as [_ P]. apply eq1_same in Q.
  replace (l a) with (l st) by apply Q. exact (proj2 (P e st He E)).
Qed.
Lemma occ_mom : forall i a, (i < n)%nat -> srot <> None -> occ i a = true -> m2 a = m i.
Proof.
  intros i a Hi Hs H. destruct (occ_true _ _ H) as (e & st & He & E & Q). pose proof (mom Hs Hi) as P. apply eq1_same in Q.
  replace (m2 a) with (m2 st) by apply Q. exact (proj2 (P e st He E)).
Qed.
Lemma not_art : forall i, (i < n)%nat -> sinv <> NA \/ srot <> None -> artificial s (colofS i) = false.
Proof.
  intros i Hi H. apply not_true_iff_false. intro A. apply existsb_exists in A. destruct A as (e & He & A).
  destruct (nth_error (o_states s) (fst e)) as [st|] eqn:E; [|discriminate]. destruct H as [H|H].
  - destruct (par H Hi) as [_ P]. destruct (P e st He E). congruence.
  - pose proof (mom H Hi) as P. destruct (P e st He E). congruence.
Qed.
Lemma sinv_local : forall i j, (i < n)%nat -> (j < n)%nat -> linv sinv (art s i j) = sinv.
Proof.
  intros i j Hi Hj. unfold linv. destruct (art s i j) eqn:A; auto. assert (D : {sinv = NA} + {sinv <> NA}) by (clear; destruct sinv; (left; reflexivity) || (right; discriminate)). destruct D as [->|D]; auto.
  unfold art in A. rewrite !not_art in A by auto. discriminate.
Qed.
Lemma srot_local : forall i j, (i < n)%nat -> (j < n)%nat -> (if art s i j then None else srot) = srot.
Proof.
  intros i j Hi Hj. destruct (art s i j) eqn:A; auto. assert (D : {srot = None} + {srot <> None}) by (clear; destruct srot; (left; reflexivity) || (right; discriminate)). destruct D as [->|D]; auto.
  unfold art in A. rewrite !not_art in A by auto. discriminate.
Qed.

Lemma conds : forall i j a b, (i < n)%nat -> (j < n)%nat -> (occ i a = true /\ occ j b = true) \/ (occ i b = true /\ occ j a = true) ->
  rot_ok srot (art s i j) a b && agree sinv sperm (art s i j) i j a b = live0 i j /\
  (exch sinv sperm (art s i j) i j = true -> sgnX sinv sperm (art s i j) a b = sector_sign sinv sperm p i j).
Proof.
  intros i j a b Hi Hj H.
  assert (PL : sinv <> NA -> pm (l a + l b) = (p i * p j)%Z).
  { intros Hs. rewrite pm_add. destruct H as [[H1 H2]|[H1 H2]].
    - rewrite (occ_par _ Hi Hs H1), (occ_par _ Hj Hs H2). reflexivity.
    - rewrite (occ_par _ Hi Hs H1), (occ_par _ Hj Hs H2). apply Z.mul_comm. }
  assert (ML : srot <> None -> (m2 a + m2 b = m i + m j)%Z).
  { intros Hs. destruct H as [[H1 H2]|[H1 H2]].
    - rewrite (occ_mom _ Hi Hs H1), (occ_mom _ Hj Hs H2). reflexivity.
    - rewrite (occ_mom _ Hi Hs H1), (occ_mom _ Hj Hs H2). apply Z.add_comm. }
  unfold rot_ok, agree, live0, sgnX, sector_sign. rewrite srot_local, sinv_local by auto. split.
  - f_equal.
    + destruct srot; auto. rewrite ML by congruence. reflexivity.
    + unfold sgn_inv, inversion_sign. destruct sinv; cbn [isS]; try (rewrite PL by congruence); auto. rewrite !andb_false_r. reflexivity.
  - intros _. destruct sinv; cbn [isS sgn_inv inversion_sign]; try (rewrite PL by congruence); auto.
Qed.

Lemma exch_some : forall i j, (i < n)%nat -> (j < n)%nat -> exch sinv sperm (art s i j) i j = negb (Nat.eqb i j).
Proof.
  intros i j Hi Hj. unfold exch. rewrite sinv_local by auto. destruct some_sym as [H|H]; destruct sinv, sperm; try congruence; cbn; apply andb_true_r.
Qed.

Lemma taken0 : forall i j, (i < n)%nat -> (j < n)%nat ->
  (taken s sinv sperm rq (i, j) = true <-> ((j < i)%nat \/ (dia0 = true /\ j = i)) /\ enValid2 rq (enE s (i, j)) = true).
Proof.
  intros i j Hi Hj. unfold taken. cbn [fst snd]. change (if art s i j then NA else sinv) with (linv sinv (art s i j)). rewrite sinv_local by auto.
  rewrite andb_true_iff, negb_true_iff. unfold skipped, dia0.
  destruct (Nat.leb_spec i j); destruct (Nat.ltb_spec i j); destruct sinv, sperm; cbn; try (destruct some_sym; congruence); intuition (try lia; try congruence).
Qed.

Lemma both_zero : forall i j a b, ~ ((occ i a = true /\ occ j b = true) \/ (occ i b = true /\ occ j a = true)) ->
  u i a * u j b = 0 /\ u i b * u j a = 0.
Proof.
  intros i j a b H. split.
  - destruct (occ i a) eqn:E1; [destruct (occ j b) eqn:E2|]; [exfalso; auto|rewrite (occ_false _ _ E2); ring|rewrite (occ_false _ _ E1); ring].
  - destruct (occ i b) eqn:E1; [destruct (occ j a) eqn:E2|]; [exfalso; auto|rewrite (occ_false _ _ E2); ring|rewrite (occ_false _ _ E1); ring].
Qed.
Lemma occ_dec : forall i j a b, {(occ i a = true /\ occ j b = true) \/ (occ i b = true /\ occ j a = true)} +
  {~ ((occ i a = true /\ occ j b = true) \/ (occ i b = true /\ occ j a = true))}.
Proof. intros. destruct (occ i a), (occ j b), (occ i b), (occ j a); (left; tauto) || (right; intuition congruence). Qed.

Lemma coef0 : forall i j x, (i < n)%nat -> (j < n)%nat ->
  coef (colE rt s sinv sperm srot (i, j)) x =
  if live0 i j then exchanged rt u (kof (sector_sign sinv sperm p i j)) i j (fst1 x) (snd1 x) else 0.
Proof.
  intros i j x Hi Hj. unfold colE. cbn [fst snd]. rewrite coef_col. cbv zeta.
  change (lsum (one_amp s ?a) (colof s ?k)) with (amp s k a).
  set (a := fst1 x). set (b := snd1 x). destruct (occ_dec i j a b) as [O|O].
  - destruct (conds _ _ Hi Hj O) as [C1 C2]. rewrite C1. destruct (live0 i j); auto. unfold exchanged. rewrite exch_some in * by auto.
    destruct (Nat.eqb i j); cbn [negb] in *; auto. rewrite C2 by auto. ring.
  - destruct (both_zero _ _ _ _ O) as [Z1 Z2].
    change (lsum (one_amp s a) (colof s i)) with (u i a). change (lsum (one_amp s b) (colof s i)) with (u i b).
    change (lsum (one_amp s a) (colof s j)) with (u j a). change (lsum (one_amp s b) (colof s j)) with (u j b).
    unfold exchanged. rewrite Z1, Z2. destruct (rot_ok srot (art s i j) a b && agree sinv sperm (art s i j) i j a b), (live0 i j), (exch sinv sperm (art s i j) i j), (Nat.eqb i j); ring.
Qed.

Lemma wt_sqv : forall i a, (i < n)%nat -> lsum (one_wt s a) (colof s i) = sconj (u i a) * u i a.
Proof.
  intros i a Hi. destruct WF as (D & _ & W). rewrite one_wt_amp; [reflexivity|exact D|]. apply W. apply nth_In. auto.
Qed.

Lemma weight0 : forall i j x, (i < n)%nat -> (j < n)%nat ->
  weight (colE rt s sinv sperm srot (i, j)) x =
  if live0 i j then
  let w := fun a b => (sconj (u i a) * u i a) * (sconj (u j b) * u j b) in
  if Nat.eqb i j then w (fst1 x) (snd1 x) else sconj rt * rt * (w (fst1 x) (snd1 x) + w (snd1 x) (fst1 x))
  else 0.
Proof.
  intros i j x Hi Hj. unfold colE. cbn [fst snd]. rewrite weight_col. cbv zeta. rewrite !wt_sqv by auto.
  set (a := fst1 x). set (b := snd1 x). destruct (occ_dec i j a b) as [O|O].
  - destruct (conds _ _ Hi Hj O) as [C1 C2]. rewrite C1. destruct (live0 i j); auto. rewrite exch_some in * by auto.
    destruct (Nat.eqb i j); cbn [negb] in *; auto.
  - destruct (both_zero _ _ _ _ O) as [Z1 Z2].
    assert (Y1 : sconj (u i a) * u i a * (sconj (u j b) * u j b) = 0).
    { transitivity (sconj (u i a) * sconj (u j b) * (u i a * u j b)); [ring|]. rewrite Z1. ring. }
    assert (Y2 : sconj (u i b) * u i b * (sconj (u j a) * u j a) = 0).
    { transitivity (sconj (u i b) * sconj (u j a) * (u i b * u j a)); [ring|]. rewrite Z2. ring. }
    rewrite Y1, Y2. destruct (rot_ok srot (art s i j) a b && agree sinv sperm (art s i j) i j a b), (live0 i j), (exch sinv sperm (art s i j) i j), (Nat.eqb i j); ring.
Qed.

Theorem exchange_sector : exists tbl b h,
  initBasis2 hs hi hf rt energy s s species1 species2 sinv NA sperm srot [] thr rq = (tbl, Ok (b, h)) /\
  exchange_basis rt s rq thr (fun i j => kof (sector_sign sinv sperm p i j)) (in_sector sinv sperm srot p m) tbl b h.
Proof.
  assert (KK : forall z, sconj (kof z : K) = kof z /\ (kof z : K) * kof z = 1).
  { intros z. unfold kof. destruct (Z.ltb z 0); split; rewrite ?sconj_opp, ?sconj_1; auto; ring. }
  destruct (@exchange_core K hs hi hf rt rt_conj rt_half energy s species1 species2 sinv sperm srot thr thr0 thr1 rq rq0 WF SK ON
    (fun i j => kof (sector_sign sinv sperm p i j)) dia0 live0 (fun i j => KK _) taken0 (fun i j x => @coef0 i j x) (fun i j x => @weight0 i j x)) as (tbl & b & h & E & X).
  exists tbl, b, h. split; auto. eapply exchange_basis_ext; [|exact X]. cbv beta. intros i j Hi Hj. unfold in_sector, live0, dia0.
  rewrite andb_true_iff. split.
  - intros (A & B & C). split; [|split].
    + intros Q. specialize (A Q). destruct sinv, sperm; try discriminate; split; congruence.
    + intros Nij N1 N2. rewrite negb_true_iff in C. destruct (Nat.eqb_spec i j); [contradiction|].
      assert (I1 : isS sinv = true) by (destruct sinv; auto; congruence). assert (I2 : isS sperm = true) by (destruct sperm; auto; congruence).
      rewrite I1, I2 in C. cbn in C. apply negb_false_iff in C. apply Z.eqb_eq in C. exact C.
    + intros ms ->. apply existsb_exists in B. destruct B as (M & HM & EM). apply Z.eqb_eq in EM. exists M. auto.
  - intros (A & B & C). split; [|split].
    + intros Q. specialize (A Q). destruct A. destruct sinv, sperm; auto; congruence.
    + destruct srot as [ms|]; auto. destruct (C ms eq_refl) as (M & HM & ->). apply existsb_exists. eexists. split; [exact HM|]. apply Z.eqb_refl.
    + rewrite negb_true_iff. destruct (Nat.eqb_spec i j); auto. destruct (isS sinv) eqn:I1; auto. destruct (isS sperm) eqn:I2; auto. cbn.
      apply negb_false_iff, Z.eqb_eq, B; auto; destruct sinv, sperm; discriminate.
Qed.
End Sector.
