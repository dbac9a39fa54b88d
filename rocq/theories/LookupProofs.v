From Verif Require Import Base StateModel StateProofs LookupModel.
From Coq Require Import ZArith Bool Lia String Ascii List.
Set Implicit Arguments.
Local Open Scope string_scope.
Local Open Scope list_scope.
Local Open Scope Z_scope.

Section L.
  Variable S : Type.
  Variables (seqb smatch : S -> S -> bool) (sgen : S -> bool).
  Hypothesis seqb_equiv_sym : forall a b, seqb a b = seqb b a.
  Hypothesis seqb_trans : forall a b c, seqb a b = true -> seqb b c = true -> seqb a c = true.

  Lemma tfind_some : forall tbl g i, tfind seqb tbl g = Some i ->
    exists s, In (i, s) tbl /\ seqb s g = true.
  Proof.
    intros tbl g i H. unfold tfind in H. destruct (find _ tbl) as [[k s]|] eqn:E; [|discriminate].
    apply find_some in E. destruct E as [E1 E2]. injection H as H. cbn in H, E2. subst k.
    exists s. split; assumption.
  Qed.

  Lemma tfind_none : forall tbl g, tfind seqb tbl g = None ->
    forall i s, In (i, s) tbl -> seqb s g = false.
  Proof.
    intros tbl g H i s Hin. unfold tfind in H. destruct (find _ tbl) as [e|] eqn:E; [discriminate|].
    apply (find_none _ _ E) in Hin. exact Hin.
  Qed.

  (** No two entries of the table hold equal states (unique hashed index). *)
  Definition uniq (tbl : list (nat * S)) : Prop :=
    forall i s i' s', In (i, s) tbl -> In (i', s') tbl -> seqb s s' = true -> i = i'.

  Lemma tfind_iff : forall tbl, uniq tbl -> forall g i,
    tfind seqb tbl g = Some i <-> exists s, In (i, s) tbl /\ seqb s g = true.
  Proof.
    intros tbl U g i. split; [apply tfind_some|].
    intros (s & Hin & E). destruct (tfind seqb tbl g) as [k|] eqn:F.
    - apply tfind_some in F. destruct F as (s' & Hin' & E'). f_equal.
      apply (U _ _ _ _ Hin' Hin). apply seqb_trans with g; [exact E'|].
      rewrite seqb_equiv_sym. exact E.
    - rewrite (tfind_none _ _ F _ _ Hin) in E. discriminate.
  Qed.

  Lemma rows1_gen : forall tbl g, sgen g = true -> forall i,
    In i (overlap_rows1 seqb smatch sgen tbl g) <-> exists s, In (i, s) tbl /\ smatch s g = true.
  Proof.
    intros tbl g G i. unfold overlap_rows1. rewrite G. rewrite in_map_iff. split.
    - intros ([k s] & E & H). apply filter_In in H. cbn in *. subst k. exists s. exact H.
    - intros (s & H1 & H2). exists (i, s). split; [reflexivity|]. apply filter_In. auto.
  Qed.

  Lemma rows1_exact : forall tbl g, uniq tbl -> sgen g = false -> forall i,
    In i (overlap_rows1 seqb smatch sgen tbl g) <-> exists s, In (i, s) tbl /\ seqb s g = true.
  Proof.
    intros tbl g U G i. unfold overlap_rows1. rewrite G.
    destruct (tfind seqb tbl g) as [k|] eqn:F.
    - rewrite <- (tfind_iff U). rewrite F. cbn. split; [intros [->|[]]; reflexivity|].
      intros E. left. congruence.
    - rewrite <- (tfind_iff U). rewrite F. cbn. split; [tauto|discriminate].
  Qed.

  Lemma rows1_NoDup : forall tbl g, NoDup (map fst tbl) ->
    NoDup (overlap_rows1 seqb smatch sgen tbl g).
  Proof.
    intros tbl g H. unfold overlap_rows1. destruct (sgen g).
    - induction tbl as [|e tbl IH]; cbn; [constructor|]. cbn in H. inversion H as [|? ? H1 H2]; subst.
      destruct (smatch (snd e) g); cbn; [|auto]. constructor; [|auto].
      intro K. apply H1. apply in_map_iff in K. destruct K as (x & K1 & K2).
      apply filter_In in K2. rewrite <- K1. apply in_map. tauto.
    - destruct (tfind seqb tbl g); repeat constructor. intros [].
  Qed.

  Lemma index_iff : forall tbl g, uniq tbl ->
    (sgen g = true -> stateIndex seqb sgen tbl g = Throw) /\
    (sgen g = false -> forall i, stateIndex seqb sgen tbl g = Ok i <->
                       exists s, In (i, s) tbl /\ seqb s g = true) /\
    (sgen g = false -> (forall i s, In (i, s) tbl -> seqb s g = false) ->
                       stateIndex seqb sgen tbl g = Throw).
  Proof.
    intros tbl g U. unfold stateIndex. split; [intros ->; reflexivity|]. split.
    - intros -> i. rewrite <- (tfind_iff U). destruct (tfind seqb tbl g); split; congruence.
    - intros -> H. destruct (tfind seqb tbl g) as [k|] eqn:F; [|reflexivity].
      apply tfind_some in F. destruct F as (s & H1 & H2). rewrite (H _ _ H1) in H2. discriminate.
  Qed.
End L.

Lemma eq1_trans : forall a b c, eq1 a b = true -> eq1 b c = true -> eq1 a c = true.
Proof. intros a b c. rewrite !eq1_iff. unfold same1. intuition congruence. Qed.
Lemma eq2_sym : forall a b, eq2 a b = eq2 b a.
Proof. intros a b. unfold eq2. now rewrite (eq1_sym (fst1 a)), (eq1_sym (snd1 a)). Qed.
Lemma eq2_trans : forall a b c, eq2 a b = true -> eq2 b c = true -> eq2 a c = true.
Proof.
  intros a b c. unfold eq2. rewrite !andb_true_iff. intros [H1 H2] [K1 K2].
  split; eapply eq1_trans; eassumption.
Qed.

Lemma rows_one_spec : forall tbl g, uniq eq1 tbl -> forall i,
  In i (rows_one tbl [g]) <-> exists s, In (i, s) tbl /\ match1 s g = true.
Proof.
  intros tbl g U i. unfold rows_one, overlap_rows. cbn. rewrite app_nil_r.
  destruct (gen1 g) eqn:G; [now apply rows1_gen|].
  rewrite (rows1_exact match1 gen1 eq1_sym eq1_trans g U G).
  split; intros (s & H1 & H2); exists s; (split; [exact H1|]).
  - rewrite match1_exact; assumption.
  - rewrite match1_exact in H2; assumption.
Qed.

Lemma rows_two_spec : forall tbl g, uniq eq2 tbl ->
  isGeneralized (fst1 g) = isGeneralized (snd1 g) -> forall i,
  In i (rows_two tbl [g]) <-> exists s, In (i, s) tbl /\ match2 s g = true.
Proof.
  intros tbl g U Eq i. unfold rows_two, overlap_rows. cbn. rewrite app_nil_r.
  destruct (gen2 g) eqn:G; [now apply rows1_gen|].
  rewrite (rows1_exact match2 gen2 eq2_sym eq2_trans g U G).
  assert (G1 : isGeneralized (fst1 g) = false /\ isGeneralized (snd1 g) = false).
  { unfold gen2, is_true_all, isGeneralized2 in G. cbn in G. rewrite <- Eq in *.
    destruct (isGeneralized (fst1 g)); [discriminate|auto]. }
  destruct G1 as [G1 G2].
  assert (X : forall s, match2 s g = eq2 s g).
  { intro s. unfold match2, eq2. now rewrite !match1_exact by assumption. }
  split; intros (s & H1 & H2); exists s; (split; [exact H1|]); congruence.
Qed.

Lemma pair_pattern_refuted :
  ~ (forall tbl g, uniq eq2 tbl -> forall i s, In (i, s) tbl -> match2 s g = true ->
       In i (rows_two tbl [g])).
Proof.
  intro H.
  pose (a := St1 "Rb" "Rb" 60 1 3 1 1 0).
  specialize (H [(0%nat, St2 a a 0)] (St2 (St1 "Rb" "Rb" ARB 1 3 1 1 0) a 0)).
  specialize (fun U => H U 0%nat (St2 a a 0) (or_introl eq_refl) eq_refl).
  apply H. intros i s i' s' [E|[]] [E'|[]] _. congruence.
Qed.

Lemma index_one_spec : forall tbl g, uniq eq1 tbl -> isGeneralized g = false ->
  (forall i, index_one tbl g = Ok i <-> exists s, In (i, s) tbl /\ same1 s g) /\
  ((forall i s, In (i, s) tbl -> ~ same1 s g) -> index_one tbl g = Throw).
Proof.
  intros tbl g U G. destruct (index_iff gen1 eq1_sym eq1_trans g U) as (_ & H1 & H2).
  specialize (H1 G). specialize (H2 G). split.
  - intro i. unfold index_one. rewrite H1.
    split; intros (s & K1 & K2); exists s; (split; [exact K1|]); now apply eq1_iff.
  - intro K. apply H2. intros i s Hin. specialize (K _ _ Hin).
    destruct (eq1 s g) eqn:E; [|reflexivity]. apply eq1_iff in E. contradiction.
Qed.

Lemma index_two_spec : forall tbl g, uniq eq2 tbl ->
  isGeneralized (fst1 g) = false \/ isGeneralized (snd1 g) = false ->
  (forall i, index_two tbl g = Ok i <-> exists s, In (i, s) tbl /\ same2 s g) /\
  ((forall i s, In (i, s) tbl -> ~ same2 s g) -> index_two tbl g = Throw).
Proof.
  intros tbl g U G. destruct (index_iff gen2 eq2_sym eq2_trans g U) as (_ & H1 & H2).
  assert (G' : gen2 g = false).
  { unfold gen2, is_true_all, isGeneralized2. cbn. destruct G as [-> | ->]; [reflexivity|].
    now rewrite andb_false_r. }
  specialize (H1 G'). specialize (H2 G'). split.
  - intro i. unfold index_two. rewrite H1.
    split; intros (s & K1 & K2); exists s; (split; [exact K1|]); now apply eq2_iff.
  - intro K. apply H2. intros i s Hin. specialize (K _ _ Hin).
    destruct (eq2 s g) eqn:E; [|reflexivity]. apply eq2_iff in E. contradiction.
Qed.

(** A computable check for [uniq]. *)
Fixpoint uniqb {S} (seqb : S -> S -> bool) (tbl : list (nat * S)) : bool :=
  match tbl with
  | [] => true
  | e :: t => forallb (fun e' => negb (seqb (snd e) (snd e')) && negb (seqb (snd e') (snd e))) t && uniqb seqb t
  end.
Lemma uniq_of_nodup : forall S (seqb : S -> S -> bool) tbl, uniqb seqb tbl = true -> uniq seqb tbl.
Proof.
  intros S seqb tbl. induction tbl as [|e tbl IH]; intros H i s i' s' H1 H2 E; [contradiction|].
  cbn in H. apply andb_true_iff in H. destruct H as [H0 H]. rewrite forallb_forall in H0.
  destruct H1 as [H1|H1], H2 as [H2|H2].
  - congruence.
  - apply H0 in H2. subst e. cbn in H2. rewrite E in H2. discriminate.
  - apply H0 in H1. subst e. cbn in H1. rewrite E in H1. rewrite andb_false_r in H1. discriminate.
  - eapply IH; eassumption.
Qed.
