(** Proofs for C42 - C44: the loops of PerturbativeInteraction.cpp. *)
From Verif Require Import Base StateModel StateProofs BasisnamesProofs FieldModel TwoSpec MESpec PerturbModel PerturbSpec.
From Coq Require Import ZArith QArith Qround Reals Lia Bool String List Permutation.
Local Open Scope list_scope.
Local Open Scope Z_scope.
Set Implicit Arguments.
Notation physical := MESpec.physical.

Lemma in_interval : forall lo hi x, In x (interval lo hi) <-> lo <= x <= hi.
Proof.
  intros. unfold interval. rewrite in_map_iff. split.
  - intros (i & <- & H). apply in_seq in H. lia.
  - intros H. exists (Z.to_nat (x - lo)). split; [lia|]. apply in_seq. lia.
Qed.
Lemma nodup_interval : forall lo hi, NoDup (interval lo hi).
Proof. intros. unfold interval. apply FinFun.Injective_map_NoDup; [|apply seq_NoDup]. intros a b H. lia. Qed.

Lemma n_range_Z : forall lo hi D x, In x (n_range lo hi (inject_Z D)) <-> lo - D <= x <= hi + D.
Proof.
  intros. unfold n_range. rewrite in_interval. unfold truncQ, inject_Z, Qfloor. cbn [Qminus Qplus Qopp Qnum Qden].
  rewrite Pos.mul_1_r, Z.quot_1_r, Z.div_1_r. lia.
Qed.
Lemma nodup_n_range : forall lo hi D, NoDup (n_range lo hi D).
Proof. intros. apply nodup_interval. Qed.

Lemma in_l_set : forall l n0 x, In x (l_set l n0) <-> (x = l - 1 /\ 0 < l) \/ (x = l + 1 /\ l < n0 - 1).
Proof.
  intros. unfold l_set. rewrite in_app_iff. destruct (Z.ltb_spec 0 l); destruct (Z.ltb_spec l (n0 - 1)); cbn; intuition lia.
Qed.
Lemma nodup_l_set : forall l n0, NoDup (l_set l n0).
Proof.
  intros. unfold l_set. destruct (0 <? l); destruct (l <? n0 - 1); cbn; repeat constructor; cbn; intuition lia.
Qed.
Lemma in_set2 : forall a b x, In x (set2 a b) <-> a = Some x \/ b = Some x.
Proof.
  intros [a|] [b|] x; cbn; try (intuition congruence).
  destruct (Z.eqb_spec a b); [subst; cbn; intuition congruence|].
  destruct (a <? b); cbn; intuition congruence.
Qed.
Lemma nodup_set2 : forall a b, NoDup (set2 a b).
Proof.
  intros [a|] [b|]; cbn; try (repeat constructor; cbn; tauto).
  destruct (Z.eqb_spec a b); [repeat constructor; cbn; tauto|].
  destruct (a <? b); repeat constructor; cbn; intuition lia.
Qed.
Lemma guard_some : forall c x y, guard c x = Some y <-> c = true /\ y = x.
Proof. intros [|] x y; cbn; intuition congruence. Qed.

Lemma in_j_set : forall s l0 j x, 0 <= s <= 1 -> 0 <= l0 ->
  (In x (j_set s l0 j) <-> (x = Z.abs (2 * l0 - s) \/ x = 2 * l0 + s) /\ Z.abs (x - j) < 4).
Proof.
  intros s l0 j x Hs Hl. unfold j_set. set (lo := Z.abs (2 * l0 - s)). set (hi := 2 * l0 + s).
  assert (Z.to_nat ((hi - lo - 1) / 2) = 0%nat) as ->.
  { assert ((hi - lo - 1) / 2 < 1) by (apply Z.div_lt_upper_bound; subst lo hi; lia). lia. }
  cbn [seq map app].
  transitivity (In x (set2 (guard (Z.abs (lo - j) <? 4) lo) (guard (Z.abs (hi - j) <? 4) hi))).
  { destruct (set2 _ _) as [|? [|? [|]]]; reflexivity. }
  rewrite in_set2, !guard_some, !Z.ltb_lt. intuition (subst; auto).
Qed.
Lemma nodup_j_set : forall s l0 j, NoDup (j_set s l0 j).
Proof.
  intros. unfold j_set. set (lo := Z.abs (2 * l0 - s)). set (hi := 2 * l0 + s).
  set (js := set2 (guard (Z.abs (lo - j) <? 4) lo) (guard (Z.abs (hi - j) <? 4) hi)).
  assert (N : NoDup js) by apply nodup_set2.
  assert (I : forall a b, js = [a; b] -> a = Z.min lo hi /\ b = Z.max lo hi /\ lo <> hi).
  { intros a b. subst js. destruct (_ <? 4), (_ <? 4); cbn; try discriminate.
    destruct (Z.eqb_spec lo hi); [discriminate|]. destruct (Z.ltb_spec lo hi); intros HH; injection HH as <- <-; lia. }
  destruct js as [|a [|b [|c r]]]; auto.
  destruct (I a b eq_refl) as (-> & -> & Hne). clear I N.
  constructor.
  - rewrite in_app_iff, in_map_iff. cbn [In]. intros [(i & H & Hi)|[H|[]]]; [|lia]. apply in_seq in Hi.
    destruct (Z.le_gt_cases lo hi); [lia|].
    assert ((hi - lo - 1) / 2 <= 0) by (apply Z.div_le_upper_bound; lia). lia.
  - assert (X : forall u : list Z, NoDup u -> ~ In (Z.max lo hi) u -> NoDup (u ++ [Z.max lo hi])).
    { intros u Hu Hn. apply NoDup_rev in Hu. rewrite <- (rev_involutive (u ++ _)), rev_app_distr. apply NoDup_rev. cbn. constructor; auto. rewrite <- in_rev. auto. }
    apply X.
    + apply FinFun.Injective_map_NoDup; [|apply seq_NoDup]. intros x y H. lia.
    + rewrite in_map_iff. intros (i & H & Hi). apply in_seq in Hi.
      assert (hi - lo - 1 = 2 * ((hi - lo - 1) / 2) + (hi - lo - 1) mod 2) by (apply Z.div_mod; lia).
      pose proof (Z.mod_pos_bound (hi - lo - 1) 2). lia.
Qed.

(** ** One atom *)
Lemma even_iff : forall x, Z.even x = true <-> exists k, x = 2 * k.
Proof. intros x. rewrite Z.even_spec. reflexivity. Qed.

(** The intermediate states of one atom reached by the loops. *)
Definition reached (a : state1) (D n0 l0 j0 : Z) : Prop :=
  In n0 (n_range (n a) (n a) (inject_Z D)) /\ In l0 (l_set (l a) n0) /\ In j0 (j_set (s2 a) l0 (j2 a)).
Definition exists1 (a : state1) (D n0 l0 j0 m0 : Z) : Prop :=
  Z.abs (n0 - n a) <= D /\ 0 <= l0 < n0 /\ Z.abs (l0 - l a) = 1 /\
  Z.even (2 * l0 + s2 a - j0) = true /\ Z.abs (2 * l0 - s2 a) <= j0 <= 2 * l0 + s2 a /\
  Z.abs (j0 - j2 a) <= 2 /\ Z.abs m0 <= j0 /\ Z.even (j0 - m0) = true /\ Z.abs (m0 - m2 a) <= 2.

Lemma reached_iff : forall a D n0 l0 j0 m0, rydberg a -> s2 a <= 1 -> l a <= n a - D ->
  ((exists q, Z.abs q <= 1 /\ m0 = m2 a + 2 * q) /\ reached a D n0 l0 j0 /\ Z.abs m0 <= j0 <-> exists1 a D n0 l0 j0 m0).
Proof.
  intros a D n0 l0 j0 m0 [(A & B & C & F & G & H & I) Hn] Hs HD. unfold reached, exists1.
  rewrite n_range_Z, in_l_set. rewrite !even_iff in *. destruct F as [f F], G as [g G]. split.
  - intros ((q & Hq & ->) & (Rn & Rl & Rj) & Hm). assert (L0 : 0 <= l0) by lia.
    rewrite in_j_set in Rj by lia. destruct Rj as [Rj Rd].
    assert (E : exists k, 2 * l0 + s2 a - j0 = 2 * k).
    { destruct Rj as [-> | ->]; [destruct (Z.le_gt_cases (s2 a) (2 * l0)); [exists (s2 a)|exists (2 * l0)]; lia|exists 0; lia]. }
    destruct E as [k K].
    split; [lia|]. split; [lia|]. split; [lia|]. split; [exists k; auto|]. split; [lia|].
    split; [|split; [auto|split; [|lia]]].
    + lia.
    + exists (g - k + (l0 - l a) + f - q). lia.
  - intros (P1 & P2 & P3 & (k & P4) & P5 & P6 & P7 & (h & P8) & P9). split.
    + exists (g - h - k + (l0 - l a) + f). lia.
    + split; [|auto]. split; [lia|]. split; [lia|]. apply in_j_set; [lia|lia|]. split; [|lia].
      assert (s2 a = 0 \/ s2 a = 1) as [E|E] by lia; rewrite E in *; lia.
Qed.
