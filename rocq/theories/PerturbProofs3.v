(** Proofs for C43 and C44: the C6 and C3 matrices. *)
From Verif Require Import Base StateModel StateProofs BasisnamesProofs FieldModel TwoSpec MESpec PerturbModel PerturbSpec PerturbProofs PerturbAngle PerturbProofs2.
From Coq Require Import ZArith QArith Reals Lra Lia Bool String List Permutation.
Local Open Scope list_scope.
Local Open Scope Z_scope.
Set Implicit Arguments.
Notation physical := MESpec.physical.
Notation quad := PerturbProofs2.quad.

Lemma in_l_set2 : forall l n0 x, In x (l_set2 l l n0) <-> (x = l - 1 /\ 0 < l) \/ (x = l + 1 /\ l < n0 - 1).
Proof.
  intros. unfold l_set2. rewrite Z.eqb_refl, in_app_iff. destruct (Z.ltb_spec 0 l); destruct (Z.ltb_spec l (n0 - 1)); cbn; intuition lia.
Qed.
Lemma nodup_l_set2 : forall r c n0, NoDup (l_set2 r c n0).
Proof.
  intros. unfold l_set2. destruct (r =? c).
  - destruct (c <? n0 - 1); destruct (0 <? c); cbn; repeat constructor; cbn; intuition lia.
  - destruct (_ && _); [repeat constructor; cbn; tauto|]. destruct (_ && _); repeat constructor; cbn; tauto.
Qed.
Lemma in_j_set2 : forall s l0 jr jc x,
  In x (j_set2 s l0 jr jc) <-> (x = Z.abs (2 * l0 - s) \/ x = 2 * l0 + s) /\ Z.abs (x - jc) < 4 /\ Z.abs (x - jr) < 4.
Proof.
  intros. unfold j_set2. rewrite in_set2, !guard_some, !andb_true_iff, !Z.ltb_lt. intuition (subst; auto).
Qed.
Lemma nodup_j_set2 : forall s l0 jr jc, NoDup (j_set2 s l0 jr jc).
Proof. intros. apply nodup_set2. Qed.

Definition reached2 (r c : state1) (D n0 l0 j0 : Z) : Prop :=
  In n0 (n_range (Z.min (n r) (n c)) (Z.max (n r) (n c)) (inject_Z D)) /\ In l0 (l_set2 (l r) (l c) n0) /\
  In j0 (j_set2 (s2 c) l0 (j2 r) (j2 c)).
Definition existsB (r c : state1) (D n0 l0 j0 m0 : Z) : Prop :=
  PerturbSpec.between n0 (n r) (n c) D /\ 0 <= l0 < n0 /\ Z.abs (l0 - l r) = 1 /\ Z.abs (l0 - l c) = 1 /\
  Z.even (2 * l0 + s2 c - j0) = true /\ Z.abs (2 * l0 - s2 c) <= j0 <= 2 * l0 + s2 c /\
  Z.abs (j0 - j2 r) <= 2 /\ Z.abs (j0 - j2 c) <= 2 /\ Z.abs m0 <= j0 /\ Z.even (j0 - m0) = true /\
  Z.abs (m0 - m2 r) <= 2 /\ Z.abs (m0 - m2 c) <= 2.

Lemma reached2_iff : forall r c D n0 l0 j0 m0, rydberg r -> rydberg c -> s2 r = s2 c -> s2 c <= 1 -> l r = l c ->
  l c <= Z.min (n r) (n c) - D ->
  ((exists q, Z.abs q <= 1 /\ m0 = m2 c + 2 * q) /\ Z.abs (Z.quot (m2 r - m0) 2) <= 1 /\ reached2 r c D n0 l0 j0 /\ Z.abs m0 <= j0
   <-> existsB r c D n0 l0 j0 m0).
Proof.
  intros r c D n0 l0 j0 m0 [(A & B & C & F & G & H & I) Hn] [(A' & B' & C' & F' & G' & H' & I') Hn'] ES Hs EL HD.
  unfold reached2, existsB, PerturbSpec.between. rewrite EL, n_range_Z, in_l_set2, in_j_set2. rewrite !even_iff in *.
  destruct F as [f F], G as [g G], F' as [f' F'], G' as [g' G']. rewrite ES, EL in *.
  assert (EM : exists k, m2 r - m2 c = 2 * k) by (exists (f' + g' - f - g); lia). destruct EM as [k EM].
  split.
  - intros ((q & Hq & ->) & Hb & (Rn & Rl & Rj & Rd & Re) & Hm).
    assert (Eb : m2 r - (m2 c + 2 * q) = (k - q) * 2) by lia. rewrite Eb, Z.quot_mul in Hb by lia.
    assert (L0 : 0 <= l0) by lia.
    assert (E : exists k, 2 * l0 + s2 c - j0 = 2 * k).
    { destruct Rj as [-> | ->]; [destruct (Z.le_gt_cases (s2 c) (2 * l0)); [exists (s2 c)|exists (2 * l0)]; lia|exists 0; lia]. }
    destruct E as [e E].
    assert (Xr : exists k, j0 - j2 r = 2 * k) by (exists (l0 - l c - e + f); clear - E F; lia).
    assert (Xc : exists k, j0 - j2 c = 2 * k) by (exists (l0 - l c - e + f'); clear - E F'; lia).
    split; [clear - Rn; lia|].
    split; [clear - Rl B' Hn' Rn HD; lia|].
    split; [clear - Rl; lia|]. split; [clear - Rl; lia|]. split; [exists e; auto|].
    split; [clear - Rj L0 C'; lia|].
    split; [destruct Xr as [x X]; clear - X Re; lia|]. split; [destruct Xc as [x X]; clear - X Rd; lia|]. split; [auto|].
    split; [|clear - Hq Hb EM; lia].
    exists (g' - e + (l0 - l c) + f' - q). clear - G' E F'; lia.
  - intros (P1 & P2 & P3 & P3' & (e & P4) & P5 & P6 & P6' & P7 & (h & P8) & P9 & P9').
    assert (Em : exists q, m0 = m2 c + 2 * q) by (exists (g' - h - e + (l0 - l c) + f'); clear - P4 P8 F' G'; lia). destruct Em as [q ->].
    assert (Eb : m2 r - (m2 c + 2 * q) = (k - q) * 2) by (clear - EM; lia). rewrite Eb, Z.quot_mul by (clear; lia).
    split; [exists q; clear - P9'; lia|]. split; [clear - P9 EM; lia|]. split; [|auto].
    split; [clear - P1; lia|]. split; [clear - P2 P3'; lia|].
    split; [|clear - P6 P6'; lia].
    assert (s2 c = 0 \/ s2 c = 1) as [X|X] by (clear - C' Hs; lia); rewrite X in *; clear - P4 P5 P2; lia.
Qed.

(** For different l nothing is visited (spin 0 or 1/2). *)
Lemma reached2_never : forall r c D n0 l0 j0, rydberg r -> rydberg c -> s2 r = s2 c -> s2 c <= 1 -> l r <> l c ->
  ~ reached2 r c D n0 l0 j0.
Proof.
  intros r c D n0 l0 j0 [(A & B & C & F & G & H & I) Hn] [(A' & B' & C' & F' & G' & H' & I') Hn'] ES Hs NL (_ & Hl & Hj).
  apply in_j_set2 in Hj as (J1 & J2 & J3). unfold l_set2 in Hl. destruct (Z.eqb_spec (l r) (l c)); [tauto|].
  rewrite ES in *.
  destruct (Z.eqb_spec (l r + 2) (l c)); destruct (Z.ltb_spec (l c) (n0 - 1)); destruct (Z.eqb_spec (l r - 2) (l c)); destruct (Z.ltb_spec 0 (l c)) as [W|W]; cbn in Hl;
    try tauto; destruct Hl as [<-|[]]; (exfalso; clear - e e0; lia) || (clear - e W B B' I I' J1 J3 Hs C C'; lia).
Qed.

Lemma in_visits2_m : forall g n0 l0 j0 n1 l1 j1 row col x, In x (visits2_m g n0 l0 j0 n1 l1 j1 row col) <->
  exists q0 q1, In (q0, q1) (array_q g) /\
    Z.abs (m2 (fst1 col) + 2 * q0) <= j0 /\ Z.abs (m2 (snd1 col) + 2 * q1) <= j1 /\
    Z.abs (Z.quot (m2 (fst1 row) - (m2 (fst1 col) + 2 * q0)) 2) <= 1 /\
    Z.abs (Z.quot (m2 (snd1 row) - (m2 (snd1 col) + 2 * q1)) 2) <= 1 /\
    (length (array_q g) = 3%nat -> Z.quot (m2 (fst1 row) - (m2 (fst1 col) + 2 * q0)) 2 + Z.quot (m2 (snd1 row) - (m2 (snd1 col) + 2 * q1)) 2 = 0) /\
    x = ((n0, l0, j0, m2 (fst1 col) + 2 * q0), (n1, l1, j1, m2 (snd1 col) + 2 * q1), (q0, q1)).
Proof.
  intros. unfold visits2_m. rewrite in_flat_map. split.
  - intros ([q0 q1] & Hq & H). exists q0, q1. cbv zeta in H.
    destruct (Z.ltb_spec j0 (Z.abs (m2 (fst1 col) + 2 * q0))); [destruct H|].
    destruct (Z.ltb_spec j1 (Z.abs (m2 (snd1 col) + 2 * q1))); [destruct H|].
    set (b0 := Z.quot (m2 (fst1 row) - (m2 (fst1 col) + 2 * q0)) 2) in *. set (b1 := Z.quot (m2 (snd1 row) - (m2 (snd1 col) + 2 * q1)) 2) in *.
    destruct (Z.ltb_spec 1 (Z.abs b0)); cbn [orb] in H; [destruct H|]. destruct (Z.ltb_spec 1 (Z.abs b1)); cbn [orb] in H; [destruct H|].
    destruct (Nat.eqb_spec (length (array_q g)) 3); destruct (Z.eqb_spec (b0 + b1) 0); cbn [andb negb] in H;
      try (destruct H; fail); destruct H as [<-|[]]; repeat (split; auto); tauto.
  - intros (q0 & q1 & Hq & H0 & H1 & B0 & B1 & H3 & ->). exists (q0, q1). split; auto. cbv zeta.
    destruct (Z.ltb_spec j0 (Z.abs (m2 (fst1 col) + 2 * q0))); [lia|].
    destruct (Z.ltb_spec j1 (Z.abs (m2 (snd1 col) + 2 * q1))); [lia|].
    set (b0 := Z.quot (m2 (fst1 row) - (m2 (fst1 col) + 2 * q0)) 2) in *. set (b1 := Z.quot (m2 (snd1 row) - (m2 (snd1 col) + 2 * q1)) 2) in *.
    destruct (Z.ltb_spec 1 (Z.abs b0)); [lia|]. destruct (Z.ltb_spec 1 (Z.abs b1)); [lia|].
    destruct (Nat.eqb_spec (length (array_q g)) 3); destruct (Z.eqb_spec (b0 + b1) 0); cbn; auto.
Qed.

Lemma in_visits2 : forall g row col D x, In x (visits2 g row col (inject_Z D)) <->
  exists n0 l0 j0 n1 l1 j1, reached2 (fst1 row) (fst1 col) D n0 l0 j0 /\ reached2 (snd1 row) (snd1 col) D n1 l1 j1 /\
    In x (visits2_m g n0 l0 j0 n1 l1 j1 row col).
Proof.
  intros. unfold visits2, reached2. cbv zeta. split.
  - intros H. apply in_flat_map in H as (n0 & Hn0 & H). apply in_flat_map in H as (n1 & Hn1 & H).
    apply in_flat_map in H as (l0 & Hl0 & H). apply in_flat_map in H as (l1 & Hl1 & H).
    apply in_flat_map in H as (j0 & Hj0 & H). apply in_flat_map in H as (j1 & Hj1 & H).
    exists n0, l0, j0, n1, l1, j1. tauto.
  - intros (n0 & l0 & j0 & n1 & l1 & j1 & (A & B & C) & (A' & B' & C') & H).
    apply in_flat_map. exists n0. split; auto. apply in_flat_map. exists n1. split; auto.
    apply in_flat_map. exists l0. split; auto. apply in_flat_map. exists l1. split; auto.
    apply in_flat_map. exists j0. split; auto. apply in_flat_map. exists j1. split; auto.
Qed.

Lemma nodup_visits2 : forall g row col D, NoDup (array_q g) -> NoDup (visits2 g row col D).
Proof.
  intros g row col D N. unfold visits2. cbv zeta.
  apply (@nodup_six _ loopvars _ _ (fun n0 => l_set2 (l (fst1 row)) (l (fst1 col)) n0) (fun n1 => l_set2 (l (snd1 row)) (l (snd1 col)) n1)
           (fun l0 => j_set2 (s2 (fst1 col)) l0 (j2 (fst1 row)) (j2 (fst1 col))) (fun l1 => j_set2 (s2 (snd1 col)) l1 (j2 (snd1 row)) (j2 (snd1 col)))
           (fun n0 n1 l0 l1 j0 j1 => visits2_m g n0 l0 j0 n1 l1 j1 row col));
    try (intros; apply nodup_n_range || apply nodup_l_set2 || apply nodup_j_set2).
  - intros. unfold visits2_m. apply nodup_flat_map; auto.
    + intros [q0 q1] _. cbv zeta. repeat (destruct (_ <? _); [constructor|]). destruct (_ || _); [constructor|]. destruct (_ && _); repeat constructor; cbn; tauto.
    + intros [q0 q1] [p0 p1] x _ _ H1 H2. cbv zeta in *.
      repeat (destruct (_ <? _); [destruct H1; fail|]). destruct (_ || _); [destruct H1; fail|]. destruct (_ && _); [destruct H1; fail|].
      repeat (destruct (_ <? _); [destruct H2; fail|]). destruct (_ || _); [destruct H2; fail|]. destruct (_ && _); [destruct H2; fail|].
      destruct H1 as [<-|[]]. destruct H2 as [H2|[]]. congruence.
  - intros n0 n1 l0 l1 j0 j1 x H. apply in_visits2_m in H as (q0 & q1 & H). destruct H as (_ & _ & _ & _ & _ & _ & ->). reflexivity.
Qed.
