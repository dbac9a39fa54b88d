(** C106: the steps of a scan of fields and distance. *)
From Coq Require Import ZArith Bool Arith Lia List QArith Permutation Lqa.
Import ListNotations.
From Verif Require Import Base KeyModel ScanModel.
Set Implicit Arguments.

(** *** Specification *)
(** [x] is the value number [i] of [n] values from [a] to [b] with equal distances. *)
Definition evenly (n i : nat) (a b x : Q) : Prop := x * inject_Z (Z.of_nat (n - 1)) == a * inject_Z (Z.of_nat (n - 1 - i)) + b * inject_Z (Z.of_nat i) /\ (n = 1%nat -> x == a).
Definition fields_evenly (n i : nat) (a b f : fields) : Prop :=
  evenly n i (f_Ex a) (f_Ex b) (f_Ex f) /\ evenly n i (f_Ey a) (f_Ey b) (f_Ey f) /\ evenly n i (f_Ez a) (f_Ez b) (f_Ez f) /\
  evenly n i (f_Bx a) (f_Bx b) (f_Bx f) /\ evenly n i (f_By a) (f_By b) (f_By f) /\ evenly n i (f_Bz a) (f_Bz b) (f_Bz f).
Definition equal_fields (a b : fields) : Prop :=
  f_Ex a == f_Ex b /\ f_Ey a == f_Ey b /\ f_Ez a == f_Ez b /\ f_Bx a == f_Bx b /\ f_By a == f_By b /\ f_Bz a == f_Bz b.
(** [n] is the number of points of a scan: one if nothing changes. *)
Definition points (constant : Prop) (steps n : nat) : Prop := (constant -> n = 1%nat) /\ (~ constant -> n = steps).

(** The two ends. *)
Lemma evenly_ends : forall n a b x, (n <> 0)%nat -> (evenly n 0 a b x -> x == a) /\ ((1 < n)%nat -> evenly n (n - 1) a b x -> x == b).
Proof.
  intros n a b x N. unfold evenly. split.
  - intros [H H1]. destruct (Nat.eq_dec n 1) as [E|E]; [auto|]. rewrite Nat.sub_0_r in H.
    assert (P : ~ inject_Z (Z.of_nat (n - 1)) == 0) by (unfold Qeq; cbn; lia).
    apply (Qmult_inj_r _ _ _ P). rewrite H. change (inject_Z (Z.of_nat 0)) with 0. ring.
  - intros L [H _]. assert (P : ~ inject_Z (Z.of_nat (n - 1)) == 0) by (unfold Qeq; cbn; lia).
    apply (Qmult_inj_r _ _ _ P). rewrite H. rewrite Nat.sub_diag. change (inject_Z (Z.of_nat 0)) with 0. ring.
Qed.

(** *** Proofs *)
Lemma interpolate_evenly : forall n i a b, (i < n)%nat -> evenly n i a b (interpolate (normalized n i) a b).
Proof.
  intros n i a b L. unfold evenly, interpolate, normalized. destruct (Nat.ltb_spec 1 n) as [N|N].
  - split; [|lia]. replace (Z.of_nat n - 1)%Z with (Z.of_nat (n - 1)) by lia.
    assert (P : ~ inject_Z (Z.of_nat (n - 1)) == 0) by (unfold Qeq; cbn; lia).
    replace (Z.of_nat (n - 1 - i)) with (Z.of_nat (n - 1) - Z.of_nat i)%Z by lia.
    assert (E : inject_Z (Z.of_nat (n - 1) - Z.of_nat i) == inject_Z (Z.of_nat (n - 1)) - inject_Z (Z.of_nat i)) by (unfold Qeq, Qminus, Qplus; cbn; lia).
    rewrite E. field. exact P.
  - assert (n = 1 /\ i = 0)%nat as [-> ->] by lia. split; [|intros _]; [change (inject_Z (Z.of_nat (1 - 1))) with 0; change (inject_Z (Z.of_nat (1 - 1 - 0))) with 0; change (inject_Z (Z.of_nat 0)) with 0; ring|ring].
Qed.
Lemma field_evenly : forall s n i, (i < n)%nat -> fields_evenly n i (f_min s) (f_max s) (field_at s (normalized n i)).
Proof. intros s n i L. unfold fields_evenly. cbn [field_at f_Ex f_Ey f_Ez f_Bx f_By f_Bz]. do 5 (split; [apply interpolate_evenly; exact L|]). apply interpolate_evenly; exact L. Qed.
Lemma same_equal : forall a b, same_fields a b = true <-> equal_fields a b.
Proof. intros a b. unfold same_fields, equal_fields. rewrite !andb_true_iff, !Qeq_bool_iff. tauto. Qed.

(** C106: the number of one-atom Hamiltonians is the number of steps (one, if no field changes), and their fields are equally spaced from the minimum
    to the maximum. *)
Theorem C106_one : forall s, points (equal_fields (f_min s) (f_max s)) (steps s) (length (one_scan s)) /\
  forall i f, nth_error (one_scan s) i = Some f -> fields_evenly (length (one_scan s)) i (f_min s) (f_max s) f.
Proof.
  intros s. assert (L : length (one_scan s) = nsteps_one s) by (unfold one_scan; rewrite map_length, seq_length; reflexivity). rewrite L. split.
  - unfold points, nsteps_one. rewrite <- same_equal. destruct (same_fields _ _); split; congruence.
  - intros i f H. unfold one_scan in H. rewrite nth_error_map in H. destruct (nth_error (seq 0 (nsteps_one s)) i) as [k|] eqn:E; [|discriminate].
    cbn in H. injection H as <-. assert (I : (i < nsteps_one s)%nat) by (rewrite <- (seq_length (nsteps_one s) 0); apply nth_error_Some; congruence).
    rewrite (nth_error_nth' _ 0%nat) in E by (rewrite seq_length; exact I). rewrite seq_nth in E by exact I. injection E as <-. apply field_evenly. exact I.
Qed.

Lemma equal_evenly : forall n i a b f, (i < n)%nat -> equal_fields a b -> fields_evenly 1 0 a b f -> fields_evenly n i a b f.
Proof.
  assert (X : forall n i a b x, (i < n)%nat -> a == b -> evenly 1 0 a b x -> evenly n i a b x).
  { intros n i a b x L E [_ H]. specialize (H eq_refl). unfold evenly. rewrite H, <- E. split; [|reflexivity].
    replace (Z.of_nat (n - 1 - i)) with (Z.of_nat (n - 1) - Z.of_nat i)%Z by lia.
    assert (F : inject_Z (Z.of_nat (n - 1) - Z.of_nat i) == inject_Z (Z.of_nat (n - 1)) - inject_Z (Z.of_nat i)) by (unfold Qeq, Qminus, Qplus; cbn; lia).
    rewrite F. ring. }
  intros n i a b f L (E1 & E2 & E3 & E4 & E5 & E6) (F1 & F2 & F3 & F4 & F5 & F6). unfold fields_evenly.
  do 5 (split; [apply X; assumption|]). apply X; assumption.
Qed.

Lemma one_at_spec : forall s i, (1 <= steps s)%nat -> (i < nsteps_two s)%nat ->
  exists f, one_at s i = Ok f /\ fields_evenly (nsteps_two s) i (f_min s) (f_max s) f.
Proof.
  intros s i S I. unfold one_at. destruct (C106_one s) as [P Q]. assert (L : length (one_scan s) = nsteps_one s) by (unfold one_scan; rewrite map_length, seq_length; reflexivity).
  destruct (Nat.eqb_spec (nsteps_two s) (nsteps_one s)) as [E|E].
  - destruct (nth_error (one_scan s) i) as [f|] eqn:N; [|apply nth_error_None in N; lia]. exists f. split; [reflexivity|]. rewrite E, <- L. apply Q. exact N.
  - assert (SF : same_fields (f_min s) (f_max s) = true).
    { destruct (same_fields (f_min s) (f_max s)) eqn:F; [reflexivity|]. elim E. unfold nsteps_two, nsteps_one in *. rewrite F in *. destruct (_ && _) eqn:G; [|reflexivity].
      apply andb_true_iff in G as [_ G]. apply Nat.eqb_eq in G. congruence. }
    assert (N1 : nsteps_one s = 1%nat) by (unfold nsteps_one; rewrite SF; reflexivity).
    destruct (nth_error (one_scan s) 0) as [f|] eqn:N; [|apply nth_error_None in N; lia]. exists f. split; [reflexivity|].
    apply equal_evenly; [exact I|apply same_equal; exact SF|]. specialize (Q _ _ N). rewrite L, N1 in Q. exact Q.
Qed.

Lemma collect_ok : forall A B (f : A -> res B) (g : A -> B) l, (forall x, In x l -> f x = Ok (g x)) -> collect (map f l) = Ok (map g l).
Proof.
  induction l as [|x l IH]; intros H; [reflexivity|]. cbn [map collect]. rewrite H by (left; reflexivity). cbn [bind].
  rewrite IH by (intros y I; apply H; right; exact I). reflexivity.
Qed.
Lemma interleaving_perm : forall A ts (l : list A), interleaving ts l -> Permutation l (concat ts).
Proof.
  induction 1 as [ts H|before x t after l H IH].
  - replace (concat ts) with (@nil A); [constructor|]. induction ts as [|t ts IH]; [reflexivity|]. cbn. rewrite (H t) by (left; reflexivity).
    apply IH. intros u I. apply H. right. exact I.
  - rewrite IH. rewrite !concat_app. cbn [concat]. change ((x :: t) ++ concat after) with (x :: (t ++ concat after)). apply Permutation_middle.
Qed.
Lemma interleaving_exists : forall A (ts : list (list A)), exists l, interleaving ts l.
Proof.
  intros A ts. remember (length (concat ts)) as n eqn:E. revert ts E. induction n as [|n IH]; intros ts E.
  - exists []. constructor. intros t I. destruct (in_split _ _ I) as (a & b & ->). rewrite concat_app in E. cbn in E. rewrite !app_length in E.
    destruct t; [reflexivity|cbn in E; lia].
  - assert (X : exists a x t b, ts = a ++ (x :: t) :: b).
    { clear IH. induction ts as [|[|x t] ts IH]; [discriminate| |exists [], x, t, ts; reflexivity]. destruct IH as (a & x & t & b & ->); [exact E|]. exists ([] :: a), x, t, b. reflexivity. }
    destruct X as (a & x & t & b & ->). destruct (IH (a ++ t :: b)) as (l & L).
    { rewrite !concat_app in *. cbn [concat] in *. rewrite !app_length in *. change (length (x :: t)) with (S (length t)) in E. lia. }
    exists (x :: l). constructor. exact L.
Qed.
Lemma assigned_perm : forall threads n, (1 <= threads)%nat -> Permutation (flat_map (assigned threads n) (seq 0 threads)) (seq 0 n).
Proof.
  intros threads n T. apply NoDup_Permutation.
  - assert (G : forall l, NoDup l -> NoDup (flat_map (assigned threads n) l)).
    { induction l as [|t l IH]; intros D; [constructor|]. inversion D as [|? ? N D']; subst. cbn [flat_map].
      assert (App : forall (a b : list nat), NoDup a -> NoDup b -> (forall x, In x a -> ~ In x b) -> NoDup (a ++ b)).
      { clear. induction a as [|x a IH]; intros b A B H; [exact B|]. inversion A; subst. cbn. constructor; [rewrite in_app_iff; intros [I|I]; [auto|apply (H x); [left; reflexivity|exact I]]|].
        apply IH; auto. intros y I. apply H. right. exact I. }
      apply App; [apply NoDup_filter, seq_NoDup|auto|]. intros x I J. apply filter_In in I as [_ I]. apply Nat.eqb_eq in I.
      apply in_flat_map in J as (u & U & J). apply filter_In in J as [_ J]. apply Nat.eqb_eq in J. congruence. }
    apply G, seq_NoDup.
  - apply seq_NoDup.
  - intros x. rewrite in_flat_map. split.
    + intros (t & _ & I). apply filter_In in I. tauto.
    + intros I. exists (x mod threads)%nat. split; [apply in_seq; pose proof (Nat.mod_upper_bound x threads); lia|]. apply filter_In. rewrite Nat.eqb_refl. auto.
Qed.
Lemma numbers_all : forall nsym n k, flat_map (fun i => map (fun y => (i * nsym + y)%nat) (seq 0 nsym)) (seq k n) = seq (k * nsym) (n * nsym).
Proof.
  intros nsym n. induction n as [|n IH]; intros k; [reflexivity|]. cbn [seq flat_map]. rewrite IH. cbn [Nat.mul]. rewrite seq_app. f_equal; [|f_equal; lia].
  assert (G : forall m a, map (fun y => (k * nsym + y)%nat) (seq a m) = seq (k * nsym + a) m).
  { induction m as [|m IHm]; intros a; [reflexivity|]. cbn. rewrite IHm. repeat f_equal. lia. }
  rewrite G. f_equal. lia.
Qed.

(** C106: for every number of threads and every interleaving, each point and symmetry is calculated exactly once; the number of ">>OUT" lines is the one
    announced by ">>TOT"; the pair Hamiltonian of a point is made of the one-atom Hamiltonians with the fields of this point, and its distance is the one of
    this point.  Partial: at least one step (C106_zero_refuted). *)
Theorem C106_two_partial : forall s nsym threads r, (1 <= steps s)%nat -> (1 <= threads)%nat -> two_scan s nsym threads r ->
  exists n l, r = Ok ((n * nsym)%nat, l) /\ points (equal_fields (f_min s) (f_max s) /\ r_min s == r_max s) (steps s) n /\
  Permutation (map p_number l) (seq 0 (n * nsym)) /\
  forall p, In p l -> exists i, (i < n)%nat /\ (p_symmetry p < nsym)%nat /\ p_number p = (i * nsym + p_symmetry p)%nat /\
    fields_evenly n i (f_min s) (f_max s) (p_fields_used p) /\ evenly n i (r_min s) (r_max s) (p_distance p).
Proof.
  intros s nsym threads r S T H. unfold two_scan in H.
  assert (N1 : (nsteps_one s <> 0)%nat) by (unfold nsteps_one; destruct (same_fields _ _); lia). apply Nat.eqb_neq in N1. rewrite N1 in H. apply Nat.eqb_neq in N1.
  set (fu := fun i => match one_at s i with Ok f => f | _ => f_min s end).
  set (g := fun i y => PairStep (i * nsym + y) (fu i) (interpolate (normalized (nsteps_two s) i) (r_min s) (r_max s)) y).
  assert (B : forall i y, (i < nsteps_two s)%nat -> pair_body s nsym i y = Ok (g i y)).
  { intros i y I. unfold pair_body, g, fu. destruct (one_at_spec s S I) as (f & -> & _). reflexivity. }
  assert (It : forall i, (i < nsteps_two s)%nat -> iteration s nsym i = Ok (map (g i) (seq 0 nsym))).
  { intros i I. unfold iteration. apply collect_ok. intros y _. apply B. exact I. }
  assert (Th : forall t, thread_of s nsym threads t = Ok (flat_map (fun i => map (g i) (seq 0 nsym)) (assigned threads (nsteps_two s) t))).
  { intros t. unfold thread_of. rewrite (@collect_ok _ _ _ (fun i => map (g i) (seq 0 nsym))).
    - cbn [bind]. rewrite flat_map_concat_map. reflexivity.
    - intros i I. apply It. apply filter_In in I as [I _]. apply in_seq in I. lia. }
  rewrite (@collect_ok _ _ _ (fun t => flat_map (fun i => map (g i) (seq 0 nsym)) (assigned threads (nsteps_two s) t))) in H by (intros; apply Th).
  destruct H as (l & I & ->). exists (nsteps_two s), l. split; [reflexivity|]. split; [|].
  { unfold points. rewrite <- same_equal. unfold nsteps_two, nsteps_one. split.
    - intros [-> R]. apply Qeq_bool_iff in R. rewrite R. reflexivity.
    - intros N. destruct (same_fields (f_min s) (f_max s)) eqn:F.
      + destruct (Qeq_bool (r_min s) (r_max s)) eqn:R; [|reflexivity]. exfalso. apply N. split; [reflexivity|apply Qeq_bool_iff; exact R].
      + destruct (Qeq_bool (r_min s) (r_max s) && (steps s =? 1)%nat) eqn:R; [|reflexivity]. apply andb_true_iff in R as [_ R]. apply Nat.eqb_eq in R. congruence. }
  apply interleaving_perm in I. rewrite <- flat_map_concat_map in I.
  assert (FF : forall ts, flat_map (fun t => flat_map (fun i => map (g i) (seq 0 nsym)) (assigned threads (nsteps_two s) t)) ts = flat_map (fun i => map (g i) (seq 0 nsym)) (flat_map (assigned threads (nsteps_two s)) ts)).
  { induction ts as [|t ts IH]; [reflexivity|]. cbn [flat_map]. rewrite IH, flat_map_app. reflexivity. }
  rewrite FF in I. clear FF.
  assert (I2 : Permutation l (flat_map (fun i => map (g i) (seq 0 nsym)) (seq 0 (nsteps_two s)))).
  { rewrite I. apply Permutation_flat_map. apply assigned_perm. exact T. }
  split.
  - rewrite I2. pose proof (numbers_all nsym (nsteps_two s) 0) as NA. cbn [Nat.mul] in NA. rewrite <- NA. rewrite !flat_map_concat_map, concat_map, map_map.
    replace (map (fun x => map p_number (map (g x) (seq 0 nsym))) (seq 0 (nsteps_two s))) with (map (fun i => map (fun y => (i * nsym + y)%nat) (seq 0 nsym)) (seq 0 (nsteps_two s))); [reflexivity|].
    apply map_ext. intros i. rewrite map_map. reflexivity.
  - intros p Hp. apply (Permutation_in _ I2) in Hp. apply in_flat_map in Hp as (i & Hi & Hp). apply in_seq in Hi. apply in_map_iff in Hp as (y & <- & Hy). apply in_seq in Hy.
    exists i. unfold g. cbn [p_number p_symmetry p_fields_used p_distance]. split; [lia|]. split; [lia|]. split; [reflexivity|].
    assert (Li : (i < nsteps_two s)%nat) by lia. split; [|apply interpolate_evenly; exact Li].
    unfold fu. destruct (one_at_spec s S Li) as (f & -> & F). exact F.
Qed.

(** C106 fails without steps: if the fields change, an element of an empty vector is used. *)
Theorem C106_zero_refuted : forall s nsym threads r, steps s = 0%nat -> ~ equal_fields (f_min s) (f_max s) -> two_scan s nsym threads r -> r = UB.
Proof.
  intros s nsym threads r S N H. unfold two_scan, nsteps_one in H. destruct (same_fields _ _) eqn:F; [elim N; apply same_equal; exact F|]. rewrite S in H. exact H.
Qed.

(** *** A concrete scan: field and distance change, 3 steps, two symmetries *)
Definition demo : scan := Scan (Fields 0 0 0 0 0 1) (Fields 0 0 10 0 0 1) 3 5 7.
Example C106_example : map f_Ez (one_scan demo) = [0 + (0 / 2) * (10 - 0); 0 + (1 / 2) * (10 - 0); 0 + (2 / 2) * (10 - 0)] /\
  ~ equal_fields (f_min demo) (f_max demo) /\ exists r, two_scan demo 2 2 r.
Proof.
  split; [reflexivity|]. split; [intros (_ & _ & E & _); discriminate|]. unfold two_scan. cbv beta.
  destruct (nsteps_one demo =? 0)%nat eqn:E; [discriminate|].
  destruct (collect (map (thread_of demo 2 2) (seq 0 2))) as [ts| |] eqn:C; [|vm_compute in C; discriminate|vm_compute in C; discriminate].
  destruct (interleaving_exists ts) as (l & L). exists (Ok ((nsteps_two demo * 2)%nat, l)). exists l. split; [exact L|reflexivity].
Qed.
(** The same with constant fields: only one one-atom Hamiltonian, used for all distances. *)
Example C106_constant_example : length (one_scan (Scan (Fields 0 0 1 0 0 1) (Fields 0 0 1 0 0 1) 3 5 7)) = 1%nat /\
  exists l r, collect (map (thread_of (Scan (Fields 0 0 1 0 0 1) (Fields 0 0 1 0 0 1) 3 5 7) 1 2) (seq 0 2)) = Ok l /\ interleaving l r /\ map p_number r = [0; 1; 2]%nat.
Proof.
  split; [reflexivity|]. do 2 eexists. split; [vm_compute; reflexivity|]. split.
  - apply (Turn []). eapply (Turn [_]). apply (Turn []). constructor. cbn. intuition congruence.
  - reflexivity.
Qed.
Print Assumptions C106_one. Print Assumptions C106_two_partial. Print Assumptions C106_zero_refuted.
