(** C54, C55: the bases of the command line program. *)
From Verif Require Import Base BasisnamesModel BasisnamesProofs.
From Coq Require Import ZArith Lia Bool List Sorted Permutation.
Import ListNotations.
Set Implicit Arguments.
Local Open Scope Z_scope.

(** the start state exists *)
Definition start_ok (s : one) : Prop := physical (n_ s) (l_ s) (jj s) (mm s).
Definition has (b : names_one) (n l j m : Z) : Prop := exists i, In (One i n l j m) (names1 b).

Lemma has_quads : forall b n l j m, has b n l j m <-> In (n, l, j, m) (map quad (names1 b)).
Proof.
  intros. unfold has. rewrite in_map_iff. split.
  - intros [i H]. exists (One i n l j m). auto.
  - intros ([i n' l' j' m'] & E & H). unfold quad in E. cbn in E. injection E as -> -> -> ->. eauto.
Qed.
Lemma number_quads : forall qs i, map quad (number i qs) = qs.
Proof. induction qs as [|[[[n l] j] m] qs IH]; intro i; [reflexivity|]. cbn [number map]. rewrite IH. reflexivity. Qed.
Lemma start_odd : forall s, start_ok s -> Z.odd (jj s) = true /\ Z.odd (mm s) = true.
Proof.
  intros s (_ & J & _ & M & _). split; auto. apply odd_iff. destruct J as [-> | ->]; [exists (l_ s)|exists (l_ s - 1)]; lia.
Qed.

(** *** C54.  [wanted]: within the given deltas, a negative delta being no restriction. *)

(** One start state.  Missing: delta_m < 0 and a start state with negative m, see the next theorem. *)
Theorem C54_one_partial : forall s d n l j m, start_ok s -> 0 <= dn d -> (dm d < 0 -> 0 < mm s) ->
  (has (build1 s d) n l j m <-> physical n l j m /\ wanted s d n l j m).
Proof.
  intros s d n l j m S N Dm. rewrite has_quads. unfold build1. cbn [names1]. rewrite number_quads.
  destruct (start_odd S) as [Oj Om]. rewrite in_ranges_phys by auto. destruct S as (Sl & Sj & Sp & _ & Sm).
  unfold wanted, inrange, fill, physical. cbn [dn dl dj dm]. apply odd_iff in Oj as [a Oj]. apply odd_iff in Om as [c Om].
  assert (Qj : 2 * Z.quot (jj s + 2 * n_ s + 2 * dn d - 1) 2 = jj s + 2 * n_ s + 2 * dn d - 1) by (Z.to_euclidean_division_equations; lia).
  assert (Qm : 0 < mm s -> 2 * Z.quot (mm s + 2 * n_ s + 2 * dn d - 1) 2 = mm s + 2 * n_ s + 2 * dn d - 1) by (Z.to_euclidean_division_equations; lia).
  destruct (Z.ltb_spec (dl d) 0), (Z.ltb_spec (dj d) 0), (Z.ltb_spec (dm d) 0); rewrite ?Qj, ?Qm by auto; (split; [intros (P & ? & ? & ? & ?); intuition lia|]);
    intros (P & ? & ? & ? & ?); (split; [assumption|]); destruct P as (P1 & P2 & P3 & P4 & P5); intuition lia.
Qed.
(** The basis stops short of the largest m. *)
Theorem C54_m_refuted : forall s d, start_ok s -> 0 <= dn d -> dl d < 0 -> dj d < 0 -> dm d < 0 -> mm s < 0 ->
  let n := n_ s + dn d in
  physical n (n - 1) (2 * n - 1) (2 * n - 1) /\ wanted s d n (n - 1) (2 * n - 1) (2 * n - 1) /\ ~ has (build1 s d) n (n - 1) (2 * n - 1) (2 * n - 1).
Proof.
  intros s d S N Dl Dj Dm M n. split; [|split].
  - destruct S as (Sl & _). unfold physical. split; [lia|]. split; [left; lia|]. split; [lia|]. split; [|lia]. apply odd_iff. exists (n - 1). lia.
  - unfold wanted, inrange. subst n. repeat split; lia.
  - rewrite has_quads. unfold build1. cbn [names1]. rewrite number_quads. destruct (start_odd S) as [Oj Om]. rewrite in_ranges_phys by auto.
    intros (_ & _ & _ & _ & H). unfold fill in H. cbn [dm] in H. destruct (Z.ltb_spec (dm d) 0); [|lia].
    destruct S as (Sl & Sj & Sp & _ & Sm). subst n. clear Oj. apply odd_iff in Om as [c Om]. Z.to_euclidean_division_equations. lia.
Qed.

Lemma insert_all_quads : forall qs i set q, In q (map quad (snd (insert_all i set qs))) <-> In q (map quad set) \/ In q qs.
Proof.
  induction qs as [|[[[n l] j] m] qs IH]; intros i set q; cbn [insert_all]; [cbn; tauto|]. destruct (existsb _ set) eqn:X; rewrite IH; cbn [In].
  - apply existsb_exists in X as (s & Hs & X). apply oeqb_iff in X. split; [tauto|]. intros [?|[<-|?]]; auto. left.
    change (n, l, j, m) with (quad (One i n l j m)). rewrite X. apply in_map. auto.
  - rewrite map_app, in_app_iff. cbn [map In]. unfold quad at 2. cbn. tauto.
Qed.
Lemma insert_all_nodup : forall qs i set, NoDup (map quad set) -> NoDup (map quad (snd (insert_all i set qs))).
Proof.
  induction qs as [|[[[n l] j] m] qs IH]; intros i set N; cbn [insert_all]; [exact N|]. destruct (existsb _ set) eqn:X; apply IH; auto.
  rewrite map_app. apply (Permutation_NoDup (l := quad (One i n l j m) :: map quad set)); [apply Permutation_cons_append|]. constructor; auto.
  intro H. apply in_map_iff in H as (s & Q & Hs). assert (existsb (oeqb (One i n l j m)) set = true); [|congruence].
  apply existsb_exists. exists s. split; auto. apply oeqb_iff. auto.
Qed.
Lemma osort_perm : forall l, NoDup (map quad l) -> Permutation l (osort l) /\ Sorted olt (osort l).
Proof. intros l N. destruct (@osort_spec l [] (Sorted_nil _) N) as [A B]. split; auto. Qed.

Lemma order_cases : forall a b, order a b = (a, b) \/ order a b = (b, a).
Proof. intros. unfold order. destruct (_ || _); auto. Qed.
Lemma both_has : forall a b d n l j m,
  let d' := fill d (Z.max (l_ a) (l_ b)) (Z.max (jj a) (jj b)) (Z.max (mm a) (mm b)) (Z.max (n_ a) (n_ b)) in
  has (build_both a b d) n l j m <-> In (n, l, j, m) (ranges a d') \/ In (n, l, j, m) (ranges b d').
Proof.
  intros a b d n l j m d'. rewrite has_quads. unfold build_both. cbn [names1].
  match goal with |- context [insert_all 0 [] ?q] => pose proof (@insert_all_nodup q 0 [] (NoDup_nil _)) as N; pose proof (insert_all_quads q 0 [] (n, l, j, m)) as Q end.
  destruct (osort_perm _ N) as [P _]. 
  assert (X : In (n, l, j, m) (map quad (osort (snd (insert_all 0 [] (ranges (fst (order a b)) d' ++ ranges (snd (order a b)) d'))))) <->
              In (n, l, j, m) (ranges (fst (order a b)) d' ++ ranges (snd (order a b)) d')).
  { destruct (order_cases a b) as [E|E]; rewrite E in *; cbn [fst snd] in *; unfold d'.
    - split; intro H.
      + apply (Permutation_in _ (Permutation_sym (Permutation_map quad P))) in H. apply Q in H as [[]|H]. exact H.
      + apply (Permutation_in _ (Permutation_map quad P)). apply Q. auto.
    - rewrite (Z.max_comm (l_ a)), (Z.max_comm (jj a)), (Z.max_comm (mm a)), (Z.max_comm (n_ a)). split; intro H.
      + apply (Permutation_in _ (Permutation_sym (Permutation_map quad P))) in H. apply Q in H as [[]|H]. exact H.
      + apply (Permutation_in _ (Permutation_map quad P)). apply Q. auto. }
  destruct (order_cases a b) as [E|E]; rewrite E in *; cbn [fst snd] in *; rewrite in_app_iff in X.
  - exact X.
  - rewrite (Z.max_comm (l_ b)), (Z.max_comm (jj b)), (Z.max_comm (mm b)), (Z.max_comm (n_ b)). fold d'. tauto.
Qed.

(** Two start states.  Missing: delta_m < 0 and m1 + m2 < 0. *)
Theorem C54_both_partial : forall a b d n l j m, start_ok a -> start_ok b -> 0 <= dn d -> (dm d < 0 -> 0 <= mm a + mm b) ->
  (has (build_both a b d) n l j m <-> physical n l j m /\ (wanted a d n l j m \/ wanted b d n l j m)).
Proof.
  intros a b d n l j m Sa Sb N Dm. rewrite both_has. destruct (start_odd Sa) as [Oja Oma], (start_odd Sb) as [Ojb Omb].
  rewrite !in_ranges_phys by auto. destruct Sa as (Sla & Sja & Spa & _ & Sma), Sb as (Slb & Sjb & Spb & _ & Smb).
  apply odd_iff in Oja as [ja Oja]. apply odd_iff in Oma as [ma Oma]. apply odd_iff in Ojb as [jb Ojb]. apply odd_iff in Omb as [mb Omb].
  unfold fill. cbn [dn dl dj dm]. set (L := Z.max (l_ a) (l_ b)). set (J := Z.max (jj a) (jj b)). set (M := Z.max (mm a) (mm b)). set (X := Z.max (n_ a) (n_ b)).
  assert (HJ : exists k, J = 2 * k + 1) by (unfold J; destruct (Z.max_spec (jj a) (jj b)) as [[_ ->]|[_ ->]]; eauto).
  assert (HM : exists k, M = 2 * k + 1) by (unfold M; destruct (Z.max_spec (mm a) (mm b)) as [[_ ->]|[_ ->]]; eauto).
  destruct HJ as [kj HJ], HM as [km HM].
  assert (Qj : 2 * Z.quot (J + 2 * X + 2 * dn d - 1) 2 = J + 2 * X + 2 * dn d - 1) by (subst X; Z.to_euclidean_division_equations; lia).
  assert (Qm : 0 <= mm a + mm b -> 2 * Z.quot (M + 2 * X + 2 * dn d - 1) 2 = M + 2 * X + 2 * dn d - 1)
    by (intro Z0; assert (0 <= M) by lia; subst X; Z.to_euclidean_division_equations; lia).
  assert (G : forall s, (s = a \/ s = b) -> physical n l j m ->
    (Z.abs (n - n_ s) <= dn d /\ Z.abs (l - l_ s) <= (if dl d <? 0 then L + X + dn d - 1 else dl d) /\
     Z.abs (j - jj s) <= 2 * (if dj d <? 0 then Z.quot (J + 2 * X + 2 * dn d - 1) 2 else dj d) /\
     Z.abs (m - mm s) <= 2 * (if dm d <? 0 then Z.quot (M + 2 * X + 2 * dn d - 1) 2 else dm d)) <-> wanted s d n l j m).
  { intros s Hs (P1 & P2 & P3 & P4 & P5). unfold wanted, inrange.
    assert (Bl : 0 <= l_ s <= L) by (destruct Hs; subst s; unfold L; lia).
    assert (Bj : 0 < jj s <= J) by (destruct Hs; subst s; unfold J; lia).
    assert (Bn : 0 < n_ s <= X) by (destruct Hs; subst s; unfold X; lia).
    assert (Bm : dm d < 0 -> mm s <= M /\ 0 <= M + mm s) by (intro; destruct Hs; subst s; unfold M; lia).
    assert (Hn : 0 < n) by lia. clearbody L J M X.
    assert (El : Z.abs (n - n_ s) <= dn d -> (Z.abs (l - l_ s) <= (if dl d <? 0 then L + X + dn d - 1 else dl d) <-> (0 <= dl d -> Z.abs (l - l_ s) <= dl d))).
    { clear - P1 Bl Bn N Hn. destruct (Z.ltb_spec (dl d) 0); intro; split; intros; lia. }
    assert (Ej : Z.abs (n - n_ s) <= dn d -> (Z.abs (j - jj s) <= 2 * (if dj d <? 0 then Z.quot (J + 2 * X + 2 * dn d - 1) 2 else dj d) <->
        (0 <= dj d -> Z.abs (j - jj s) <= 2 * dj d))).
    { clear - P1 P2 P3 Bj Bn N Hn Qj. destruct (Z.ltb_spec (dj d) 0); rewrite ?Qj; intro; split; intros; lia. }
    assert (Em : Z.abs (n - n_ s) <= dn d -> (Z.abs (m - mm s) <= 2 * (if dm d <? 0 then Z.quot (M + 2 * X + 2 * dn d - 1) 2 else dm d) <->
        (0 <= dm d -> Z.abs (m - mm s) <= 2 * dm d))).
    { clear - P1 P2 P3 P5 Bm Bn N Hn Qm Dm. destruct (Z.ltb_spec (dm d) 0); rewrite ?Qm by auto; intro; split; intros; lia. }
    clear - El Ej Em. tauto. }
  split.
  - intros [(P & H)|(P & H)]; (split; [exact P|]); [left|right]; apply G; auto.
  - intros (P & [W|W]); [left|right]; (split; [exact P|]); apply G; auto.
Qed.
Theorem C54_both_m_refuted : forall a b d, start_ok a -> start_ok b -> 0 <= dn d -> dl d < 0 -> dj d < 0 -> dm d < 0 -> mm a < 0 -> mm b < 0 ->
  let n := Z.max (n_ a) (n_ b) + dn d in
  physical n (n - 1) (2 * n - 1) (2 * n - 1) /\ (wanted a d n (n - 1) (2 * n - 1) (2 * n - 1) \/ wanted b d n (n - 1) (2 * n - 1) (2 * n - 1)) /\
  ~ has (build_both a b d) n (n - 1) (2 * n - 1) (2 * n - 1).
Proof.
  intros a b d Sa Sb N Dl Dj Dm Ma Mb n. split; [|split].
  - destruct Sa as (Sl & _). unfold physical. split; [lia|]. split; [left; lia|]. split; [lia|]. split; [|lia]. apply odd_iff. exists (n - 1). lia.
  - unfold wanted, inrange. subst n. destruct (Z.max_spec (n_ a) (n_ b)) as [[? ->]|[? ->]]; [right|left]; repeat split; lia.
  - rewrite both_has. destruct (start_odd Sa) as [Oja Oma], (start_odd Sb) as [Ojb Omb]. rewrite !in_ranges_phys by auto.
    destruct Sa as (Sla & _), Sb as (Slb & _).
    unfold fill. cbn [dm dn dl dj]. destruct (Z.ltb_spec (dm d) 0); [|lia].
    intros [(_ & _ & _ & _ & H1)|(_ & _ & _ & _ & H1)]; subst n; clear Oja Ojb Oma Omb; Z.to_euclidean_division_equations; lia.
Qed.

(** Every state is listed once; the lists are ordered by n, l, j, m. *)
Theorem C54_once : forall s d, NoDup (map quad (names1 (build1 s d))).
Proof. intros. unfold build1. cbn [names1]. rewrite number_quads. apply ranges_nodup. Qed.
Theorem C54_both_once : forall a b d, NoDup (map quad (names1 (build_both a b d))) /\ Sorted olt (names1 (build_both a b d)).
Proof.
  intros. unfold build_both. cbn [names1].
  match goal with |- context [insert_all 0 [] ?q] => pose proof (@insert_all_nodup q 0 [] (NoDup_nil _)) as N end.
  destruct (osort_perm _ N) as [P S]. split; [apply (Permutation_NoDup (Permutation_map quad P) N)|exact S].
Qed.
(** Rb 60S1/2 m=1/2 with delta_n = 1, others unlimited; with m = -1/2 the circular state with the largest m is missing. *)
Example C54_nonvacuous : start_ok (One 0 60 0 1 1) /\ start_ok (One 0 60 0 1 (-1)) /\
  length (names1 (build1 (One 0 2 0 1 1) (Deltas 1 (-1) (-1) (-1)))) = 28%nat /\
  length (names1 (build1 (One 0 2 0 1 (-1)) (Deltas 1 (-1) (-1) (-1)))) = 27%nat /\
  length (names1 (build_both (One 0 2 0 1 1) (One 0 3 0 1 (-1)) (Deltas 0 (-1) (-1) (-1)))) = 26%nat.
Proof. unfold start_ok, physical. cbn. repeat split; lia. Qed.

(** *** C55 *)
(** The indices a basis has before states are removed: every index below dim() belongs to one state. *)
Definition indexed (b : names_one) : Prop := Permutation (map idx (names1 b)) (map Z.of_nat (seq 0 (length (names1 b)))) /\
  dim1 b = Z.of_nat (length (names1 b)).
Theorem C55_indices : forall s d, Z.of_nat (length (ranges s (fill d (l_ s) (jj s) (mm s) (n_ s)))) < 2 ^ 32 -> indexed (build1 s d).
Proof.
  intros s d B. unfold build1, indexed. cbn [names1 dim1]. destruct (@number_spec _ 0 (Z.le_refl 0) B) as [Q I]. rewrite I, wrap_small by lia.
  assert (L : forall q i, length (number i q) = length q) by (induction q as [|[[[? ?] ?] ?] q IH]; intro; cbn; auto).
  rewrite L. split; auto.
Qed.
Theorem C55_both_indices : forall a b d,
  let D := fill d (Z.max (l_ a) (l_ b)) (Z.max (jj a) (jj b)) (Z.max (mm a) (mm b)) (Z.max (n_ a) (n_ b)) in
  Z.of_nat (length (ranges a D) + length (ranges b D)) < 2 ^ 32 -> indexed (build_both a b d).
Proof.
  intros a b d D B. unfold indexed, build_both. cbn [names1 dim1].
  match goal with |- context [insert_all 0 [] ?q] => pose proof (fun B L I N => @insert_all_spec q 0 [] _ (Z.le_refl 0) B L I N eq_refl) as G end.
  destruct G as (E1 & E2 & E3 & _).
  - rewrite app_length. destruct (order_cases a b) as [E|E]; rewrite E; cbn [fst snd];
      [|rewrite (Z.max_comm (l_ b)), (Z.max_comm (jj b)), (Z.max_comm (mm b)), (Z.max_comm (n_ b))]; fold D; lia.
  - reflexivity.
  - reflexivity.
  - constructor.
  - destruct (osort_perm _ E3) as [P _]. split.
    + rewrite <- (Permutation_map idx P), <- (Permutation_length P), E2. reflexivity.
    + rewrite E1. f_equal. apply Permutation_length. exact P.
Qed.

(** removeUnnecessaryStates: the states whose index is marked remain in their order, the i-th gets index i. *)
Theorem C55_one : forall b mask, indexed b -> length mask = length (names1 b) -> Z.of_nat (length (names1 b)) < 2 ^ 32 ->
  exists b', remove1 b mask = Ok b' /\ map quad (names1 b') = map quad (filter (fun s => nth (Z.to_nat (idx s)) mask false) (names1 b)) /\
    map idx (names1 b') = map Z.of_nat (seq 0 (length (names1 b'))) /\ dim1 b' = Z.of_nat (length (names1 b')).
Proof.
  intros b mask [I D] L B. destruct (@remove1_spec mask (names1 b) 0) as (r & E & Q & X); [lia|lia| |].
  - intros s Hs. assert (H : In (idx s) (map Z.of_nat (seq 0 (length (names1 b))))) by (apply (Permutation_in _ I); apply in_map; auto).
    apply in_map_iff in H as (k & <- & H). apply in_seq in H. lia.
  - unfold remove1. rewrite E. cbn [bind]. eexists. split; [reflexivity|]. cbn [names1 dim1 fst snd]. auto.
Qed.
(** Removing again is possible (with a mask of the new size). *)
Theorem C55_again : forall b mask b', indexed b -> length mask = length (names1 b) -> Z.of_nat (length (names1 b)) < 2 ^ 32 -> remove1 b mask = Ok b' -> indexed b'.
Proof.
  intros b mask b' I L B E. destruct (@C55_one b mask I L B) as (c & E' & _ & X & D). rewrite E in E'. injection E' as <-. split; auto. rewrite X. reflexivity.
Qed.
(** A mask that is too short is read out of bounds. *)
Theorem C55_short_mask : forall b mask s, In s (names1 b) -> (Z.of_nat (length mask) <= idx s) -> remove1 b mask = UB.
Proof.
  intros b mask s Hs B. unfold remove1. assert (G : forall l i, In s l -> remove1_loop mask i l = UB).
  { induction l as [|x l IH]; intros i H; [destruct H|]. cbn [remove1_loop]. unfold mask_at at 1. destruct (idx x <? 0) eqn:Ng; [reflexivity|].
    destruct (nth_error mask (Z.to_nat (idx x))) as [v|] eqn:Nt; [|reflexivity]. cbn [bind]. destruct H as [->|H].
    - assert (Z.to_nat (idx s) < length mask)%nat by (apply nth_error_Some; congruence). lia.
    - destruct v; rewrite IH by auto; reflexivity. }
  rewrite G by auto. reflexivity.
Qed.

(** The pair basis is in row-major order, the index is the position. *)
Theorem C55_rowmajor : forall start b1 b2 i k a b, let n2 := length (names1 b2) in
  nth_error (names1 b1) i = Some a -> nth_error (names1 b2) k = Some b -> Z.of_nat (length (names1 b1) * n2) < 2 ^ 32 ->
  nth_error (names2 (build2 start b1 b2)) (i * n2 + k) = Some (Two (Z.of_nat (i * n2 + k)) a b) /\
  length (names2 (build2 start b1 b2)) = (length (names1 b1) * n2)%nat /\ dim2 (build2 start b1 b2) = Z.of_nat (length (names1 b1) * n2).
Proof.
  intros start b1 b2 i k a b n2 Ha Hb B. unfold build2. cbn [names2 dim2].
  set (ps := flat_map (fun a => map (fun b => (a, b)) (names1 b2)) (names1 b1)).
  assert (Lp : forall l : list one, length (flat_map (fun a => map (fun b => (a, b)) (names1 b2)) l) = (length l * n2)%nat).
  { induction l as [|x l IH]; [reflexivity|]. cbn [flat_map length]. rewrite app_length, map_length, IH. reflexivity. }
  assert (Np : nth_error ps (i * n2 + k) = Some (a, b)).
  { unfold ps. clear B ps. revert i Ha. induction (names1 b1) as [|x l IH]; intros i Ha; [destruct i; discriminate|].
    assert (k < n2)%nat by (apply nth_error_Some; congruence). cbn [flat_map]. destruct i as [|i].
    - injection Ha as ->. rewrite nth_error_app1 by (rewrite map_length; fold n2; lia). rewrite Nat.mul_0_l, Nat.add_0_l. exact (map_nth_error _ _ _ Hb).
    - rewrite nth_error_app2 by (rewrite map_length; fold n2; lia). rewrite map_length. fold n2. replace (S i * n2 + k - n2)%nat with (i * n2 + k)%nat by lia. apply IH. auto. }
  assert (L2 : forall q z, length (number2 z q) = length q) by (induction q as [|[? ?] q IH]; intro; cbn; auto).
  assert (Lps : length ps = (length (names1 b1) * n2)%nat) by apply Lp.
  destruct (@number2_spec ps 0) as [Q I]; [lia|lia|]. rewrite L2, Lps, wrap_small by lia. split; auto.
  assert (K : (i * n2 + k < length ps)%nat) by (apply nth_error_Some; congruence).
  destruct (nth_error (number2 0 ps) (i * n2 + k)) as [t|] eqn:T; [|apply nth_error_None in T; rewrite L2 in T; lia].
  apply (map_nth_error (fun t => (fst_ t, snd_ t))) in T as T1. rewrite Q, Np in T1. apply (map_nth_error idx2) in T as T2. rewrite I in T2.
  rewrite nth_error_map in T2. rewrite (nth_error_nth' (seq 0 (length ps)) 0%nat) in T2 by (rewrite seq_length; lia). rewrite seq_nth in T2 by lia.
  cbn in T2. destruct t as [i2 f s]. cbn in *. injection T1 as -> ->. injection T2 as <-. reflexivity.
Qed.
Theorem C55_two : forall b mask, (forall t, In t (names2 b) -> 0 <= idx2 t < Z.of_nat (length mask)) -> Z.of_nat (length (names2 b)) < 2 ^ 32 ->
  exists b', remove2 b mask = Ok b' /\ map pair_of (names2 b') = map pair_of (filter (fun t => nth (Z.to_nat (idx2 t)) mask false) (names2 b)) /\
    map idx2 (names2 b') = map Z.of_nat (seq 0 (length (names2 b'))) /\ dim2 b' = Z.of_nat (length (names2 b')) /\
    (** initial() is the same state; its index is its position if it was not removed *)
    pair_of (initial2 b') = pair_of (initial2 b) /\
    (forall t, In t (names2 b') -> pair_of t = pair_of (initial2 b) ->
      exists k u, nth_error (names2 b') k = Some u /\ pair_of u = pair_of (initial2 b) /\ idx2 (initial2 b') = Z.of_nat k).
Proof.
  intros b mask M B. destruct (@remove2_spec mask (names2 b) 0) as (r & E & Q & X); [lia|lia|auto|].
  unfold remove2. rewrite E. cbn [bind]. eexists. split; [reflexivity|]. cbn [names2 dim2 initial2 fst snd]. split; auto. split; auto. split; auto.
  destruct (scan_spec r (initial2 b)) as [S F]. split; auto. intros t Ht Pt. destruct (find (fun t => teqb t (initial2 b)) r) as [u|] eqn:Fu.
  - apply find_some in Fu as [Hu Eu]. apply teqb_iff in Eu. apply In_nth_error in Hu as [k Hk]. exists k, u. split; auto. split; auto. rewrite F.
    apply (map_nth_error idx2) in Hk as K. rewrite X, nth_error_map in K. assert (Lk : (k < length r)%nat) by (apply nth_error_Some; congruence).
    rewrite (nth_error_nth' (seq 0 (length r)) 0%nat), seq_nth in K by (rewrite ?seq_length; lia). cbn in K. injection K as <-. reflexivity.
  - eapply find_none in Fu; [|exact Ht]. apply teqb_iff in Pt. congruence.
Qed.
Theorem C55_keep : forall b mask, (forall t, In t (names2 b) -> 0 <= idx2 t < Z.of_nat (length mask)) ->
  remove2_keep b mask = Ok (NamesTwo (dim2 b) (filter (fun t => nth (Z.to_nat (idx2 t)) mask false) (names2 b)) (initial2 b)).
Proof. intros b mask M. unfold remove2_keep. rewrite keep_spec by auto. reflexivity. Qed.

(** The pair state the calculation starts from: after the basis is built initial() is that state, and its index is the
    position where it is listed (first), if it is listed. *)
Theorem C55_initial : forall start b1 b2, Z.of_nat (length (names1 b1) * length (names1 b2)) < 2 ^ 32 ->
  pair_of (initial2 (build2 start b1 b2)) = (quad (fst start), quad (snd start)) /\
  (forall t, In t (names2 (build2 start b1 b2)) -> pair_of t = (quad (fst start), quad (snd start)) ->
    exists k u, nth_error (names2 (build2 start b1 b2)) k = Some u /\ pair_of u = (quad (fst start), quad (snd start)) /\
      idx2 (initial2 (build2 start b1 b2)) = Z.of_nat k).
Proof.
  intros start b1 b2 B. unfold build2. cbn [names2 initial2].
  set (ps := flat_map (fun a => map (fun b => (a, b)) (names1 b2)) (names1 b1)).
  assert (Lp : forall l : list one, length (flat_map (fun a => map (fun b => (a, b)) (names1 b2)) l) = (length l * length (names1 b2))%nat).
  { induction l as [|x l IH]; [reflexivity|]. cbn [flat_map length]. rewrite app_length, map_length, IH. reflexivity. }
  assert (Lps : length ps = (length (names1 b1) * length (names1 b2))%nat) by apply Lp.
  destruct (@number2_spec ps 0) as [Q X]; [lia|lia|].
  set (r := number2 0 ps) in *. clearbody r. set (init := Two 0 (fst start) (snd start)).
  change (quad (fst start), quad (snd start)) with (pair_of init).
  destruct (scan_spec r init) as [S F]. split; auto. intros t Ht Pt. destruct (find (fun t => teqb t init) r) as [u|] eqn:Fu.
  - apply find_some in Fu as [Hu Eu]. apply teqb_iff in Eu. apply In_nth_error in Hu as [k Hk]. exists k, u. split; auto. split; auto. rewrite F.
    apply (map_nth_error idx2) in Hk as K. rewrite X, nth_error_map in K.
    destruct (nth_error (seq 0 (length ps)) k) as [q|] eqn:Sq; [|discriminate K]. cbn in K. injection K as K. rewrite <- K.
    assert (Lk : (k < length (seq 0 (length ps)))%nat) by (apply nth_error_Some; congruence).
    rewrite (nth_error_nth' _ 0%nat Lk), seq_nth in Sq by (rewrite seq_length in Lk; lia). injection Sq as <-. f_equal.
  - eapply find_none in Fu; [|exact Ht]. apply teqb_iff in Pt. congruence.
Qed.
(** The basis of one of the atoms of a pair basis: exactly the states this atom has in the pairs, each once, in order;
    its indices are complete.  [second]: which atom. *)
Theorem C55_from_two : forall s b second, Z.of_nat (length (names2 b)) < 2 ^ 32 ->
  (forall n l j m, has (build_from_two s b second) n l j m <->
     exists t, In t (names2 b) /\ (if second then snd (pair_of t) else fst (pair_of t)) = (n, l, j, m)) /\
  NoDup (map quad (names1 (build_from_two s b second))) /\ Sorted olt (names1 (build_from_two s b second)) /\
  indexed (build_from_two s b second) /\ initial1 (build_from_two s b second) = [s].
Proof.
  intros s b second B. unfold build_from_two. cbn [names1 initial1].
  set (qs := map _ (names2 b)).
  pose proof (@insert_all_nodup qs 0 [] (NoDup_nil _)) as N. destruct (osort_perm _ N) as [P So].
  split; [|split; [apply (Permutation_NoDup (Permutation_map quad P) N)|split; [exact So|split; [|reflexivity]]]].
  - intros n l j m. rewrite has_quads. cbn [names1]. pose proof (insert_all_quads qs 0 [] (n, l, j, m)) as Q.
    assert (E : In (n, l, j, m) qs <-> exists t, In t (names2 b) /\ (if second then snd (pair_of t) else fst (pair_of t)) = (n, l, j, m)).
    { unfold qs. rewrite in_map_iff. split; intros (t & H1 & H2); exists t; (split; [first [exact H2 | destruct second; exact H2] | first [exact H1 | destruct second; exact H1]]). }
    rewrite <- E. split; intro H.
    + apply (Permutation_in _ (Permutation_sym (Permutation_map quad P))) in H. apply Q in H as [[]|H]. exact H.
    + apply (Permutation_in _ (Permutation_map quad P)). apply Q. auto.
  - pose proof (fun B L I N => @insert_all_spec qs 0 [] _ (Z.le_refl 0) B L I N eq_refl) as G. destruct G as (E1 & E2 & E3 & _).
    + unfold qs. rewrite map_length. lia.
    + reflexivity.
    + reflexivity.
    + constructor.
    + split; cbn [names1 dim1].
      * rewrite <- (Permutation_map idx P), <- (Permutation_length P), E2. reflexivity.
      * rewrite E1. f_equal. apply Permutation_length. exact P.
Qed.

Definition demo_one := build1 (One 0 2 0 1 1) (Deltas 0 (-1) (-1) (-1)).
Example C55_nonvacuous : indexed demo_one /\ length (names1 demo_one) = 8%nat /\
  (exists b, remove1 demo_one [true; false; false; true; false; false; false; true] = Ok b /\
     map quad (names1 b) = [(2, 0, 1, -1); (2, 1, 1, 1); (2, 1, 3, 3)] /\ map idx (names1 b) = [0; 1; 2]).
Proof. split; [split; reflexivity|]. split; [reflexivity|]. eexists. repeat split. Qed.

Definition demo_two := build2 (One 0 2 1 1 1, One 0 2 0 1 1) demo_one demo_one.
Example C55_pair_nonvacuous : idx2 (initial2 demo_two) = 25 /\ map quad (names1 (build_from_two (One 0 2 0 1 1) demo_two true)) = map quad (names1 demo_one) /\
  (exists c, remove2 demo_two (repeat false 10 ++ repeat true 20 ++ repeat false 34) = Ok c /\ idx2 (initial2 c) = 15 /\
     length (names1 (build_from_two (One 0 2 1 1 1) c false)) = 3%nat).
Proof. split; [vm_compute; reflexivity|]. split; [vm_compute; reflexivity|]. eexists. split; [vm_compute; reflexivity|]. split; vm_compute; reflexivity. Qed.

Print Assumptions C54_one_partial. Print Assumptions C54_m_refuted. Print Assumptions C54_both_partial. Print Assumptions C54_both_m_refuted.
Print Assumptions C54_once. Print Assumptions C54_both_once. Print Assumptions C55_indices. Print Assumptions C55_both_indices. Print Assumptions C55_one.
Print Assumptions C55_initial. Print Assumptions C55_from_two. Print Assumptions C55_again. Print Assumptions C55_short_mask. Print Assumptions C55_rowmajor. Print Assumptions C55_two. Print Assumptions C55_keep.
