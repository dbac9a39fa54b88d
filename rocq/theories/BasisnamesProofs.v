From Verif Require Import Base BasisnamesModel.
From Coq Require Import ZArith Lia Bool List Sorted Permutation.
Import ListNotations.
Set Implicit Arguments.
Local Open Scope Z_scope.

Lemma in_upto : forall lo hi step x, 0 < step -> (In x (upto lo hi step) <-> exists k, 0 <= k /\ x = lo + step * k /\ x <= hi).
Proof.
  intros lo hi step x P. unfold upto. rewrite in_map_iff. split.
  - intros (k & <- & H). apply in_seq in H. exists (Z.of_nat k). split; [lia|]. split; [reflexivity|].
    destruct (Z.le_gt_cases ((hi - lo) / step + 1) 0); [lia|].
    assert (K : Z.of_nat k <= (hi - lo) / step) by lia.
    assert (D : step * ((hi - lo) / step) <= hi - lo) by (apply Z.mul_div_le; auto). nia.
  - intros (k & K & -> & H). exists (Z.to_nat k). rewrite Z2Nat.id by auto. split; auto. apply in_seq.
    assert (D : k <= (hi - lo) / step) by (apply Z.div_le_lower_bound; lia). lia.
Qed.
Lemma in_upto1 : forall lo hi x, In x (upto lo hi 1) <-> lo <= x <= hi.
Proof.
  intros. rewrite in_upto by lia. split; [intros (k & ? & -> & ?); lia|]. intros. exists (x - lo). lia.
Qed.
Lemma in_upto2 : forall lo hi x, In x (upto lo hi 2) <-> lo <= x <= hi /\ Z.even (x - lo) = true.
Proof.
  intros. rewrite in_upto by lia. split.
  - intros (k & ? & -> & ?). split; [lia|]. replace (lo + 2 * k - lo) with (2 * k) by lia. rewrite Z.even_mul. reflexivity.
  - intros [B E]. apply Z.even_spec in E as [k E]. exists k. lia.
Qed.
Lemma upto_nodup : forall lo hi step, 0 < step -> NoDup (upto lo hi step).
Proof. intros. unfold upto. apply FinFun.Injective_map_NoDup; [|apply seq_NoDup]. intros a b E. nia. Qed.

Lemma in_ranges : forall s d n l j m, In (n, l, j, m) (ranges s d) <->
  In n (upto (Z.max 0 (n_ s - dn d)) (n_ s + dn d) 1) /\ In l (upto (Z.max 0 (l_ s - dl d)) (Z.min (n - 1) (l_ s + dl d)) 1) /\
  In j (upto (Z.max (Z.abs (2 * l - 1)) (jj s - 2 * dj d)) (Z.min (2 * l + 1) (jj s + 2 * dj d)) 2) /\
  In m (upto (Z.max (- j) (mm s - 2 * dm d)) (Z.min j (mm s + 2 * dm d)) 2).
Proof.
  intros. unfold ranges. rewrite in_flat_map. split.
  - intros (n' & Hn & H). apply in_flat_map in H as (l' & Hl & H). apply in_flat_map in H as (j' & Hj & H).
    apply in_map_iff in H as (m' & E & Hm). injection E as -> -> -> ->. auto.
  - intros (Hn & Hl & Hj & Hm). exists n. split; auto. apply in_flat_map. exists l. split; auto. apply in_flat_map. exists j. split; auto.
    apply in_map_iff. exists m. auto.
Qed.

Lemma nodup_flat_map : forall A B (f : A -> list B) l, NoDup l -> (forall a, In a l -> NoDup (f a)) ->
  (forall a b x, In a l -> In b l -> In x (f a) -> In x (f b) -> a = b) -> NoDup (flat_map f l).
Proof.
  intros A B f l N. induction N as [|a l Na N IH]; intros F D; [constructor|]. cbn [flat_map].
  assert (X : forall (u v : list B), NoDup u -> NoDup v -> (forall x, In x u -> ~ In x v) -> NoDup (u ++ v)).
  { intros u v Hu Hv Hd. induction Hu as [|x u Hx Hu IHu]; [exact Hv|]. cbn. constructor.
    - rewrite in_app_iff. intros [?|?]; [auto|]. apply (Hd x); [left; auto|auto].
    - apply IHu. intros y Hy. apply Hd. right. auto. }
  apply X.
  - apply F. left. auto.
  - apply IH. { intros. apply F. right. auto. } intros b c x Hb Hc. apply D; right; auto.
  - intros x Hx Hv. apply in_flat_map in Hv as (b & Hb & Hv). assert (a = b) by (apply (D a b x); [left; auto|right; auto|auto|auto]). subst. auto.
Qed.
Lemma ranges_nodup : forall s d, NoDup (ranges s d).
Proof.
  intros. unfold ranges. apply nodup_flat_map; [apply upto_nodup; lia| |].
  - intros n _. apply nodup_flat_map; [apply upto_nodup; lia| |].
    + intros l _. apply nodup_flat_map; [apply upto_nodup; lia| |].
      * intros j _. apply FinFun.Injective_map_NoDup; [|apply upto_nodup; lia]. intros a b E. congruence.
      * intros j j' x _ _ H H'. apply in_map_iff in H as (? & <- & _). apply in_map_iff in H' as (? & E & _). congruence.
    + intros l l' x _ _ H H'. apply in_flat_map in H as (? & _ & H). apply in_map_iff in H as (? & <- & _).
      apply in_flat_map in H' as (? & _ & H'). apply in_map_iff in H' as (? & E & _). congruence.
  - intros n n' x _ _ H H'. apply in_flat_map in H as (? & _ & H). apply in_flat_map in H as (? & _ & H). apply in_map_iff in H as (? & <- & _).
    apply in_flat_map in H' as (? & _ & H'). apply in_flat_map in H' as (? & _ & H'). apply in_map_iff in H' as (? & E & _). congruence.
Qed.

(** A state that exists (alkali atoms: j = l +- 1/2). *)
Definition physical (n l j m : Z) : Prop :=
  0 <= l < n /\ (j = 2 * l + 1 \/ j = 2 * l - 1) /\ 0 < j /\ Z.odd m = true /\ - j <= m <= j.
(** The range the user asks for; a negative delta is no restriction. *)
Definition inrange (d x x0 : Z) : Prop := 0 <= d -> Z.abs (x - x0) <= d.
Definition wanted (s : one) (d : deltas) (n l j m : Z) : Prop :=
  Z.abs (n - n_ s) <= dn d /\ inrange (dl d) l (l_ s) /\ (0 <= dj d -> Z.abs (j - jj s) <= 2 * dj d) /\
  (0 <= dm d -> Z.abs (m - mm s) <= 2 * dm d).

Lemma even_dec : forall x, exists k, x = 2 * k \/ x = 2 * k + 1.
Proof. intro x. exists (x / 2). pose proof (Z.div_mod x 2). pose proof (Z.mod_pos_bound x 2). lia. Qed.
Lemma odd_iff : forall x, Z.odd x = true <-> exists k, x = 2 * k + 1.
Proof. intro. rewrite Z.odd_spec. reflexivity. Qed.

(** quantum numbers of the loops, for any filled deltas *)
Lemma in_ranges_phys : forall s d n l j m, Z.odd (jj s) = true -> Z.odd (mm s) = true ->
  (In (n, l, j, m) (ranges s d) <-> physical n l j m /\ Z.abs (n - n_ s) <= dn d /\ Z.abs (l - l_ s) <= dl d /\
    Z.abs (j - jj s) <= 2 * dj d /\ Z.abs (m - mm s) <= 2 * dm d).
Proof.
  intros s d n l j m Oj Om. rewrite in_ranges, !in_upto1, !in_upto2. apply odd_iff in Oj as [aj Oj]. apply odd_iff in Om as [am Om].
  unfold physical. rewrite odd_iff, !Z.even_spec. split.
  - intros (Hn & Hl & (Bj & kj & Ej) & Bm & km & Em). destruct (Z.max_spec (Z.abs (2 * l - 1)) (jj s - 2 * dj d)) as [[? X]|[? X]], (Z.max_spec (- j) (mm s - 2 * dm d)) as [[? Y]|[? Y]];
      rewrite X in *; rewrite Y in *; (assert (exists k, m = 2 * k + 1) by (eexists (m / 2); Z.to_euclidean_division_equations; lia)); intuition lia.
  - intros ((Hl & Hj & Pj & (k & ->) & Bm) & Hn & Hdl & Hdj & Hdm). split; [lia|]. split; [lia|]. split.
    + split; [lia|]. destruct (Z.max_spec (Z.abs (2 * l - 1)) (jj s - 2 * dj d)) as [[? X]|[? X]]; rewrite X.
      * destruct Hj as [-> | ->]; [exists (l - aj + dj d)|exists (l - 1 - aj + dj d)]; lia.
      * destruct Hj as [-> | ->]; [exists ((2 * l + 1 - Z.abs (2 * l - 1)) / 2)|exists 0]; Z.to_euclidean_division_equations; lia.
    + split; [lia|]. destruct (Z.max_spec (- j) (mm s - 2 * dm d)) as [[? X]|[? X]]; rewrite X.
      * exists (k - am + dm d). lia.
      * destruct Hj as [-> | ->]; [exists (k + l + 1)|exists (k + l)]; lia.
Qed.

(** *** Indices *)
Lemma wrap_small : forall x, 0 <= x < 2 ^ 32 -> wrap x = x.
Proof. intros. apply Z.mod_small. auto. Qed.
Lemma number_spec : forall qs i, 0 <= i -> i + Z.of_nat (length qs) < 2 ^ 32 ->
  map quad (number i qs) = qs /\ map idx (number i qs) = map (fun k => i + Z.of_nat k) (seq 0 (length qs)).
Proof.
  induction qs as [|[[[n l] j] m] qs IH]; intros i P B; [split; reflexivity|]. cbn [length] in B. cbn [number map].
  rewrite wrap_small by lia. destruct (IH (i + 1)) as [Q I]; [lia|lia|]. cbn [length]. rewrite Q, I. split; [reflexivity|].
  cbn [seq map idx]. rewrite Z.add_0_r. f_equal. rewrite <- seq_shift, map_map. apply map_ext. intro. lia.
Qed.

(** *** The set *)
Lemma oeqb_iff : forall a b, oeqb a b = true <-> quad a = quad b.
Proof.
  intros. unfold oeqb, quad. rewrite !andb_true_iff, !Z.eqb_eq. split; [intros [[[-> ->] ->] ->]; reflexivity|]. intro E. injection E. auto.
Qed.
Lemma insert_all_spec : forall qs i set r, 0 <= i -> i + Z.of_nat (length qs) < 2 ^ 32 -> i = Z.of_nat (length set) ->
  map idx set = map Z.of_nat (seq 0 (length set)) -> NoDup (map quad set) -> insert_all i set qs = r ->
  fst r = Z.of_nat (length (snd r)) /\ map idx (snd r) = map Z.of_nat (seq 0 (length (snd r))) /\ NoDup (map quad (snd r)) /\
  (forall q, In q (map quad (snd r)) <-> In q (map quad set) \/ In q qs).
Proof.
  induction qs as [|[[[n l] j] m] qs IH]; intros i set r P B L I N E; cbn [insert_all] in E.
  - subst r. cbn. intuition.
  - cbn [length] in B. destruct (existsb _ set) eqn:X.
    + apply existsb_exists in X as (s & Hs & X). apply oeqb_iff in X. cbn in X.
      destruct (IH i set r) as (A1 & A2 & A3 & A4); auto; [lia|]. repeat (split; [assumption|]). intro q. rewrite A4. cbn [In].
      split; [tauto|]. intros [?|[<-|?]]; auto. left. unfold quad at 1 in X. cbn in X. rewrite X. apply in_map. auto.
    + rewrite wrap_small in E by lia.
      destruct (IH (i + 1) (set ++ [One i n l j m]) r) as (A1 & A2 & A3 & A4); auto; [lia|lia| | | |].
      * rewrite app_length. cbn. lia.
      * rewrite map_app, app_length, seq_app, map_app, I. cbn. subst i. reflexivity.
      * rewrite map_app. cbn [map].
        assert (Y : ~ In (quad (One i n l j m)) (map quad set)).
        { intro H. apply in_map_iff in H as (s & Q & Hs). assert (existsb (oeqb (One i n l j m)) set = true); [|congruence].
          apply existsb_exists. exists s. split; auto. apply oeqb_iff. auto. }
        apply (Permutation_NoDup (l := quad (One i n l j m) :: map quad set)); [|constructor; auto].
        apply Permutation_cons_append.
      * repeat (split; [assumption|]). intro q. rewrite A4, map_app, in_app_iff. cbn [map In]. unfold quad at 2. cbn. tauto.
Qed.

(** *** The ordered set *)
Lemma oltb_iff : forall a b, oltb a b = true <-> n_ a < n_ b \/ n_ a = n_ b /\ (l_ a < l_ b \/ l_ a = l_ b /\ (jj a < jj b \/ jj a = jj b /\ mm a < mm b)).
Proof. intros. unfold oltb. rewrite !orb_true_iff, !andb_true_iff, !orb_true_iff, !andb_true_iff, !orb_true_iff, !andb_true_iff, !Z.ltb_lt, !Z.eqb_eq. tauto. Qed.
Definition olt (a b : one) : Prop := oltb a b = true.
Lemma olt_trans : forall a b c, olt a b -> olt b c -> olt a c.
Proof. unfold olt. intros a b c. rewrite !oltb_iff. lia. Qed.
Lemma olt_total : forall a b, oltb a b = false -> oltb b a = false -> quad a = quad b.
Proof.
  intros a b H H'. apply not_true_iff_false in H. apply not_true_iff_false in H'. rewrite oltb_iff in *. unfold quad.
  assert (n_ a = n_ b) by lia. assert (l_ a = l_ b) by lia. assert (jj a = jj b) by lia. assert (mm a = mm b) by lia. congruence.
Qed.
Lemma oinsert_hd : forall s l x, HdRel olt x l -> olt x s -> HdRel olt x (oinsert s l).
Proof. intros s l x H X. destruct l as [|y l]; cbn; [constructor; auto|]. destruct (oltb s y); [constructor; auto|]. destruct (oltb y s); inversion H; constructor; auto. Qed.
Lemma oinsert_sorted : forall s l, Sorted olt l -> Sorted olt (oinsert s l).
Proof.
  intros s l H. induction H as [|x l H IH Hx]; cbn; [repeat constructor|]. destruct (oltb s x) eqn:A.
  - constructor; [constructor; auto|]. constructor. exact A.
  - destruct (oltb x s) eqn:B; [|constructor; auto]. constructor; auto. apply oinsert_hd; auto.
Qed.
Lemma oinsert_perm : forall s l, ~ In (quad s) (map quad l) -> Permutation (s :: l) (oinsert s l).
Proof.
  intros s l. induction l as [|x l IH]; intro N; cbn; [reflexivity|]. destruct (oltb s x) eqn:A; [reflexivity|]. destruct (oltb x s) eqn:B.
  - rewrite perm_swap. constructor. apply IH. intro. apply N. right. auto.
  - exfalso. apply N. left. symmetry. apply olt_total; auto.
Qed.
Lemma osort_spec : forall l acc, Sorted olt acc -> NoDup (map quad (acc ++ l)) ->
  Sorted olt (fold_left (fun a s => oinsert s a) l acc) /\ Permutation (acc ++ l) (fold_left (fun a s => oinsert s a) l acc).
Proof.
  induction l as [|s l IH]; intros acc S N; cbn [fold_left]. { rewrite app_nil_r. auto. }
  assert (P : Permutation (s :: acc) (oinsert s acc)).
  { apply oinsert_perm. rewrite map_app in N. cbn [map] in N. apply NoDup_remove_2 in N. rewrite in_app_iff in N. tauto. }
  assert (P2 : Permutation (acc ++ s :: l) (oinsert s acc ++ l)).
  { rewrite <- P. cbn. symmetry. apply Permutation_middle. }
  destruct (IH (oinsert s acc)) as [A B].
  - apply oinsert_sorted. auto.
  - apply (Permutation_NoDup (Permutation_map quad P2)). auto.
  - split; auto. rewrite P2. auto.
Qed.

(** *** Removal *)
Definition marked (mask : list bool) (i : Z) : bool := nth (Z.to_nat i) mask false.
Lemma mask_ok : forall mask i, 0 <= i < Z.of_nat (length mask) -> mask_at mask i = Ok (marked mask i).
Proof.
  intros mask i H. unfold mask_at, marked. destruct (Z.ltb_spec i 0); [lia|]. destruct (nth_error mask (Z.to_nat i)) eqn:E.
  - rewrite (nth_error_nth _ _ false E). reflexivity.
  - apply nth_error_None in E. lia.
Qed.
Lemma remove1_spec : forall mask l i, 0 <= i -> i + Z.of_nat (length l) < 2 ^ 32 -> (forall s, In s l -> 0 <= idx s < Z.of_nat (length mask)) ->
  exists r, remove1_loop mask i l = Ok (r, i + Z.of_nat (length r)) /\
    map quad r = map quad (filter (fun s => marked mask (idx s)) l) /\ map idx r = map (fun k => i + Z.of_nat k) (seq 0 (length r)).
Proof.
  intros mask l. induction l as [|s l IH]; intros i P B M.
  - exists []. cbn. rewrite Z.add_0_r. auto.
  - cbn [length] in B. cbn [remove1_loop filter]. rewrite mask_ok by (apply M; left; auto). cbn [bind]. destruct (marked mask (idx s)).
    + rewrite wrap_small by lia. destruct (IH (i + 1)) as (r & E & Q & I); [lia|lia|intros; apply M; right; auto|].
      rewrite E. cbn [bind fst snd]. exists (set_idx s i :: r). cbn [map length]. rewrite Q, I. split; [|split].
      * do 2 f_equal. lia.
      * reflexivity.
      * cbn [seq map idx set_idx]. rewrite Z.add_0_r. f_equal. rewrite <- seq_shift, map_map. apply map_ext. intro. lia.
    + apply IH; [lia|lia|]. intros. apply M. right. auto.
Qed.
Definition pair_of (t : two) := (quad (fst_ t), quad (snd_ t)).
Lemma remove2_spec : forall mask l i, 0 <= i -> i + Z.of_nat (length l) < 2 ^ 32 -> (forall s, In s l -> 0 <= idx2 s < Z.of_nat (length mask)) ->
  exists r, remove2_loop mask i l = Ok (r, i + Z.of_nat (length r)) /\
    map pair_of r = map pair_of (filter (fun s => marked mask (idx2 s)) l) /\ map idx2 r = map (fun k => i + Z.of_nat k) (seq 0 (length r)).
Proof.
  intros mask l. induction l as [|s l IH]; intros i P B M.
  - exists []. cbn. rewrite Z.add_0_r. auto.
  - cbn [length] in B. cbn [remove2_loop filter]. rewrite mask_ok by (apply M; left; auto). cbn [bind]. destruct (marked mask (idx2 s)).
    + rewrite wrap_small by lia. destruct (IH (i + 1)) as (r & E & Q & I); [lia|lia|intros; apply M; right; auto|].
      rewrite E. cbn [bind fst snd]. exists (set_idx2 s i :: r). cbn [map length]. rewrite Q, I. split; [|split].
      * do 2 f_equal. lia.
      * reflexivity.
      * cbn [seq map idx2 set_idx2]. rewrite Z.add_0_r. f_equal. rewrite <- seq_shift, map_map. apply map_ext. intro. lia.
    + apply IH; [lia|lia|]. intros. apply M. right. auto.
Qed.
Lemma keep_spec : forall mask l, (forall s, In s l -> 0 <= idx2 s < Z.of_nat (length mask)) ->
  keep_loop mask l = Ok (filter (fun s => marked mask (idx2 s)) l).
Proof.
  intros mask l. induction l as [|s l IH]; intro M; [reflexivity|]. cbn [keep_loop filter]. rewrite mask_ok by (apply M; left; auto). cbn [bind].
  rewrite IH by (intros; apply M; right; auto). reflexivity.
Qed.
Lemma number2_spec : forall ps i, 0 <= i -> i + Z.of_nat (length ps) < 2 ^ 32 ->
  map (fun t => (fst_ t, snd_ t)) (number2 i ps) = ps /\ map idx2 (number2 i ps) = map (fun k => i + Z.of_nat k) (seq 0 (length ps)).
Proof.
  induction ps as [|[a b] ps IH]; intros i P B; [split; reflexivity|]. cbn [length] in B. cbn [number2 map].
  rewrite wrap_small by lia. destruct (IH (i + 1)) as [Q I]; [lia|lia|]. cbn [length]. rewrite Q, I. split; [reflexivity|].
  cbn [seq map idx2]. rewrite Z.add_0_r. f_equal. rewrite <- seq_shift, map_map. apply map_ext. intro. lia.
Qed.
(** the first element equal to the start state *)
Lemma teqb_iff : forall a b, teqb a b = true <-> pair_of a = pair_of b.
Proof. intros. unfold teqb, pair_of. rewrite andb_true_iff, !oeqb_iff. split; [intros [-> ->]; reflexivity|]. intro E. injection E. unfold quad. intros. subst. split; congruence. Qed.
Lemma scan_found : forall l init, scan_initial init true l = init.
Proof. induction l; intros; cbn; auto. Qed.
Lemma scan_spec : forall l init, pair_of (scan_initial init false l) = pair_of init /\
  match find (fun t => teqb t init) l with Some t => idx2 (scan_initial init false l) = idx2 t | None => scan_initial init false l = init end.
Proof.
  induction l as [|t l IH]; intros init; cbn [scan_initial find]; [auto|]. destruct (teqb t init) eqn:E; cbn [negb andb].
  - rewrite scan_found. auto.
  - apply IH.
Qed.
