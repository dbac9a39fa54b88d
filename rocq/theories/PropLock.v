(** C112: access to a database that other processes use at the same time.

    [steps free threshold late k (Attempt 0 t0) c]: a call that begins at time t0 is in state c after k steps.  [free] says when the lock is
    free; nothing is assumed about it unless said.  Times in microseconds. *)
From Coq Require Import ZArith Lia Bool.
From Verif Require Import LockModel.
Open Scope Z_scope.

Section L.
Variable free : Z -> bool.
Variables threshold late : Z.
Hypothesis late_ok : 0 <= late.
Hypothesis thr_ok : 0 <= threshold.
Notation run := (steps free threshold late).
(** a call that is over *)
Definition over (c : call_state) : Prop := match c with Attempt _ _ => False | _ => True end.
Definition time_of (c : call_state) : Z := match c with Attempt _ t => t | Done t => t | Error t => t end.

Lemma reach : forall k t0 c, run k (Attempt 0 t0) c ->
  match c with
  | Attempt n t => n = Z.of_nat k /\ n <= threshold /\ t0 + sleep_lo * n <= t <= t0 + (sleep_hi + late) * n /\
      (forall s, n > 0 -> (forall u, s <= u -> free u = true) -> t < s + (sleep_hi + late))
  | Done t => free t = true /\ t0 <= t /\ t <= t0 + (sleep_hi + late) * threshold /\
      (forall s, (forall u, s <= u -> free u = true) -> t <= Z.max t0 (s + (sleep_hi + late)))
  | Error t => free t = false /\ t0 + sleep_lo * threshold <= t <= t0 + (sleep_hi + late) * threshold
  end.
Proof.
  unfold sleep_lo, sleep_hi. intros k t0 c H. remember (Attempt 0 t0) as a eqn:E. revert E. induction H as [c|k a b c H IH S]; intros E.
  - subst c. cbv beta iota. repeat split; try lia.
  - specialize (IH E). subst a. inversion S; subst; cbv beta iota in *.
    + destruct IH as (Hn & Hk & [L U] & W). split; [assumption|]. split; [lia|]. split; [nia|].
      intros s Hs. destruct (Z.eq_dec n 0) as [->|]; [nia|]. assert (Y : t < s + (20000 + late)) by (apply W; auto; lia). lia.
    + destruct IH as (Hn & Hk & [L U] & W). unfold busy_handler in *. apply Z.ltb_lt in H1. unfold sleep_lo, sleep_hi in *.
      split; [lia|]. split; [lia|]. split; [lia|].
      intros s _ Hs. destruct (Z.lt_ge_cases t s); [lia|]. rewrite (Hs t) in H0 by lia. discriminate.
    + destruct IH as (Hn & Hk & [L U] & W). unfold busy_handler in *. apply Z.ltb_ge in H1. split; auto. replace threshold with n by lia. lia.
Qed.

(** A call never hangs: it makes at most threshold + 1 attempts, whatever the other processes do, ... *)
Theorem C112_never_hangs : forall k t0 c, run k (Attempt 0 t0) c -> Z.of_nat k <= threshold + 1 /\
  time_of c <= t0 + (sleep_hi + late) * threshold.
Proof.
  intros k t0 c H. inversion H; subst.
  - cbv beta iota delta [time_of]. split; [lia|]. assert (0 <= (sleep_hi + late) * threshold) by (unfold sleep_hi; nia). lia.
  - pose proof (reach _ _ _ H) as R. destruct b as [n t| |]; [|inversion H1|inversion H1].
    pose proof (reach _ _ _ H0) as (Q & B & _). split; [lia|].
    destruct c; cbv beta iota delta [time_of] in *; unfold sleep_lo, sleep_hi in *; try lia. destruct R as (R1 & R2 & R3 & _). nia.
Qed.
(** ... and it is always either over or can go on. *)
Theorem C112_progress : forall n t, exists c, step free threshold late (Attempt n t) c.
Proof.
  intros n t. destruct (free t) eqn:F; [eexists; apply s_done; auto|].
  destruct (busy_handler threshold n) eqn:B; [|eexists; apply s_error; auto].
  exists (Attempt (n + 1) (t + sleep_lo)). constructor; auto. unfold sleep_lo, sleep_hi. lia.
Qed.
(** It succeeds only when the lock is free, and throws only after it found the lock taken for threshold sleeps of at least 2 ms. *)
Theorem C112_outcome : forall k t0 c, run k (Attempt 0 t0) c ->
  (forall t, c = Done t -> free t = true) /\
  (forall t, c = Error t -> free t = false /\ t0 + sleep_lo * threshold <= t).
Proof. intros k t0 c H. pose proof (reach _ _ _ H) as R. split; intros t ->; cbn in R; tauto. Qed.
(** If the other processes have released the lock for good at time s, within 2 ms * threshold, the call succeeds, at most one sleep later. *)
Theorem C112_released : forall s t0, (forall u, s <= u -> free u = true) -> s <= t0 + sleep_lo * threshold ->
  forall k c, run k (Attempt 0 t0) c -> over c -> exists t, c = Done t /\ t <= Z.max t0 (s + (sleep_hi + late)).
Proof.
  intros s t0 F B k c H O. pose proof (reach _ _ _ H) as R. destruct c as [n t|t|t]; [destruct O| |].
  - exists t. split; auto. apply R, F.
  - destruct R as (R & L). rewrite F in R by lia. discriminate.
Qed.
(** If the lock is never released, the user gets an exception, not a wrong result. *)
Theorem C112_held : forall t0, (forall u, t0 <= u -> free u = false) ->
  forall k c, run k (Attempt 0 t0) c -> over c -> exists t, c = Error t /\
    t0 + sleep_lo * threshold <= t <= t0 + (sleep_hi + late) * threshold.
Proof.
  intros t0 F k c H O. pose proof (reach _ _ _ H) as R. destruct c as [n t|t|t]; [destruct O| |].
  - destruct R as (R & L & _). rewrite F in R by lia. discriminate.
  - exists t. split; auto. apply R.
Qed.
End L.

(** With the threshold of the library: a lock held for less than 200 s is waited for; after at most 2000 s there is a result or an exception. *)
Corollary C112_200_seconds : forall free s t0, (forall u, s <= u -> free u = true) -> s <= t0 + 200 * 1000000 ->
  forall k c, steps free m_threshold 0 k (Attempt 0 t0) c -> over c -> exists t, c = Done t /\ t <= Z.max t0 (s + 20000).
Proof.
  intros free s t0 F B k c H O. assert (L : 0 <= 0) by lia. assert (T : 0 <= m_threshold) by (unfold m_threshold; lia).
  assert (X : s <= t0 + sleep_lo * m_threshold) by (unfold sleep_lo, m_threshold; lia).
  exact (C112_released free m_threshold 0 L T s t0 F X k c H O).
Qed.
Corollary C112_2000_seconds : forall free t0 k c, steps free m_threshold 0 k (Attempt 0 t0) c -> time_of c <= t0 + 2000 * 1000000.
Proof.
  intros free t0 k c H. assert (L : 0 <= 0) by lia. assert (T : 0 <= m_threshold) by (unfold m_threshold; lia).
  pose proof (C112_never_hangs free m_threshold 0 L T k t0 c H) as (_ & Q). unfold sleep_hi, m_threshold in Q. lia.
Qed.

(** Waiting is not fair: the lock may be free most of the time - here in 1999 of 2000 microseconds - and the call throws nevertheless,
    because there is no queue and the handler happens to look when other processes hold the lock. *)
Theorem C112_starvation_refuted : exists (free : Z -> bool),
  (forall t, free t = false -> forall d, 0 < d < 2000 -> free (t + d) = true) /\
  exists k t, steps free m_threshold 0 k (Attempt 0 0) (Error t).
Proof.
  exists (fun t => negb (t mod 2000 =? 0)). split.
  - intros t H d D. apply negb_false_iff, Z.eqb_eq in H. apply negb_true_iff, Z.eqb_neq. intros Q.
    rewrite Z.add_mod, H, Z.add_0_l, Z.mod_mod in Q by lia. rewrite Z.mod_small in Q by lia. lia.
  - assert (F : forall n, negb ((2000 * n) mod 2000 =? 0) = false).
    { intros n. rewrite Z.mul_comm, Z.mod_mul by lia. reflexivity. }
    assert (H : forall k, Z.of_nat k <= m_threshold ->
      steps (fun t => negb (t mod 2000 =? 0)) m_threshold 0 k (Attempt 0 0) (Attempt (Z.of_nat k) (2000 * Z.of_nat k))).
    { induction k as [|k IH]; intros B; [constructor|]. econstructor; [apply IH; lia|].
      replace (Z.of_nat (S k)) with (Z.of_nat k + 1) by lia. replace (2000 * (Z.of_nat k + 1)) with (2000 * Z.of_nat k + 2000) by lia.
      apply s_sleep; [apply F| |unfold sleep_lo, sleep_hi; lia]. unfold busy_handler. apply Z.ltb_lt. lia. }
    assert (N : Z.of_nat (Z.to_nat m_threshold) = m_threshold) by (apply Z2Nat.id; unfold m_threshold; lia).
    exists (S (Z.to_nat m_threshold)), (2000 * m_threshold). econstructor; [apply H; lia|]. rewrite N. apply s_error; [apply F|].
    unfold busy_handler. apply Z.ltb_irrefl.
Qed.

(** Non-vacuity: a lock released after 5 ms; the call looks at 0, at 3 ms and at 6 ms. *)
Example C112_example : steps (fun t => 5000 <=? t) m_threshold 0 3 (Attempt 0 0) (Done 6000).
Proof.
  econstructor; [|apply s_done; reflexivity]. econstructor; [|apply (s_sleep _ _ _ 1 3000 3000); unfold sleep_lo, sleep_hi; auto; lia].
  econstructor; [constructor|apply (s_sleep _ _ _ 0 0 3000); unfold sleep_lo, sleep_hi; auto; lia].
Qed.
Print Assumptions C112_never_hangs. Print Assumptions C112_progress. Print Assumptions C112_outcome. Print Assumptions C112_released.
Print Assumptions C112_held. Print Assumptions C112_200_seconds. Print Assumptions C112_2000_seconds. Print Assumptions C112_starvation_refuted.
