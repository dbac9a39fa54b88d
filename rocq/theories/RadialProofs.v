(** Proofs about the radial equation (RadialModel). *)
From Coq Require Import Reals Lra Lia ZArith Psatz List.
From Coquelicot Require Import Coquelicot.
From Verif Require Import RadialModel.
Set Implicit Arguments.
Local Open Scope R_scope.

(** [F] is the second derivative of [f] at all positive places. *)
Definition second_derivative (f F : R -> R) : Prop := exists f1 : R -> R, forall x, 0 < x -> is_derive f x (f1 x) /\ is_derive f1 x (F x).
(** The wavefunction of the scaled radius: u(x^2) / sqrt x *)
Definition scaled (u : R -> R) (x : R) : R := u (x * x) / sqrt x.

Lemma scaled_second : forall u u2, second_derivative u u2 ->
  second_derivative (scaled u) (fun x => 4 * (x * sqrt x) * u2 (x * x) + 3 / 4 * (u (x * x) / (x * x * sqrt x))).
Proof.
  intros u u2 (u1 & H). exists (fun x => 2 * sqrt x * u1 (x * x) - / 2 * (u (x * x) / (x * sqrt x))). intros x Hx.
  assert (S : 0 < sqrt x) by (apply sqrt_lt_R0; auto). assert (Q : sqrt x * sqrt x = x) by (apply sqrt_def; lra).
  assert (X2 : 0 < x * x) by nra. destruct (H _ X2) as [H0 H1].
  assert (D0 : is_derive (fun t => u (t * t)) x (2 * x * u1 (x * x))).
  { evar_last. apply is_derive_comp; [exact H0|]. evar_last. apply (is_derive_mult (fun t => t) (fun t => t) x); [apply is_derive_id|apply is_derive_id|intros; apply Rmult_comm]. reflexivity.
    unfold scal, plus, mult; cbn. unfold mult, one; cbn. ring. }
  assert (D1 : is_derive (fun t => u1 (t * t)) x (2 * x * u2 (x * x))).
  { evar_last. apply is_derive_comp; [exact H1|]. evar_last. apply (is_derive_mult (fun t => t) (fun t => t) x); [apply is_derive_id|apply is_derive_id|intros; apply Rmult_comm]. reflexivity.
    unfold scal, plus, mult; cbn. unfold mult, one; cbn. ring. }
  assert (E0 : Derive (fun t => u (t * t)) x = 2 * x * u1 (x * x)) by (apply is_derive_unique; auto).
  assert (E1 : Derive (fun t => u1 (t * t)) x = 2 * x * u2 (x * x)) by (apply is_derive_unique; auto).
  set (U := fun t => u (t * t)) in *. set (U1 := fun t => u1 (t * t)) in *.
  assert (X0 : ex_derive U x) by (eexists; eauto). assert (X1 : ex_derive U1 x) by (eexists; eauto).
  change (u (x * x)) with (U x). change (u1 (x * x)) with (U1 x) in *. split.
  - change (is_derive (fun t => U t / sqrt t) x (2 * sqrt x * U1 x - / 2 * (U x / (x * sqrt x)))). auto_derive; [repeat split; auto; lra|].
    change (Derive (fun x0 => U x0) x) with (Derive U x). rewrite E0. clear - S Q Hx. revert S Q. generalize (sqrt x) as r. generalize (U x) (U1 x). intros a b r S Q.
    subst x. field. lra.
  - change (is_derive (fun t => 2 * sqrt t * U1 t - / 2 * (U t / (t * sqrt t))) x (4 * (x * sqrt x) * u2 (x * x) + 3 / 4 * (U x / (x * x * sqrt x)))).
    auto_derive; [repeat split; auto; nra|].
    change (Derive (fun x0 => U x0) x) with (Derive U x). change (Derive (fun x0 => U1 x0) x) with (Derive U1 x). rewrite E0, E1. clear - S Q Hx. revert S Q. generalize (sqrt x) as r. generalize (U x) (U1 x) (u2 (x * x)). intros a b c r S Q.
    subst x. field. lra.
Qed.

Lemma weight : forall u v x (k : nat), 0 < x -> scaled u x * scaled v x * x ^ numerov_kernel k = u (x * x) * v (x * x) * (x * x) ^ k * x.
Proof.
  intros u v x k Hx. unfold scaled, numerov_kernel. assert (S : 0 < sqrt x) by (apply sqrt_lt_R0; auto). assert (Q : sqrt x * sqrt x = x) by (apply sqrt_def; lra).
  rewrite pow_add, pow_mult. replace (x ^ 2) with (x * x) by ring. replace (u (x * x) / sqrt x * (v (x * x) / sqrt x) * ((x * x) ^ k * (x * x))) with
    (u (x * x) * v (x * x) * (x * x) ^ k * x * (x / (sqrt x * sqrt x))) by (field; lra). rewrite Q. field. lra.
Qed.
Lemma weight_w : forall u v x (k : nat), u (x * x) * v (x * x) * x ^ whittaker_kernel k = u (x * x) * v (x * x) * (x * x) ^ k * x.
Proof. intros. unfold whittaker_kernel. rewrite pow_add, pow_mult. replace (x ^ 2) with (x * x) by ring. ring. Qed.
Lemma substitution : forall (f : R -> R) a b, 0 < a <= b -> (forall r, a * a <= r <= b * b -> continuous f r) ->
  RInt f (a * a) (b * b) = RInt (fun x => 2 * (f (x * x) * x)) a b.
Proof.
  intros f a b H C. rewrite <- (@RInt_comp R_CompleteNormedModule f (fun x => x * x) (fun x => 2 * x) a b).
  - apply RInt_ext. intros x _. unfold scal; cbn. unfold mult; cbn. ring.
  - rewrite Rmin_left, Rmax_right by lra. intros x Hx. apply C. nra.
  - intros x _. split; [auto_derive; auto; ring|]. apply (continuous_scal_r 2 (fun x : R => x)). apply continuous_id.
Qed.
