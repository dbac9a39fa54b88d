(** The matrix elements of C81 have the properties that C79, C80 and C96 require. *)
From Coq Require Import ZArith Lia Bool List Reals Lra.
From Flocq Require Import Core.
Import ListNotations.
From Verif Require Import Base Matrix FieldModel BasisnamesModel CombineModel CombineSpec InteractSpec OneFieldSpec MatCacheModel MatCacheSpec Racah ElementProofs SymmetrySpec.
Set Implicit Arguments.
Local Open Scope R_scope.

Section G.
Variable g : R -> R.
Hypothesis G : forall x, g (- x) = - g x.
Variable Rad : Z -> Z * Z * Z -> Z * Z * Z -> R.
Hypothesis RS : forall k a c, Rad k a c = Rad k c a.
Definition elg (r k : nat) (s t : one) : R := g (f_radial Rad r s t) * g (f_angular W3j k s t) * g (f_orbital W6j k s t) * g (f_reduced W3j k s t).
Lemma rad_swap : forall k s t, f_radial Rad k t s = f_radial Rad k s t. Proof. intros. apply RS. Qed.
Lemma elg_swap : forall r k s t, doublet s -> doublet t -> elg r k t s = (if Z.even ((mm s - mm t) / 2) then 1 else -1) * elg r k s t.
Proof.
  intros r k s t Ds Dt. unfold elg. rewrite rad_swap, (ang_swap k Ds Dt), (orb_swap k s t), (red_swap k s t). repeat rewrite (fun e x => @odd_sgn g e x G). rewrite <- (total_sign Ds Dt).
  replace (l_ s + l_ t + (1 + jj s) / 2 + (1 + jj t) / 2)%Z with (l_ s + l_ t + ((1 + jj s) / 2 + (1 + jj t) / 2))%Z by lia. rewrite (rsgn_add (l_ s + l_ t)).
  pose proof (rsgn_sq (l_ s + l_ t)) as Q. set (a := rsgn (l_ s + l_ t)) in *. set (b := rsgn ((1 + jj s) / 2 + (1 + jj t) / 2)). set (c := rsgn _).
  transitivity ((a * a) * (c * b * (g (f_radial Rad r s t) * g (f_angular W3j k s t) * g (f_orbital W6j k s t) * g (f_reduced W3j k s t)))); [ring|]. rewrite Q. ring.
Qed.
Lemma elg_zero : forall r k s t, ~ allowed s t k -> elg r k s t = 0.
Proof. intros r k s t H. unfold elg. destruct (not_allowed H) as [E|[E|E]]; rewrite E, (odd_0 _ G); ring. Qed.
Lemma elg_mirror : forall r k s t s' t', doublet s -> doublet t -> opposite s s' = true -> opposite t t' = true ->
  elg r k s' t' = (if Z.even ((jj s + jj t) / 2 + Z.of_nat k) then -1 else 1) * elg r k s t.
Proof.
  intros r k s t s' t' Ds Dt Os Ot. unfold opposite in Os, Ot. rewrite !andb_true_iff, !Z.eqb_eq in Os, Ot. destruct Os as (((N & L) & J) & M), Ot as (((N' & L') & J') & M'). unfold elg.
  rewrite (@ang_mirror k s t s' t' Ds Dt) by lia. unfold f_radial, nlj. rewrite <- N, <- L, <- J, <- N', <- L', <- J'. unfold f_orbital, f_reduced. rewrite <- L, <- J, <- L', <- J'.
  replace (- rsgn ((jj s + jj t) / 2 + Z.of_nat k) * f_angular W3j k s t) with (rsgn ((jj s + jj t) / 2 + Z.of_nat k) * - f_angular W3j k s t) by ring. rewrite (fun e x => @odd_sgn g e x G), G.
  unfold rsgn. destruct (Z.even _); ring.
Qed.
(** the magnetic moment; it does not change l *)
Variables cMag gL gS : R.
Definition mag (s t : one) : R := if (l_ s =? l_ t)%Z then
  cMag * g (f_radial Rad 0 s t) * g (f_angular W3j 1 s t) * (gL * g (f_orbital W6j 1 s t) * sqrt (IZR (l_ s * (l_ s + 1) * (2 * l_ s + 1))) + gS * g (f_spin W6j 1 s t) * sqrt (3 / 2)) else 0.
Lemma mag_swap : forall s t, doublet s -> doublet t -> mag t s = (if Z.even ((mm s - mm t) / 2) then 1 else -1) * mag s t.
Proof.
  intros s t Ds Dt. unfold mag. rewrite (Z.eqb_sym (l_ t)). destruct (Z.eqb_spec (l_ s) (l_ t)) as [L|L]; [|ring]. rewrite <- (total_sign Ds Dt).
  rewrite rad_swap, (ang_swap 1 Ds Dt), (orb_swap 1 s t), (@spin_swap 1 s t L). repeat rewrite (fun e x => @odd_sgn g e x G).
  replace (l_ s + l_ t + (1 + jj s) / 2 + (1 + jj t) / 2)%Z with (l_ s + l_ t + ((1 + jj s) / 2 + (1 + jj t) / 2))%Z by lia. rewrite (rsgn_add (l_ s + l_ t)).
  rewrite (@rsgn_even (l_ s + l_ t)) by (rewrite L; replace (l_ t + l_ t)%Z with (2 * l_ t)%Z by lia; rewrite Z.even_mul; reflexivity). rewrite L. ring.
Qed.
Lemma mag_zero : forall s t, doublet s -> doublet t -> ~ moment_allowed s t -> mag s t = 0.
Proof.
  intros s t (_ & J & _ & _) (_ & J' & _ & _) H. unfold mag. destruct (Z.eqb_spec (l_ s) (l_ t)) as [L|L]; [|reflexivity]. rewrite (@ang_far 1 s t), (odd_0 _ G); [ring|]. intros X. apply H. unfold moment_allowed. lia.
Qed.
End G.
Lemma opp_id : forall x, id (- x) = - id x. Proof. reflexivity. Qed.

Section Theorems.
Variable Rad : Z -> Z * Z * Z -> Z * Z * Z -> R.
Variables cMag gL gS cDia : R.
Variable b : names_one.
Let ex := exact W3j W6j Rad cMag gL gS cDia.
Let rd := MatCacheSpec.rounded W3j W6j Rad cMag gL gS cDia.
(** The multipole elements of C81 between the states of a spin 1/2 atom, exact or with every factor rounded to six digits, obey the
    selection rules, are Hermitian and behave as Wigner-Eckart demands under m -> -m, if the radial elements are symmetric. *)
Theorem C79_elements : (forall k a c, Rad k a c = Rad k c a) -> (forall s, In s (names1 b) -> doublet s) ->
  (elements_ok b (fun s t k => ex (QMultipole k) s t) /\ elements_ok b (fun s t k => rd (QMultipole k) s t)) /\
  (mirrored b (fun s t k => ex (QMultipole k) s t) /\ mirrored b (fun s t k => rd (QMultipole k) s t)).
Proof.
  intros RS D.
  assert (Z1 : forall s t k, ex (QMultipole k) s t = elg id Rad k k s t) by reflexivity. assert (Z2 : forall s t k, rd (QMultipole k) s t = elg fmt Rad k k s t) by reflexivity.
  split; split.
  - split; intros s t k Is It H; rewrite !Z1; [apply elg_zero; [exact opp_id|exact H]|apply elg_swap; auto using opp_id].
  - split; intros s t k Is It H; rewrite !Z2; [apply elg_zero; [exact fmt_opp|exact H]|apply elg_swap; auto using fmt_opp].
  - intros s t s' t' k Is It _ _ Os Ot. rewrite !Z1. apply elg_mirror; auto using opp_id.
  - intros s t s' t' k Is It _ _ Os Ot. rewrite !Z2. apply elg_mirror; auto using fmt_opp.
Qed.
(** The same for the elements of the fields; the magnetic moment does not change l (it is not asked for otherwise). *)
Definition same_l (f : one -> one -> R) (s t : one) : R := if (l_ s =? l_ t)%Z then f s t else 0.
Theorem C80_elements : (forall k a c, Rad k a c = Rad k c a) -> (forall s, In s (names1 b) -> doublet s) ->
  atom_ok b (ex (QMultipole 1)) (same_l (ex QMagnetic)) (fun k => ex (QDiamagnetism k)) /\
  atom_ok b (rd (QMultipole 1)) (same_l (rd QMagnetic)) (fun k => rd (QDiamagnetism k)).
Proof.
  intros RS D.
  assert (X1 : forall s t, ex (QMultipole 1) s t = elg id Rad 1 1 s t) by reflexivity. assert (Y1 : forall s t, rd (QMultipole 1) s t = elg fmt Rad 1 1 s t) by reflexivity.
  assert (X2 : forall s t, same_l (ex QMagnetic) s t = mag id Rad cMag gL gS s t) by reflexivity. assert (Y2 : forall s t, same_l (rd QMagnetic) s t = mag fmt Rad cMag gL gS s t) by reflexivity.
  assert (X3 : forall k s t, ex (QDiamagnetism k) s t = cDia * elg id Rad 2 k s t) by (intros; unfold ex, exact, elg, id; ring).
  assert (Y3 : forall k s t, rd (QDiamagnetism k) s t = cDia * elg fmt Rad 2 k s t) by (intros; unfold rd, MatCacheSpec.rounded, elg; ring).
  split; (split; [intros s t Is It; split; [|split]|split; [|split]]).
  - rewrite X1. apply elg_zero. exact opp_id.
  - rewrite X2. apply mag_zero; auto using opp_id.
  - intros k H. rewrite X3, (elg_zero _ opp_id) by exact H. ring.
  - intros s t Is It _. rewrite !X1. apply elg_swap; auto using opp_id.
  - intros s t Is It _. rewrite !X2. apply mag_swap; auto using opp_id.
  - intros k s t Is It _. rewrite !X3, (@elg_swap id opp_id Rad RS 2 k s t) by auto. ring.
  - rewrite Y1. apply elg_zero. exact fmt_opp.
  - rewrite Y2. apply mag_zero; auto using fmt_opp.
  - intros k H. rewrite Y3, (elg_zero _ fmt_opp) by exact H. ring.
  - intros s t Is It _. rewrite !Y1. apply elg_swap; auto using fmt_opp.
  - intros s t Is It _. rewrite !Y2. apply mag_swap; auto using fmt_opp.
  - intros k s t Is It _. rewrite !Y3, (@elg_swap fmt fmt_opp Rad RS 2 k s t) by auto. ring.
Qed.
End Theorems.
(** a basis with s and p states, radial elements that do not vanish *)
Example C79_elements_hyp : exists b : names_one, length (names1 b) = 2%nat /\ (forall s, In s (names1 b) -> doublet s) /\
  (forall k a c, (fun (k : Z) (a c : Z * Z * Z) => 1) k a c = (fun (k : Z) (a c : Z * Z * Z) => 1) k c a).
Proof.
  exists (NamesOne 2 [One 0 60 0 1 1; One 1 60 1 1 1] []). split; [reflexivity|]. split; [|reflexivity].
  intros s [<-|[<-|[]]]; (split; [cbn; lia|]; split; [cbn; lia|]; split; exists 0%Z; reflexivity).
Qed.

Print Assumptions C79_elements.
Print Assumptions C80_elements.
