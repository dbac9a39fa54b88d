(** C100: the warning about distances below the Le Roy radius (SystemTwo.cpp:1537-1577).

    [run ... fresh h]: a new system and what a program does with it; [Build d] computes the interaction at distance [d] and gives the radius
    in the warning, if one is printed.  Specification: LeRoySpec. *)
From Coq Require Import ZArith Reals Lra List Bool.
Import ListNotations.
From Verif Require Import Base LeRoyModel LeRoySpec LeRoyProofs.
Set Implicit Arguments.
Local Open Scope R_scope.

Section P.
Variable St : Type.
Variable seqb : St -> St -> bool.
Variable artificial : St -> bool.
Variable nstar : St -> res (R * R).
Variable ell : St -> Z * Z.
Variable r2 : St -> res (R * R).
Variable au2um : R.
Notation stepX := (step seqb artificial nstar ell r2 au2um).
Notation runX := (run seqb artificial nstar ell r2 au2um).
Notation has := (has_radius r2).

(** Warnings are true: whatever a program without exceptions has done (restrictions, other systems added, other distances), a warning
    names the radius of a pair state that is in the basis, and the distance is smaller.  Missing: unitarize (it renames the states). *)
Theorem C100_true_partial : forall h o rs d o' r, Forall (@no_unitarize St) h -> runX (fresh St) h = (o, rs) -> Forall quiet rs -> 0 <= d ->
  (forall s, artificial s = false -> exists x, has s x) ->
  stepX o (Build _ d) = (o', Ok (Some r)) ->
  exists s x, In s (states o) /\ artificial s = false /\ has s x /\ r = Num x /\ d < x.
Proof.
  intros h o rs d o' r N H Q D K W.
  assert (I : sound artificial r2 o) by (apply (@run_sound _ seqb artificial nstar ell r2 au2um h (fresh St) o rs N H Q); left; reflexivity).
  cbn [step] in W. destruct (states o) as [|s0 l0] eqn:Es; [discriminate W|]. rewrite <- Es in *. clear Es.
  unfold checkDistance in W. destruct (look_up artificial nstar ell r2 au2um o) as [o1 [[]| |]] eqn:L; try discriminate W.
  destruct (@look_sound _ artificial nstar ell r2 au2um o o1 L I) as (S & ND & Es). injection W as _ W.
  destruct (below d (radius o1)) eqn:B; [|discriminate W]. injection W as <-. destruct S as [S|[S|(s & Hs & As & E)]].
  - contradiction.
  - rewrite S in B. apply below_num in B. lra.
  - rewrite Es in Hs. destruct (K s As) as [x Hx]. rewrite (has_leroy Hx) in E. injection E as E. exists s, x. rewrite <- E in *. apply below_num in B. auto.
Qed.

(** Exactly when: if the hydrogen formula orders the states like their radii and nothing has been added from another system, then a warning
    is printed if and only if the distance is smaller than the radius of every real pair state of the basis (and there is one).
    Missing: other orders; add; and the warning that is due if it is smaller than the radius of some state, see the next theorems. *)
Theorem C100_exact_partial : forall h o rs d, Forall (@no_join St) h -> runX (fresh St) h = (o, rs) -> Forall quiet rs -> 0 <= d -> states o <> [] ->
  known artificial nstar ell r2 au2um -> same_order artificial nstar ell r2 au2um ->
  exists o' w, stepX o (Build _ d) = (o', Ok w) /\ states o' = states o /\
  (w <> None <-> (exists s, In s (states o) /\ artificial s = false) /\ forall s x, In s (states o) -> artificial s = false -> has s x -> d < x).
Proof.
  intros h o rs d N H Q D NE K O.
  destruct (@run_smallest _ seqb artificial nstar ell r2 au2um h (fresh St) o rs N H Q K O) as [I _]; [cbn; auto|].
  cbn [step]. destruct (states o) as [|s0 l0] eqn:Es; [congruence|]. rewrite <- Es in *. clear Es s0 l0.
  unfold checkDistance. destruct (@look_smallest _ artificial nstar ell r2 au2um o K O I) as (x & -> & A & B). cbn [radius].
  do 2 eexists. split; [reflexivity|]. split; [reflexivity|].
  assert (U : forall s a b, has s a -> has s b -> a = b) by (intros s a b Ha Hb; apply has_leroy in Ha; apply has_leroy in Hb; congruence).
  destruct (below d (Num x)) eqn:W.
  - split; [intros _|intros _; discriminate]. apply below_num in W. destruct B as [(s & Hs & As & Hx)|[-> _]]; [|lra].
    split; [eauto|]. intros t y Ht At Hy. destruct (A t Ht At) as (y' & Hy' & L). rewrite (U t y y' Hy Hy'). lra.
  - split; [intros C; exfalso; apply C; reflexivity|]. intros [(t & Ht & At) F]. destruct B as [(s & Hs & As & Hx)|[_ Z]].
    + specialize (F s x Hs As Hx). apply below_num in F. congruence.
    + rewrite (Z t Ht) in At. discriminate.
Qed.

(** For states whose <r^2> is given by the hydrogen formula the order is right. *)
Theorem C100_hydrogen : 0 < au2um ->
  (forall s, artificial s = false -> exists n1 n2, nstar s = Ok (n1, n2) /\ 0 < r2_hydrogen n1 (fst (ell s)) /\ 0 < r2_hydrogen n2 (snd (ell s)) /\
     r2 s = Ok (au2um * au2um * r2_hydrogen n1 (fst (ell s)), au2um * au2um * r2_hydrogen n2 (snd (ell s)))) ->
  known artificial nstar ell r2 au2um /\ same_order artificial nstar ell r2 au2um.
Proof.
  intros A Hyd.
  assert (P : 0 < au2um * au2um) by (apply Rmult_lt_0_compat; assumption).
  assert (S : forall m, sqrt (au2um * au2um * m) = au2um * sqrt m).
  { intros m. rewrite sqrt_mult_alt by lra. rewrite sqrt_square by lra. reflexivity. }
  assert (G : forall s, artificial s = false -> exists x, has s x /\ hydrogen_radius nstar ell au2um s x).
  { intros s As. destruct (Hyd s As) as (n1 & n2 & E & M1 & M2 & F). exists (2 * au2um * (sqrt (r2_hydrogen n1 (fst (ell s))) + sqrt (r2_hydrogen n2 (snd (ell s))))). split.
    - do 2 eexists. split; [exact F|]. split; [apply Rmult_lt_0_compat; assumption|]. split; [apply Rmult_lt_0_compat; assumption|]. rewrite !S. ring.
    - exists n1, n2. split; [exact E|]. split; [lra|]. split; [lra|]. reflexivity. }
  split.
  - intros s As. destruct (G s As) as (x & ? & ?). eauto.
  - intros s t x y e f As At Hx Hy He Hf L. destruct (G s As) as (x' & Hx' & He'), (G t At) as (y' & Hy' & Hf').
    apply has_leroy in Hx. apply has_leroy in Hx'. apply has_leroy in Hy. apply has_leroy in Hy'.
    apply hyd_estimate in He. apply hyd_estimate in He'. apply hyd_estimate in Hf. apply hyd_estimate in Hf'.
    assert (x = x' /\ y = y' /\ e = x' /\ f = y') as (-> & -> & -> & ->) by (repeat split; congruence). exact L.
Qed.
(** A state of positive n* and 0 <= l < n* has a positive hydrogenic <r^2> (so that the theorem applies to it). *)
Theorem C100_formula : forall n l, (0 <= l)%Z -> IZR l + 1 <= n -> 0 < r2_hydrogen n l.
Proof.
  intros n l L H. unfold r2_hydrogen. assert (0 <= IZR l) by (apply IZR_le; exact L).
  assert (0 < n) by lra. apply Rmult_lt_0_compat; [nra|]. nra.
Qed.

(** Only the smallest radius counts: below the radius of a state, but above that of another one, nothing is printed. *)
Theorem C100_larger_states_refuted : forall s t x y e f d, seqb s t = false -> artificial s = false -> artificial t = false ->
  has s x -> has t y -> hydrogen_radius nstar ell au2um s e -> hydrogen_radius nstar ell au2um t f -> e < f -> x <= d -> d < y ->
  exists o, runX (fresh St) [Create [s; t]; Build _ d] = (o, [Ok None; Ok None]).
Proof.
  intros s t x y e f d N As At Hx Hy He Hf L D1 D2. cbn [run step fresh states radius checkDistance look_up search].
  unfold checkDistance, look_up. cbn [radius states search]. rewrite As, At, (hyd_estimate He), (hyd_estimate Hf). cbn [below].
  destruct (Rlt_dec f e); [lra|]. rewrite (has_leroy Hx). cbn [radius below]. destruct (Rlt_dec d x); [lra|]. eauto.
Qed.

(** States that come from another system are not looked at: at a distance below the radius of all real states nothing is printed. *)
Theorem C100_added_refuted : forall a s x e d D, artificial a = true -> artificial s = false -> seqb a s = false -> has s x -> hydrogen_radius nstar ell au2um s e -> 0 <= D -> 0 <= d -> d < x ->
  (exists o, runX (fresh St) [Create [a]; Build _ D; Add [s]; Build _ d] = (o, [Ok None; Ok None; Ok None; Ok None]) /\ states o = [a; s]) /\
  exists o, runX (fresh St) [Create [a]; Add [s]; Build _ d] = (o, [Ok None; Ok None; Ok (Some (Num x))]).
Proof.
  intros a s x e d D Aa As N Hx He HD Hd L. split.
  - cbn [run step fresh states radius]. unfold checkDistance, look_up. cbn [radius states search]. rewrite Aa. cbn [radius states below].
    destruct (Rlt_dec D 0); [lra|]. unfold append_new. cbn [fold_left existsb]. rewrite N. cbn [orb app radius states below]. destruct (Rlt_dec d 0); [lra|]. eexists. split; reflexivity.
  - cbn [run step fresh states radius]. unfold append_new. cbn [fold_left existsb]. rewrite N. cbn [orb app].
    unfold checkDistance, look_up. cbn [radius states search]. rewrite Aa, As, (hyd_estimate He). cbn [below]. rewrite (has_leroy Hx). cbn [radius below]. destruct (Rlt_dec d x); [|lra]. eauto.
Qed.

(** If the radial matrix element cannot be computed the first call throws; the next one goes on with the estimate as if it were the radius. *)
Theorem C100_exception_refuted : forall s e d, artificial s = false -> r2 s = Throw -> hydrogen_radius nstar ell au2um s e -> d < e ->
  exists o, runX (fresh St) [Create [s]; Build _ d; Build _ d] = (o, [Ok None; Throw; Ok (Some (Num e))]).
Proof.
  intros s e d As T He L. cbn [run step fresh states radius]. unfold checkDistance, look_up. cbn [radius states search]. rewrite As, (hyd_estimate He). cbn [below].
  unfold leroy. rewrite T. cbn [bind radius states below]. destruct (Rlt_dec d e); [|lra]. eauto.
Qed.
End P.

(** Two pairs of hydrogen-like states, n = 40 and n = 60; a third one is artificial. *)
Definition demo_nstar (s : nat) : res (R * R) := match s with 0%nat => Ok (40, 40) | 1%nat => Ok (60, 60) | _ => Throw end.
Definition demo_ell (_ : nat) : Z * Z := (0%Z, 0%Z).
Definition demo_art (s : nat) : bool := Nat.leb 2 s.
Definition demo_r2 (s : nat) : res (R * R) := match s with 0%nat => Ok (r2_hydrogen 40 0, r2_hydrogen 40 0) | 1%nat => Ok (r2_hydrogen 60 0, r2_hydrogen 60 0) | _ => Throw end.
Example C100_nonvacuous : known demo_art demo_nstar demo_ell demo_r2 1 /\ same_order demo_art demo_nstar demo_ell demo_r2 1 /\
  (forall s, demo_art s = false -> exists x, has_radius demo_r2 s x) /\
  exists o, run Nat.eqb demo_art demo_nstar demo_ell demo_r2 1 (fresh nat) [Create [0; 1; 2]%nat; Build _ 100; Restrict (fun s => negb (Nat.eqb s 0))] =
    (o, [Ok None; Ok (Some (Num (2 * (sqrt (r2_hydrogen 40 0) + sqrt (r2_hydrogen 40 0))))); Ok None]) /\ states o = [1; 2]%nat.
Proof.
  assert (P4 : 0 < r2_hydrogen 40 0) by (apply C100_formula; [apply Z.le_refl|lra]). assert (P6 : 0 < r2_hydrogen 60 0) by (apply C100_formula; [apply Z.le_refl|lra]).
  assert (H : forall s, demo_art s = false -> exists n1 n2, demo_nstar s = Ok (n1, n2) /\ 0 < r2_hydrogen n1 (fst (demo_ell s)) /\ 0 < r2_hydrogen n2 (snd (demo_ell s)) /\
     demo_r2 s = Ok (1 * 1 * r2_hydrogen n1 (fst (demo_ell s)), 1 * 1 * r2_hydrogen n2 (snd (demo_ell s)))).
  { intros [|[|s]] A; [exists 40, 40|exists 60, 60|discriminate A]; cbn [demo_nstar demo_ell demo_r2 fst snd]; rewrite !Rmult_1_l; auto. }
  destruct (C100_hydrogen demo_art demo_nstar demo_ell demo_r2 Rlt_0_1 H) as [K O]. split; [exact K|]. split; [exact O|]. split; [intros s A; destruct (K s A) as (x & _ & Hx & _); eauto|].
  assert (Q : sqrt (r2_hydrogen 40 0) < sqrt (r2_hydrogen 60 0)) by (apply sqrt_lt_1; unfold r2_hydrogen; lra).
  assert (B : 50 < sqrt (r2_hydrogen 40 0)). { rewrite <- (sqrt_square 50) by lra. apply sqrt_lt_1; unfold r2_hydrogen; lra. }
  cbn [run step fresh states radius]. unfold checkDistance, look_up. cbn [radius states search].
  change (demo_art 0%nat) with false. change (demo_art 1%nat) with false. change (demo_art 2%nat) with true. cbv iota.
  assert (E0 : hydrogen_radius demo_nstar demo_ell 1 0%nat (2 * 1 * (sqrt (r2_hydrogen 40 0) + sqrt (r2_hydrogen 40 0)))).
  { exists 40, 40. cbn [demo_ell fst snd]. split; [reflexivity|]. split; [lra|]. split; [lra|reflexivity]. }
  assert (E1 : hydrogen_radius demo_nstar demo_ell 1 1%nat (2 * 1 * (sqrt (r2_hydrogen 60 0) + sqrt (r2_hydrogen 60 0)))).
  { exists 60, 60. cbn [demo_ell fst snd]. split; [reflexivity|]. split; [lra|]. split; [lra|reflexivity]. }
  rewrite (hyd_estimate E0), (hyd_estimate E1). cbn [below]. destruct (Rlt_dec _ _); [lra|].
  assert (H0 : has_radius demo_r2 0%nat (2 * (sqrt (r2_hydrogen 40 0) + sqrt (r2_hydrogen 40 0)))) by (do 2 eexists; split; [reflexivity|]; split; [exact P4|]; split; [exact P4|reflexivity]).
  rewrite (has_leroy H0). cbn [radius states below]. destruct (Rlt_dec _ _); [|lra]. eexists. split; reflexivity.
Qed.

Print Assumptions C100_true_partial. Print Assumptions C100_exact_partial. Print Assumptions C100_hydrogen. Print Assumptions C100_formula.
Print Assumptions C100_larger_states_refuted. Print Assumptions C100_added_refuted. Print Assumptions C100_exception_refuted.
