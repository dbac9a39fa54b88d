(** Proofs for PropNecessary.v: the coordinates used by [combine]. *)
From Coq Require Import ZArith Lia Bool List.
Import ListNotations.
From Verif Require Import Base Matrix BasisnamesModel CombineModel CombineSpec NecessaryModel NecessarySpec BasisProofs PropNames CombineProofs CombineProofs2 CombineProofs3 CombineProofs4 NecessaryProofs.
Set Implicit Arguments.

Lemma bind_ok : forall A B (r : res A) (f : A -> res B) y, bind r f = Ok y -> exists x, r = Ok x /\ f x = Ok y.
Proof. intros A B [x| |] f y H; cbn in H; try discriminate. eauto. Qed.
Ltac mon H := apply bind_ok in H; let x := fresh "x" in let E := fresh "E" in destruct H as (x & E & H).

Section K.
Variable K : StarRing.
Variable rt : K.
Variable keep : K -> bool.
Lemma put_in : forall num r (v : K) out x, put num r v = Ok out -> In x out -> r = Some (fst x).
Proof. intros num [r|] v out x H I; unfold put in H; [|discriminate H]. destruct (Nat.ltb r num) eqn:L in H; [|discriminate H]. injection H as <-. destruct I as [<-|[]]. reflexivity. Qed.
Lemma ok_inj : forall A (x y : A), Ok x = Ok y -> x = y. Proof. congruence. Qed.

Lemma one_entry_inv : forall sym names map n2 num dif (e1 e2 : nat * K) out x, ref sym = NA ->
  one_entry rt sym names map n2 num dif e1 e2 = Ok out -> In x out ->
  let row := (n2 * fst e1 + fst e2)%nat in
  let swp := (n2 * fst e2 + fst e1)%nat in
  exists t, nth_error names row = Some t /\
    (forall R, rot sym = Some R -> 2 * R = mm (fst_ t) + mm (snd_ t))%Z /\
    (used (inv sym) = true -> used (per sym) = true -> dif = true -> invsign sym (sg (l_ (fst_ t) + l_ (snd_ t))) = persign sym) /\
    (fst x = row \/ ((used (inv sym) = true \/ used (per sym) = true) /\ fst x = swp)).
Proof.
  intros sym names map n2 num dif e1 e2 out x R0 H I row swp. unfold one_entry in H. rewrite R0 in H. cbn [used] in H. rewrite !andb_false_r in H. cbn [andb orb negb] in H.
  mon H. mon H. mon H. mon H. fold row in E. apply at_vec_ok in E. exists x0. split; [exact E|].
  match type of H with (if ?c then _ else _) = _ => destruct c eqn:C1 end; [apply ok_inj in H; subst out; destruct I|].
  match type of H with (if ?c then _ else _) = _ => destruct c eqn:C2 end; [apply ok_inj in H; subst out; destruct I|].
  rewrite ?andb_true_r, ?andb_false_r in H. cbn [andb] in H.
  split; [|split].
  - intros R ER. rewrite ER in C2. rewrite andb_true_r in C2. apply negb_false_iff, Z.eqb_eq in C2. exact C2.
  - intros Ui Up ->. rewrite Ui, Up in C1. cbn [andb] in C1. apply negb_false_iff, Z.eqb_eq in C1. exact C1.
  - mon H. mon H. mon H. mon H. mon H. mon H. apply ok_inj in H. subst out. rewrite !in_app_iff in I.
    destruct I as [I|[I|[I|[I|[I|I]]]]].
    + left. apply (@put_in _ _ _ _ x E3) in I. injection I as I. symmetry. exact I.
    + apply ok_inj in E4. subst. destruct I.
    + right. destruct (used (inv sym)) eqn:U; [|cbn in E5; apply ok_inj in E5; subst; destruct I]. split; [auto|]. destruct dif; [|cbn in E5; apply ok_inj in E5; subst; destruct I].
      cbn [andb] in E5. apply (@put_in _ _ _ _ x E5) in I. injection I as I. symmetry. exact I.
    + apply ok_inj in E6. subst. destruct I.
    + right. destruct (used (per sym)) eqn:U; [|cbn in E7; apply ok_inj in E7; subst; destruct I]. split; [auto|].
      match type of E7 with (if ?c then _ else _) = _ => destruct c end; [|apply ok_inj in E7; subst; destruct I].
      apply (@put_in _ _ _ _ x E7) in I. injection I as I. symmetry. exact I.
    + apply ok_inj in E8. subst. destruct I.
Qed.

Lemma mapR_in : forall A B (f : A -> res (list B)) l out x, mapR f l = Ok out -> In x out -> exists a o, In a l /\ f a = Ok o /\ In x o.
Proof.
  induction l as [|a l IH]; intros out x H I; cbn [mapR] in H.
  - apply ok_inj in H. subst. destruct I.
  - mon H. mon H. apply ok_inj in H. subst. apply in_app_iff in I. destruct I as [I|I].
    + exists a, x0. split; [left; auto|auto].
    + destruct (IH _ _ E0 I) as (b & o & Hb & R). exists b, o. split; [right; auto|auto].
Qed.
Lemma combine_loop_in : forall (lhs rhs : hmat K) names sym map ps out c E, combine_loop rt keep lhs rhs names sym map ps = Ok out -> In (c, E) out ->
  exists c1 c2 d1 d2 k1 k2, In (c1, c2) ps /\ skipped sym c1 c2 = false /\ nth_error (ediag lhs) c1 = Some d1 /\ nth_error (ediag rhs) c2 = Some d2 /\
    keep (sadd d1 d2) = true /\ nth_error (bcols lhs) c1 = Some k1 /\ nth_error (bcols rhs) c2 = Some k2 /\
    column rt sym names map (coords rhs) (coords lhs * coords rhs) (negb (Nat.eqb c1 c2)) k1 k2 = Ok c.
Proof.
  induction ps as [|[c1 c2] ps IH]; intros out c E0 H I; cbn [combine_loop] in H.
  - apply ok_inj in H. subst. destruct I.
  - assert (Rec : forall o, combine_loop rt keep lhs rhs names sym map ps = Ok o -> In (c, E0) o -> exists c1 c2 d1 d2 k1 k2, In (c1, c2) ((c1, c2) :: ps) /\ In (c1, c2) ps /\ skipped sym c1 c2 = false /\ nth_error (ediag lhs) c1 = Some d1 /\ nth_error (ediag rhs) c2 = Some d2 /\
      keep (sadd d1 d2) = true /\ nth_error (bcols lhs) c1 = Some k1 /\ nth_error (bcols rhs) c2 = Some k2 /\
      column rt sym names map (coords rhs) (coords lhs * coords rhs) (negb (Nat.eqb c1 c2)) k1 k2 = Ok c).
    { intros o Ho Io. destruct (IH _ _ _ Ho Io) as (a & b & d1 & d2 & k1 & k2 & A & R). exists a, b, d1, d2, k1, k2. split; [left; auto|]. split; auto. }
    clear IH. assert (Fin : forall o, combine_loop rt keep lhs rhs names sym map ps = Ok o -> In (c, E0) o -> exists a b d1 d2 k1 k2, In (a, b) ((c1, c2) :: ps) /\ skipped sym a b = false /\ nth_error (ediag lhs) a = Some d1 /\ nth_error (ediag rhs) b = Some d2 /\
      keep (sadd d1 d2) = true /\ nth_error (bcols lhs) a = Some k1 /\ nth_error (bcols rhs) b = Some k2 /\
      column rt sym names map (coords rhs) (coords lhs * coords rhs) (negb (Nat.eqb a b)) k1 k2 = Ok c).
    { intros o Ho Io. destruct (Rec _ Ho Io) as (a & b & d1 & d2 & k1 & k2 & _ & A & R). exists a, b, d1, d2, k1, k2. split; [right; auto|auto]. }
    destruct (skipped sym c1 c2) eqn:Sk; [eauto|]. mon H. mon H. destruct (keep (sadd x x0)) eqn:Kp; [|eauto].
    mon H. mon H. mon H. mon H. apply ok_inj in H. apply at_vec_ok in E, E1, E2, E3.
    destruct x3 as [|y x3]; [subst; eauto|]. subst out. destruct I as [Eq|I]; [|eauto]. injection Eq as <- <-.
    exists c1, c2, x, x0, x1, x2. split; [left; auto|]. auto 10.
Qed.
(** Every coordinate that [combine] uses without reflection. *)
Lemma combine_rows : forall (lhs rhs : hmat K) names sym M k r, ref sym = NA -> combine rt keep lhs rhs names sym = Ok M -> (k < dim M)%nat -> bvec M k r <> s0 ->
  exists c1 c2 e1 e2 t, (c1 < dim lhs)%nat /\ (c2 < dim rhs)%nat /\ skipped sym c1 c2 = false /\ keep (sadd (energy lhs c1) (energy rhs c2)) = true /\
    In e1 (nth c1 (bcols lhs) []) /\ In e2 (nth c2 (bcols rhs) []) /\ nth_error names (coords rhs * fst e1 + fst e2) = Some t /\
    (forall R, rot sym = Some R -> 2 * R = mm (fst_ t) + mm (snd_ t))%Z /\
    (used (inv sym) = true -> used (per sym) = true -> c1 <> c2 -> invsign sym (sg (l_ (fst_ t) + l_ (snd_ t))) = persign sym) /\
    (r = (coords rhs * fst e1 + fst e2)%nat \/ ((used (inv sym) = true \/ used (per sym) = true) /\ r = (coords rhs * fst e2 + fst e1)%nat)).
Proof.
  intros lhs rhs names sym M k r R0 H Hk N. unfold combine in H. mon H. mon H. apply ok_inj in H. subst M. unfold dim, bvec in *. cbn [bcols] in *. rewrite map_length in Hk.
  destruct (nth_error x0 k) as [[c En]|] eqn:Nk; [|apply nth_error_None in Nk; lia].
  assert (Ec : nth k (map fst x0) [] = c) by (apply nth_error_nth; rewrite nth_error_map, Nk; reflexivity). rewrite Ec in N.
  assert (I : exists e, In e c /\ fst e = r).
  { destruct (existsb (fun e => Nat.eqb (fst e) r) c) eqn:X; [apply existsb_exists in X; destruct X as (e & I & Eq); apply Nat.eqb_eq in Eq; eauto|].
    exfalso. apply N. apply coef_out. intros e I Eq. assert (Y : existsb (fun e => Nat.eqb (fst e) r) c = true) by (apply existsb_exists; exists e; split; auto; apply Nat.eqb_eq; auto). congruence. }
  destruct I as (e & I & Er). apply nth_error_In in Nk. destruct (combine_loop_in _ _ _ _ _ _ _ _ E0 Nk) as (c1 & c2 & d1 & d2 & k1 & k2 & Ps & Sk & D1 & D2 & Kp & K1 & K2 & Co).
  apply in_all_pairs in Ps. destruct Ps as [B1 B2]. destruct (mapR_in _ _ _ Co I) as (e1 & o & I1 & Ho & Io). destruct (mapR_in _ _ _ Ho Io) as (e2 & o2 & I2 & H2 & Io2).
  destruct (@one_entry_inv _ _ _ _ _ _ _ _ _ _ R0 H2 Io2) as (t & Nt & Rt & Pt & Fx). exists c1, c2, e1, e2, t.
  assert (Y1 : nth c1 (bcols lhs) [] = k1) by (apply nth_error_nth; auto). assert (Y2 : nth c2 (bcols rhs) [] = k2) by (apply nth_error_nth; auto).
  assert (Z1 : energy lhs c1 = d1) by (apply nth_error_nth; auto). assert (Z2 : energy rhs c2 = d2) by (apply nth_error_nth; auto). rewrite Y1, Y2, Z1, Z2.
  repeat (split; [solve [auto]|]). split; [|rewrite <- Er; exact Fx]. intros Ui Up Ne. apply Pt; auto. apply negb_true_iff, Nat.eqb_neq. exact Ne.
Qed.
End K.
