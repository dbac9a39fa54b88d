(** Two processes with one thread each, one after the other: what the second one finds. *)
From Verif Require Import Base FileCacheModel FileCacheProofs.
From Coq Require Import ZArith Lia Bool Arith List.
Import ListNotations.
Set Implicit Arguments.

(** [n] turns of thread 0; the uuid generator counts from [s] *)
Definition turns P (s n : nat) : list (event P) := map (fun u => Run 0 u) (seq s n).
Lemma turns_no_restart : forall P s n, no_restart (turns P s n).
Proof. intros P s n ps H. apply in_map_iff in H as (u & X & _). discriminate. Qed.
Lemma draws_turns : forall P s n, draws (turns P s n) = seq s n.
Proof.
  intros P s n. unfold draws, turns. rewrite map_map. cbn. revert s. induction n as [|n IH]; intro s; cbn; [reflexivity|]. f_equal. apply IH.
Qed.
Lemma draws_app : forall P (a b : list (event P)), draws (a ++ b) = draws a ++ draws b.
Proof. intros. unfold draws. rewrite map_app, concat_app. reflexivity. Qed.

Section S.
Variables P C M : Type.
Variable fmt : P -> C.
Variable ceqb : C -> C -> bool.
Variable calc : P -> M.
Variable enc : M -> list Z.
Variable dec : list Z -> option M.
Variable jtext : C -> list Z.
Variable jread : list Z -> option C.
Variable early : bool.
Notation step := (step fmt ceqb calc enc dec jtext jread early).
Notation run := (run fmt ceqb calc enc dec jtext jread early).

Lemma some_nth : forall A (l : list A) k, k < length l -> exists x, nth_error l k = Some x.
Proof. intros A l k H. destruct (nth_error l k) eqn:E; eauto. apply nth_error_None in E. lia. Qed.

Lemma write_json : forall n s p u d fl k, k + n = length (jtext (fmt p)) -> json d u = Some (firstn k (jtext (fmt p))) ->
  exists d', fold_left step (turns P s n) (World d fl [Thread p (AtWriteJson _ u k)]) = World d' fl [Thread p (AtWriteJson _ u (k + n))]
    /\ table d' = table d /\ json d' u = Some (jtext (fmt p)) /\ mat d' = mat d.
Proof.
  induction n as [|n IH]; intros s p u d fl k K J.
  - exists d. rewrite Nat.add_0_r. cbn. repeat split; auto. rewrite J. f_equal. apply firstn_all2. lia.
  - destruct (@some_nth _ (jtext (fmt p)) k) as [x X]; [lia|].
    unfold turns. cbn [seq map fold_left]. unfold FileCacheModel.step at 2. cbn [team nth_error par at_ dsk flag act]. rewrite X. cbn [set_nth].
    destruct (IH (S s) p u (Disk (table d) (upd (json d) u (firstn (S k) (jtext (fmt p)))) (mat d)) fl (S k)) as (d' & E & T & J' & M').
    { lia. } { cbn. unfold upd. rewrite Nat.eqb_refl. reflexivity. }
    exists d'. unfold turns in E. rewrite E. cbn in T, M'. replace (k + S n) with (S k + n) by lia. auto.
Qed.
Lemma write_mat : forall n s p u d fl k, k + n = length (enc (calc p)) -> mat d u = Some (firstn k (enc (calc p))) ->
  exists d', fold_left step (turns P s n) (World d fl [Thread p (AtWriteMat _ u k)]) = World d' fl [Thread p (AtWriteMat _ u (k + n))]
    /\ table d' = table d /\ mat d' u = Some (enc (calc p)) /\ json d' = json d.
Proof.
  induction n as [|n IH]; intros s p u d fl k K J.
  - exists d. rewrite Nat.add_0_r. cbn. repeat split; auto. rewrite J. f_equal. apply firstn_all2. lia.
  - destruct (@some_nth _ (enc (calc p)) k) as [x X]; [lia|].
    unfold turns. cbn [seq map fold_left]. unfold FileCacheModel.step at 2. cbn [team nth_error par at_ dsk flag act]. rewrite X. cbn [set_nth].
    destruct (IH (S s) p u (Disk (table d) (json d) (upd (mat d) u (firstn (S k) (enc (calc p))))) fl (S k)) as (d' & E & T & J' & M').
    { lia. } { cbn. unfold upd. rewrite Nat.eqb_refl. reflexivity. }
    exists d'. unfold turns in E. rewrite E. cbn in T, M'. replace (k + S n) with (S k + n) by lia. auto.
Qed.

Hypothesis ceqb_spec : forall a b, ceqb a b = true <-> a = b.
Definition first_len (p : P) : nat := 8 + (length (jtext (fmt p)) + (2 + length (enc (calc p)) + 1)).
Lemma turns_app : forall s a b, turns P s (a + b) = turns P s a ++ turns P (s + a) b.
Proof. intros. unfold turns. rewrite seq_app, map_app. reflexivity. Qed.
Lemma first_run : forall p, exists d fl, run (Restart [p] :: turns P 0 (first_len p)) = World d fl [Thread p (Done (calc p))] /\
  table d = Some [(3, fmt p)] /\ json d 3 = Some (jtext (fmt p)) /\ mat d 3 = Some (enc (calc p)).
Proof.
  intro p. unfold run, first_len. cbn [fold_left]. rewrite turns_app, fold_left_app.
  assert (E : exists fl, fold_left step (turns P 0 (7)) (step (World (empty_disk C) true []) (Restart [p])) =
     World (Disk (Some [(3, fmt p)]) (upd (fun _ => None) 3 []) (fun _ => None)) fl [Thread p (AtWriteJson _ 3 0)]).
  { unfold turns. destruct early; eexists; cbn; reflexivity. }
  destruct E as [fl E].
  rewrite <- fold_left_app, <- turns_app.
  replace (8 + (length (jtext (fmt p)) + (2 + length (enc (calc p)) + 1))) with (7 + (length (jtext (fmt p)) + (2 + (length (enc (calc p)) + (1 + 1))))) by lia.
  rewrite turns_app, fold_left_app, E, turns_app, fold_left_app.
  destruct (@write_json (length (jtext (fmt p))) (0 + 7) p 3 (Disk (Some [(3, fmt p)]) (upd (fun _ => None) 3 []) (fun _ => None)) fl 0 eq_refl eq_refl)
    as (d1 & E1 & T1 & J1 & M1).
  rewrite E1. cbn in T1, M1. rewrite turns_app, fold_left_app. rewrite Nat.add_0_l.
  assert (E2 : forall s, fold_left step (turns P s 2) (World d1 fl [Thread p (AtWriteJson M 3 (length (jtext (fmt p))))]) =
     World (Disk (table d1) (json d1) (upd (mat d1) 3 [])) fl [Thread p (AtWriteMat _ 3 0)]).
  { intro s. unfold turns. cbn [seq map fold_left]. unfold FileCacheModel.step. cbn [team nth_error par at_ dsk flag act].
    rewrite (proj2 (nth_error_None (jtext (fmt p)) _)) by lia. reflexivity. }
  rewrite E2, turns_app, fold_left_app.
  match goal with |- context [turns P ?s (length (enc (calc p)))] =>
    destruct (@write_mat (length (enc (calc p))) s p 3 (Disk (table d1) (json d1) (upd (mat d1) 3 [])) fl 0 eq_refl eq_refl)
      as (d2 & E3 & T3 & J3 & M3) end.
  rewrite E3, Nat.add_0_l. exists d2, fl. cbn in T3, M3.
  split; [|rewrite T3, T1, M3; auto].
  unfold turns. cbn [Nat.add seq map fold_left]. unfold FileCacheModel.step. cbn [team nth_error par at_ dsk flag act].
  rewrite (proj2 (nth_error_None (enc (calc p)) _)) by lia. reflexivity.
Qed.
(** The second process asks for [q], which is written like [p]: it gets what the file of [p] says. *)
Lemma second_run : forall p q m, fmt q = fmt p -> jread (jtext (fmt p)) = Some (fmt p) -> dec (enc (calc p)) = Some m ->
  exists d fl, run ((Restart [p] :: turns P 0 (first_len p)) ++ Restart [q] :: turns P (first_len p) 9) = World d fl [Thread q (Done m)].
Proof.
  intros p q m E J D. destruct (first_run p) as (d & fl & R & T & Js & Ms). unfold run in *. rewrite fold_left_app, R. cbn [fold_left].
  assert (S : ceqb (fmt p) (fmt p) = true) by (apply ceqb_spec; reflexivity).
  assert (F : find_conf ceqb [(3, fmt p)] (fmt q) = Some 3) by (unfold find_conf; cbn; rewrite E, S; reflexivity).
  assert (St : forall fl u c, step (World d fl [Thread q c]) (Run 0 u) =
     let '(d', fl', c') := act fmt ceqb calc enc dec jtext jread early q u d fl c in World d' fl' [Thread q c']) by reflexivity.
  assert (Dd : Disk (table d) (json d) (mat d) = d) by (destruct d; reflexivity).
  assert (Cr : forall fl u b, step (World d fl [Thread q (AtCreate _ b)]) (Run 0 u) = World d fl [Thread q (if b then AtSelect _ else AtClear _ true)]).
  { intros. clear - T. destruct d as [tb js ms]. cbn in T. subst tb. reflexivity. }
  assert (Se : forall fl u, step (World d fl [Thread q (AtSelect _)]) (Run 0 u) = World d fl [Thread q (AtUpdate _ 3)]).
  { intros. rewrite St. cbn [act]. rewrite T, F. reflexivity. }
  assert (Up : forall fl u, step (World d fl [Thread q (AtUpdate _ 3)]) (Run 0 u) = World d fl [Thread q (AtMat _ 3)]).
  { intros. rewrite St. cbn [act]. rewrite T. reflexivity. }
  assert (Ma : forall fl u, step (World d fl [Thread q (AtMat _ 3)]) (Run 0 u) = World d fl [Thread q (AtJson _ 3)]).
  { intros. rewrite St. cbn [act]. rewrite Ms. reflexivity. }
  assert (Jo : forall fl u, step (World d fl [Thread q (AtJson _ 3)]) (Run 0 u) = World d fl [Thread q (AtRead _ 3)]).
  { intros. rewrite St. cbn [act]. rewrite Js. reflexivity. }
  assert (Re : forall fl u, step (World d fl [Thread q (AtRead _ 3)]) (Run 0 u) = World d fl [Thread q (AtLoad _ 3)]).
  { intros. rewrite St. cbn [act]. rewrite Js, J, E, S. reflexivity. }
  assert (Lo : forall fl u, step (World d fl [Thread q (AtLoad _ 3)]) (Run 0 u) = World d fl [Thread q (Done m)]).
  { intros. rewrite St. cbn [act]. rewrite Ms, D. reflexivity. }
  exists d, false. unfold turns. cbn [seq map fold_left].
  replace (step (World d fl [Thread p (Done (calc p))]) (Restart [q])) with (World d true [Thread q (@AtFlag M)]) by reflexivity.
  destruct early.
  - rewrite St. cbn [act]. rewrite St. cbn [act]. rewrite Cr, Se, Up, Ma, Jo, Re, Lo. reflexivity.
  - rewrite St. cbn [act]. rewrite Cr, St. cbn [act]. rewrite Se, Up, Ma, Jo, Re, Lo. reflexivity.
Qed.
End S.
