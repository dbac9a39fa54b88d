(** When the table is missing. *)
From Verif Require Import Base FileCacheModel FileCacheProofs.
From Coq Require Import ZArith Lia Bool List Arith.
Import ListNotations.
Set Implicit Arguments.

Section P.
Variables P C M : Type.
Variable fmt : P -> C.
Variable ceqb : C -> C -> bool.
Variable calc : P -> M.
Variable enc : M -> list Z.
Variable dec : list Z -> option M.
Variable jtext : C -> list Z.
Variable jread : list Z -> option C.
Notation step e := (step fmt ceqb calc enc dec jtext jread e).
Notation run e := (run fmt ceqb calc enc dec jtext jread e).

Definition tbl (d : disk C) : Prop := table d <> None.
(** HamiltonianTwo *)
Definition late_ok (d : disk C) (t : thread P M) : Prop :=
  match at_ t with
  | AtFlag | AtCreate _ false => True
  | AtCreate _ true | AtClear _ false => False
  | Failed NoTable => False
  | _ => tbl d
  end.
Lemma tbl_act : forall e p u d fl c d' fl' c', act fmt ceqb calc enc dec jtext jread e p u d fl c = (d', fl', c') -> tbl d -> tbl d'.
Proof.
  intros e p u d fl c d' fl' c' A T. unfold tbl in *. destruct c; cbn in A.
  all: repeat match type of A with context [match ?x with _ => _ end] => let E := fresh "E" in destruct x eqn:E end.
  all: try injection A as <- <- <-; cbn; congruence.
Qed.
Lemma late_act : forall p u d fl c d' fl' c', act fmt ceqb calc enc dec jtext jread false p u d fl c = (d', fl', c') ->
  (fl = false -> tbl d) -> late_ok d (Thread p c) -> late_ok d' (Thread p c') /\ (fl' = false -> tbl d').
Proof.
  intros p u d fl c d' fl' c' A F L. pose proof (fun T => tbl_act _ _ _ _ _ A T) as TA. unfold late_ok in *. cbn [at_] in *.
  destruct c; cbn in A; unfold tbl in *.
  all: repeat match type of A with context [match ?x with _ => _ end] => let E := fresh "E" in destruct x eqn:E end.
  all: try injection A as <- <- <-; cbn in *; try tauto; try (split; auto; congruence); try congruence.
  all: try (destruct r; split; auto; congruence).
Qed.
Lemma late_run : forall es, (flag (run false es) = false -> tbl (dsk (run false es))) /\ forall i t, nth_error (team (run false es)) i = Some t -> late_ok (dsk (run false es)) t.
Proof.
  induction es as [|e es [F L]] using rev_ind. { split; [discriminate|]. intros [|]; discriminate. }
  unfold run. rewrite fold_left_app. cbn [fold_left]. fold (run false es). destruct e as [i u|ps]; cbn [FileCacheModel.step].
  - destruct (nth_error (team (run false es)) i) as [t|] eqn:T; [|auto].
    destruct (act fmt ceqb calc enc dec jtext jread false (par t) u (dsk (run false es)) (flag (run false es)) (at_ t)) as [[d' fl'] c'] eqn:A.
    cbn [dsk flag team]. pose proof (fun T => tbl_act _ _ _ _ _ A T) as TA. destruct t as [p c]. cbn [par at_] in *.
    destruct (@late_act _ _ _ _ _ _ _ _ A F (L _ _ T)) as [L' F']. split; auto.
    intros j t' T'. destruct (Nat.eq_dec i j) as [<-|N].
    + rewrite (set_nth_same _ _ _ T) in T'. injection T' as <-. exact L'.
    + rewrite set_nth_other in T' by auto. specialize (L _ _ T'). unfold late_ok in *. destruct (at_ t'); auto; try (destruct created; auto); try (destruct cleared; auto); destruct r; auto.
  - cbn [dsk flag team]. split; [discriminate|]. intros i t T. unfold start in T. apply nth_error_In in T. apply in_map_iff in T. destruct T as (p & <- & _). exact I.
Qed.

(** HamiltonianOne with one thread *)
Definition early_ok (d : disk C) (fl : bool) (t : thread P M) : Prop :=
  match at_ t with
  | AtFlag => fl = true
  | AtCreate _ true | AtClear _ false => True
  | AtCreate _ false | AtClear _ true => False
  | Failed NoTable => False
  | _ => tbl d
  end.
Lemma early_act : forall p u d fl c d' fl' c', act fmt ceqb calc enc dec jtext jread true p u d fl c = (d', fl', c') ->
  early_ok d fl (Thread p c) -> early_ok d' fl' (Thread p c').
Proof.
  intros p u d fl c d' fl' c' A L. pose proof (fun T => tbl_act _ _ _ _ _ A T) as TA. unfold early_ok in *. cbn [at_] in *.
  destruct c; cbn in A; unfold tbl in *.
  all: repeat match type of A with context [match ?x with _ => _ end] => let E := fresh "E" in destruct x eqn:E end.
  all: try injection A as <- <- <-; cbn in *; try tauto; try congruence.
  all: try (destruct r; auto; congruence).
Qed.
Lemma early_run : forall es1 p es2, no_restart es2 -> exists t, team (run true (es1 ++ Restart [p] :: es2)) = [t] /\ par t = p /\
  early_ok (dsk (run true (es1 ++ Restart [p] :: es2))) (flag (run true (es1 ++ Restart [p] :: es2))) t.
Proof.
  intros es1 p es2. induction es2 as [|e es2 IH] using rev_ind; intro N.
  - unfold run. rewrite fold_left_app. cbn. eexists. repeat split.
  - assert (N' : no_restart es2). { intros ps X. apply (N ps). apply in_app_iff. auto. }
    destruct (IH N') as (t & T & Pt & L). 
    replace (es1 ++ Restart [p] :: es2 ++ [e]) with ((es1 ++ Restart [p] :: es2) ++ [e]) by (rewrite <- app_assoc; reflexivity).
    unfold run. rewrite fold_left_app. cbn [fold_left]. fold (run true (es1 ++ Restart [p] :: es2)). set (w := run true (es1 ++ Restart [p] :: es2)) in *.
    destruct e as [i u|ps]. 2:{ elim (N ps). apply in_app_iff. right; left; auto. }
    cbn [FileCacheModel.step]. rewrite T. destruct i as [|i]; cbn [nth_error]. 2:{ rewrite nth_error_nil || destruct i; cbn [nth_error]; exists t; auto. }
    destruct t as [q c]. cbn [par at_] in *. subst q.
    destruct (act fmt ceqb calc enc dec jtext jread true p u (dsk w) (flag w) c) as [[d' fl'] c'] eqn:A.
    cbn [dsk flag team set_nth]. eexists. repeat split. eapply early_act; eauto.
Qed.
End P.
