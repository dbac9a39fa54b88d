From Verif Require Import Base CacheModel.
From Coq Require Import Bool List Arith Lia.
Set Implicit Arguments.

Lemma upd_length : forall A (l : list A) i x, length (upd l i x) = length l.
Proof. induction l as [|y l IH]; intros [|i] x; cbn; auto. Qed.
Lemma upd_same : forall A (l : list A) i x y, nth_error l i = Some y -> nth_error (upd l i x) i = Some x.
Proof. induction l as [|z l IH]; intros [|i] x y H; cbn in *; try discriminate; eauto. Qed.
Lemma upd_other : forall A (l : list A) i j x, i <> j -> nth_error (upd l i x) j = nth_error l j.
Proof. induction l as [|z l IH]; intros [|i] [|j] x H; cbn; auto; try congruence. Qed.

Section P.
  Variables (K V : Type) (keqb : K -> K -> bool).
  Hypothesis keqb_spec : forall a b, keqb a b = true <-> a = b.
  Notation op := (op K V).
  Notation config := (config K V).

  (** ** What a sequential history of calls means *)
  Definition clears (e : nat * op * result V) : bool :=
    match e with (_, Clear, _) => true | _ => false end.

  (** In history [h] (oldest first), key k holds v: a successful save(k,v) not
      followed by a clear. *)
  Definition holds (h : list (nat * op * result V)) (k : K) (v : V) : Prop :=
    exists a t b, h = a ++ (t, Save k v, RUnit) :: b /\ forall e, In e b -> clears e = false.

  Definition mem_ok (m : store K V) (h : list (nat * op * result V)) : Prop :=
    forall k v, lookup keqb m k = Some v <-> holds h k v.

  Definition entry_ok (pre : list (nat * op * result V)) (e : nat * op * result V) : Prop :=
    match e with
    | (_, Save k v, RUnit) => forall w, ~ holds pre k w
    | (_, Save k v, RThrow) => exists w, holds pre k w
    | (_, Restore k, RVal (Some v)) => holds pre k v
    | (_, Restore k, RVal None) => forall w, ~ holds pre k w
    | (_, Clear, RUnit) => True
    | _ => False
    end.
  Definition log_ok (h : list (nat * op * result V)) : Prop :=
    forall pre e post, h = pre ++ e :: post -> entry_ok pre e.

  Lemma app_single_inv : forall A (a b l : list A) (x y : A),
    l ++ [x] = a ++ y :: b -> (b = [] /\ y = x /\ a = l) \/ (exists b', b = b' ++ [x] /\ l = a ++ y :: b').
  Proof.
    intros A a b l x y H. destruct (exists_last (l := y :: b)) as [b' [z E]]; [discriminate|].
    rewrite E, app_assoc in H. apply app_inj_tail in H. destruct H as [H ->].
    destruct b' as [|w b'].
    - left. cbn in E. injection E as -> ->. rewrite app_nil_r in H. auto.
    - right. cbn in E. injection E as <- ->. exists b'. auto.
  Qed.

  Lemma holds_snoc : forall h e k v, holds (h ++ [e]) k v <->
    (exists t, e = (t, Save k v, RUnit)) \/ (holds h k v /\ clears e = false).
  Proof.
    intros h e k v. split.
    - intros (a & t & b & E & F). apply app_single_inv in E.
      destruct E as [(-> & E & ->)|(b' & -> & ->)].
      + left. exists t. auto.
      + right. split.
        * exists a, t, b'. split; [reflexivity|]. intros e' He. apply F. apply in_or_app. auto.
        * apply F. apply in_or_app. right. left. reflexivity.
    - intros [[t ->]|[(a & t & b & -> & F) C]].
      + exists h, t, []. split; [reflexivity|]. intros e [].
      + exists a, t, (b ++ [e]). split; [now rewrite <- app_assoc|].
        intros e' He. apply in_app_or in He. destruct He as [He|[<-|[]]]; auto.
  Qed.

  Lemma holds_nil : forall k v, ~ holds [] k v.
  Proof. intros k v (a & t & b & E & _). destruct a; discriminate. Qed.

  Lemma log_ok_snoc : forall h e, log_ok h -> entry_ok h e -> log_ok (h ++ [e]).
  Proof.
    intros h e H1 H2 pre x post E. apply app_single_inv in E.
    destruct E as [(-> & -> & ->)|(b' & -> & ->)]; [exact H2|]. eapply H1. reflexivity.
  Qed.

  Lemma perform_ok : forall m h t o, mem_ok m h -> log_ok h ->
    mem_ok (fst (perform keqb m o)) (h ++ [(t, o, snd (perform keqb m o))]) /\
    log_ok (h ++ [(t, o, snd (perform keqb m o))]).
  Proof.
    intros m h t o M L. destruct o as [k v|k|]; cbn.
    - destruct (lookup keqb m k) as [w|] eqn:E; cbn; split.
      + intros k' v'. rewrite holds_snoc, (M k' v'). cbn. split; [auto|].
        intros [[t' C]|[C _]]; [discriminate|exact C].
      + apply log_ok_snoc; [exact L|]. cbn. exists w. now apply M.
      + intros k' v'. rewrite holds_snoc. cbn. destruct (keqb k k') eqn:F.
        * apply keqb_spec in F. subst k'. split.
          -- intro Q. injection Q as ->. left. exists t. reflexivity.
          -- intros [[t' Q]|[Q _]]; [injection Q; congruence|]. apply M in Q. congruence.
        * rewrite (M k' v'). split; [auto|]. intros [[t' Q]|[Q _]]; [|exact Q].
          injection Q as _ -> _. assert (keqb k' k' = true) by now apply keqb_spec. congruence.
      + apply log_ok_snoc; [exact L|]. cbn. intros w Hw. apply M in Hw. congruence.
    - split.
      + intros k' v'. rewrite holds_snoc, (M k' v'). cbn. split; [auto|].
        intros [[t' C]|[C _]]; [discriminate|exact C].
      + apply log_ok_snoc; [exact L|]. cbn. destruct (lookup keqb m k) as [w|] eqn:E.
        * now apply M.
        * intros w Hw. apply M in Hw. congruence.
    - split.
      + intros k v. rewrite holds_snoc. cbn. split; [discriminate|].
        intros [[t' C]|[_ C]]; discriminate.
      + apply log_ok_snoc; [exact L|]. exact I.
  Qed.

  (** ** Invariants of the interleaving semantics *)
  Definition lock_ok (c : config) : Prop :=
    forall i t, nth_error (threads c) i = Some t ->
      match ph t with
      | Idle => lock c <> Some i
      | Locked o => lock c = Some i /\ locks o = true
      | Access o => if locks o then lock c = Some i else lock c <> Some i
      | Release => lock c = Some i
      end.

  Definition phase_op (p : phase K V) : list op :=
    match p with Locked o => [o] | Access o => [o] | _ => [] end.
  Definition log_of (i : nat) (h : list (nat * op * result V)) : list op :=
    map (fun e => snd (fst e)) (filter (fun e => Nat.eqb (fst (fst e)) i) h).
  Definition prog_ok (progs : list (list op)) (c : config) : Prop :=
    length (threads c) = length progs /\
    forall i t, nth_error (threads c) i = Some t ->
      nth_error progs i = Some (log_of i (log c) ++ phase_op (ph t) ++ todo t).

  Definition Inv (progs : list (list op)) (c : config) : Prop :=
    mem_ok (mem c) (log c) /\ log_ok (log c) /\ lock_ok c /\ prog_ok progs c /\
    (forall i, lock c = Some i -> i < length (threads c)).

  Lemma init_inv : forall progs, Inv progs (init progs).
  Proof.
    intro progs. unfold Inv, init; cbn. repeat split.
    - discriminate.
    - intro H. destruct (holds_nil H).
    - intros pre e post E. destruct pre; discriminate.
    - intros i t H. cbn in H. rewrite nth_error_map in H. destruct (nth_error progs i); [|discriminate].
      injection H as <-. cbn. discriminate.
    - apply map_length.
    - intros i t H. cbn in H. rewrite nth_error_map in H. destruct (nth_error progs i); [|discriminate].
      injection H as <-. reflexivity.
    - discriminate.
  Qed.

  Ltac thread_cases H :=
    match goal with
    | E : nth_error (threads ?c) ?i = Some _ |- _ =>
      match type of H with nth_error (upd _ _ _) ?j = _ =>
        destruct (Nat.eq_dec i j) as [<-|NE];
        [rewrite (upd_same _ _ _ E) in H; injection H as <- | rewrite (upd_other _ _ NE) in H]
      end
    end.

  Lemma nth_lt : forall A (l : list A) i x, nth_error l i = Some x -> i < length l.
  Proof. intros A l i x H. apply nth_error_Some. congruence. Qed.

  Lemma log_of_snoc : forall i h e, log_of i (h ++ [e]) =
    log_of i h ++ (if Nat.eqb (fst (fst e)) i then [snd (fst e)] else []).
  Proof.
    intros i h e. unfold log_of. rewrite filter_app, map_app. cbn.
    destruct (Nat.eqb (fst (fst e)) i); reflexivity.
  Qed.

  Local Arguments log_of : simpl never.
  Lemma step_inv : forall progs c c', Inv progs c -> step keqb c c' -> Inv progs c'.
  Proof.
    intros progs c c' (M & L & LO & (PL & PO) & LL) S.
    destruct S as [i o os NR E Lk Free|i o os NR E|i o os NR E Lk|i o os NR E|i os NR E];
      (split; [|split; [|split; [|split; [split|]]]]); cbn;
      try exact M; try exact L; try (rewrite upd_length; exact PL);
      try (rewrite upd_length; exact LL).
    - intros k t H. cbn in H. thread_cases H; cbn; [auto|].
      specialize (LO _ _ H). destruct (ph t); try congruence.
      + rewrite Free in LO. destruct LO. discriminate.
      + destruct (locks o0); congruence.
    - intros k t H. cbn in H. thread_cases H; cbn; [exact (PO _ _ E)|exact (PO _ _ H)].
    - intros k Hk. injection Hk as <-. rewrite upd_length. now apply nth_lt in E.
    - intros k t H. cbn in H. thread_cases H; cbn; [|exact (LO _ _ H)].
      specialize (LO _ _ E). cbn in LO. destruct LO as [LO ->]. exact LO.
    - intros k t H. cbn in H. thread_cases H; cbn; [exact (PO _ _ E)|exact (PO _ _ H)].
    - intros k t H. cbn in H. thread_cases H; cbn; [|exact (LO _ _ H)].
      specialize (LO _ _ E). cbn in LO. rewrite Lk. exact LO.
    - intros k t H. cbn in H. thread_cases H; cbn; [exact (PO _ _ E)|exact (PO _ _ H)].
    - exact (proj1 (@perform_ok _ _ i o M L)).
    - exact (proj2 (@perform_ok _ _ i o M L)).
    - intros k t H. cbn in H. thread_cases H; cbn; [|exact (LO _ _ H)].
      specialize (LO _ _ E). cbn in LO. destruct (locks o); exact LO.
    - intros k t H. cbn in H. rewrite log_of_snoc. cbn. thread_cases H; cbn.
      + rewrite Nat.eqb_refl. specialize (PO _ _ E). cbn in PO. rewrite PO.
        destruct (locks o); cbn; now rewrite <- app_assoc.
      + apply Nat.eqb_neq in NE. rewrite NE, app_nil_r. auto.
    - intros k t H. cbn in H. specialize (LO i _ E) as LOi. cbn in LOi.
      thread_cases H; cbn; [congruence|].
      specialize (LO _ _ H). destruct (ph t); try congruence.
      + destruct LO as [LO _]. congruence.
      + destruct (locks o); congruence.
    - intros k t H. cbn in H. thread_cases H; cbn; [exact (PO _ _ E)|exact (PO _ _ H)].
    - discriminate.
  Qed.

  Lemma reach_inv : forall progs c, reach keqb (init progs) c -> Inv progs c.
  Proof.
    intros progs c H. induction H as [|c c' H IH S]; [apply init_inv|].
    eapply step_inv; eassumption.
  Qed.

  Lemma cache_linearizable : forall progs c, reach keqb (init progs) c ->
    log_ok (log c) /\
    (forall i t, nth_error (threads c) i = Some t ->
       exists rest, nth_error progs i = Some (log_of i (log c) ++ rest)).
  Proof.
    intros progs c H. destruct (reach_inv H) as (_ & L & _ & (_ & P) & _).
    split; [exact L|]. intros i t E. rewrite (P _ _ E). eauto.
  Qed.

  Definition no_clear (progs : list (list op)) : Prop :=
    forall p, In p progs -> ~ In Clear p.

  Lemma no_race : forall progs c, no_clear progs -> reach keqb (init progs) c -> ~ race c.
  Proof.
    intros progs c NC H (i & j & ti & tj & oi & oj & NE & Hi & Hj & Pi & Pj & _).
    destruct (reach_inv H) as (_ & _ & LO & (_ & P) & _).
    assert (X : forall k t o, nth_error (threads c) k = Some t -> ph t = Access o -> lock c = Some k).
    { intros k t o Hk Pk. specialize (LO _ _ Hk) as LOk. rewrite Pk in LOk.
      destruct o as [a b|a|]; [exact LOk|exact LOk|].
      exfalso. specialize (P _ _ Hk). rewrite Pk in P. apply nth_error_In in P.
      apply (NC _ P). apply in_or_app. right. left. reflexivity. }
    pose proof (X _ _ _ Hi Pi). pose proof (X _ _ _ Hj Pj). congruence.
  Qed.

  (** Progress: unless a race has occurred, an unfinished system can move. *)
  Definition finished (c : config) : Prop :=
    forall t, In t (threads c) -> todo t = [] /\ ph t = Idle.

  Lemma progress : forall progs c, reach keqb (init progs) c -> ~ race c ->
    finished c \/ exists c', step keqb c c'.
  Proof.
    intros progs c H NR. destruct (reach_inv H) as (_ & _ & LO & _ & LL).
    destruct (lock c) as [i|] eqn:Lk.
    - specialize (LL _ eq_refl). right.
      destruct (nth_error (threads c) i) as [t|] eqn:E; [|apply nth_error_None in E; lia].
      specialize (LO _ _ E). destruct t as [os p]. cbn in LO. destruct p as [|o|o|].
      + congruence.
      + eexists. eapply st_access; eassumption.
      + eexists. eapply st_done; eassumption.
      + eexists. eapply st_unlock; eassumption.
    - assert (D : finished c \/ exists i t, nth_error (threads c) i = Some t /\ (todo t <> [] \/ ph t <> Idle)).
      { unfold finished. clear - K. induction (threads c) as [|t ts IH].
        - left. intros t [].
        - destruct IH as [IH|(i & t' & IH)].
          + destruct t as [os p]. destruct os as [|o os]; [destruct p|]; try (right; exists 0; eexists; split; [reflexivity|]; cbn; (right; congruence) || (left; congruence)).
            left. intros t' [<-|H]; [auto|auto].
          + right. exists (S i), t'. exact IH. }
      destruct D as [D|(i & t & E & D)]; [left; exact D|right].
      specialize (LO _ _ E). destruct t as [os p]. cbn in LO, D.
      destruct p as [|o|o|]; try (destruct LO; congruence); try congruence.
      + destruct os as [|o os]; [destruct D; congruence|]. destruct (locks o) eqn:Lo.
        * eexists. eapply st_lock; eassumption.
        * eexists. eapply st_access_nolock; eassumption.
      + eexists. eapply st_done; eassumption.
  Qed.
End P.

(** Two threads, one clearing while the other saves. *)
Lemma clear_races : exists (progs : list (list (op nat nat))) c,
  reach Nat.eqb (init progs) c /\ race c.
Proof.
  exists [[Clear]; [Save 1 2]].
  set (c0 := init [[Clear]; [Save 1 2]]).
  assert (R0 : ~ race c0).
  { intros (i & j & ti & tj & oi & oj & NE & Hi & Hj & Pi & Pj & _).
    destruct i as [|[|[|i]]]; cbn in Hi; try discriminate; injection Hi as <-; discriminate. }
  pose (c1 := Cf [Th [Clear] Idle; Th [] (Locked (Save 1 2))] (Some 1) [] (log c0)).
  assert (S1 : step Nat.eqb c0 c1) by (apply (@st_lock _ _ Nat.eqb c0 1 (Save 1 2) []); auto).
  assert (R1 : ~ race c1).
  { intros (i & j & ti & tj & oi & oj & NE & Hi & Hj & Pi & Pj & _).
    destruct i as [|[|[|i]]]; cbn in Hi; try discriminate; injection Hi as <-; discriminate. }
  pose (c2 := Cf [Th [Clear] Idle; Th [] (Access (Save 1 2))] (Some 1) [] (log c0)).
  assert (S2 : step Nat.eqb c1 c2) by (apply (@st_access _ _ Nat.eqb c1 1 (Save 1 2) []); auto).
  assert (R2 : ~ race c2).
  { intros (i & j & ti & tj & oi & oj & NE & Hi & Hj & Pi & Pj & _).
    destruct i as [|[|[|i]]], j as [|[|[|j]]]; cbn in Hi, Hj; try discriminate; try congruence;
      injection Hi as <-; injection Hj as <-; try discriminate. }
  pose (c3 := Cf [Th [] (Access Clear); Th [] (Access (Save 1 2))] (Some 1) [] (log c0)).
  assert (S3 : step Nat.eqb c2 c3) by (apply (@st_access_nolock _ _ Nat.eqb c2 0 Clear []); auto).
  exists c3. split.
  - eapply r_step; [|exact S3]. eapply r_step; [|exact S2]. eapply r_step; [|exact S1]. apply r_refl.
  - exists 0, 1, (Th [] (Access Clear)), (Th [] (Access (Save 1 2))), Clear, (Save 1 2).
    repeat split; auto.
Qed.

Lemma no_race_single : forall K V (c : config K V) t, threads c = [t] -> ~ race c.
Proof.
  intros K V c t E (i & j & ti & tj & oi & oj & NE & Hi & Hj & _). rewrite E in Hi, Hj.
  destruct i as [|[|i]], j as [|[|j]]; cbn in *; try discriminate. congruence.
Qed.

Lemma cache_example : exists c,
  reach Nat.eqb (init [[Save 1 2; Restore 1]]) c /\ log c = [(0, Save 1 2, RUnit); (0, Restore 1, RVal (Some 2))].
Proof.
  pose (C := fun os p lk m lg => Cf [@Th nat nat os p] lk m lg).
  exists (C [] Idle None [(1,2)] [(0, Save 1 2, RUnit); (0, Restore 1, RVal (Some 2))]).
  split; [|reflexivity].
  pose (R := Restore (V:=nat) 1).
  assert (NR : forall os p lk m lg, ~ race (C os p lk m lg)) by (intros; eapply no_race_single; reflexivity).
  eapply r_step with (C [] Release (Some 0) [(1,2)] [(0, Save 1 2, RUnit); (0, R, RVal (Some 2))]);
    [|apply (@st_unlock _ _ Nat.eqb (C [] Release (Some 0) [(1,2)] [(0, Save 1 2, RUnit); (0, R, RVal (Some 2))]) 0 []); auto].
  eapply r_step with (C [] (Access R) (Some 0) [(1,2)] [(0, Save 1 2, RUnit)]);
    [|apply (@st_done _ _ Nat.eqb (C [] (Access R) (Some 0) [(1,2)] [(0, Save 1 2, RUnit)]) 0 R []); auto].
  eapply r_step with (C [] (Locked R) (Some 0) [(1,2)] [(0, Save 1 2, RUnit)]);
    [|apply (@st_access _ _ Nat.eqb (C [] (Locked R) (Some 0) [(1,2)] [(0, Save 1 2, RUnit)]) 0 R []); auto].
  eapply r_step with (C [R] Idle None [(1,2)] [(0, Save 1 2, RUnit)]);
    [|apply (@st_lock _ _ Nat.eqb (C [R] Idle None [(1,2)] [(0, Save 1 2, RUnit)]) 0 R []); auto].
  eapply r_step with (C [R] Release (Some 0) [(1,2)] [(0, Save 1 2, RUnit)]);
    [|apply (@st_unlock _ _ Nat.eqb (C [R] Release (Some 0) [(1,2)] [(0, Save 1 2, RUnit)]) 0 [R]); auto].
  eapply r_step with (C [R] (Access (Save 1 2)) (Some 0) [] []);
    [|apply (@st_done _ _ Nat.eqb (C [R] (Access (Save 1 2)) (Some 0) [] []) 0 (Save 1 2) [R]); auto].
  eapply r_step with (C [R] (Locked (Save 1 2)) (Some 0) [] []);
    [|apply (@st_access _ _ Nat.eqb (C [R] (Locked (Save 1 2)) (Some 0) [] []) 0 (Save 1 2) [R]); auto].
  eapply r_step with (C [Save 1 2; R] Idle None [] []);
    [|apply (@st_lock _ _ Nat.eqb (C [Save 1 2; R] Idle None [] []) 0 (Save 1 2) [R]); auto].
  apply r_refl.
Qed.
