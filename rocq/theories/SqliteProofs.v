From Verif Require Import Base SqliteModel.
From Coq Require Import Bool List Arith Lia.
Set Implicit Arguments.

Section P.
  Variable row : Type.
  Notation stmt := (stmt row).
  Notation call := (call row).

  Lemma runs_app : forall h1 h2 (s : stmt),
    runs s (h1 ++ h2) = (fst (runs (fst (runs s h1)) h2), snd (runs s h1) ++ snd (runs (fst (runs s h1)) h2)).
  Proof.
    induction h1 as [|c h1 IH]; intros h2 s; cbn.
    - destruct (runs s h2); reflexivity.
    - destruct (exec1 s c) as [s' o]. rewrite IH. destruct (runs s' h1) as [s1 o1]. cbn.
      destruct (runs s1 h2); reflexivity.
  Qed.

  (** A statement that has just been prepared and is at its start. *)
  Definition fresh_at (s : stmt) (rows : list row) (err : bool) : Prop :=
    prepared s = true /\ valid s = true /\
    exists c, cur s = Some c /\ whole c = (rows, err) /\ rest c = Some rows.

  (** What n calls of step() must deliver: the rows, then "no more rows" (or the error),
      then an exception each time. *)
  Definition expected (rows : list row) (err : bool) (k : nat) : list (out row) :=
    firstn k (map (@ORow row) rows ++ [if err then OThrow else ODone]) ++
    repeat OThrow (k - S (length rows)).

  Definition at_rest (s : stmt) (w : list row * bool) (l : list row) : Prop :=
    prepared s = true /\ valid s = true /\ exists c, cur s = Some c /\ whole c = w /\ rest c = Some l.

  Lemma steps_invalid : forall k (s : stmt), prepared s = true -> valid s = false ->
    snd (runs s (repeat Step k)) = repeat OThrow k.
  Proof.
    induction k as [|k IH]; intros s P V; [reflexivity|]. cbn. unfold do_step at 1. rewrite P, V. cbn.
    specialize (IH s P V). destruct (runs s (repeat Step k)) as [s2 os]. cbn in *. now rewrite IH.
  Qed.

  Lemma steps_rest : forall l k s rows err, at_rest s (rows, err) l ->
    snd (runs s (repeat Step k)) =
      firstn k (map (@ORow row) l ++ [if err then OThrow else ODone]) ++ repeat OThrow (k - S (length l)).
  Proof.
    induction l as [|r l IH]; intros k s rows err (P & V & c & C & W & R);
      (destruct k as [|k]; [reflexivity|]); cbn [repeat runs exec1]; unfold do_step; rewrite P, V, C; cbn [negb];
      unfold cur_step; rewrite R; cbn.
    - rewrite W. cbn [snd]. destruct err; cbn.
      + match goal with |- context [runs ?s' (repeat Step k)] =>
          pose proof (@steps_invalid k s' eq_refl eq_refl) as H; destruct (runs s' (repeat Step k)) as [s2 os] end.
        cbn in *. rewrite firstn_nil. cbn. rewrite Nat.sub_0_r. now rewrite H.
      + match goal with |- context [runs ?s' (repeat Step k)] =>
          pose proof (@steps_invalid k s' eq_refl eq_refl) as H; destruct (runs s' (repeat Step k)) as [s2 os] end.
        cbn in *. rewrite firstn_nil. cbn. rewrite Nat.sub_0_r. now rewrite H.
    - match goal with |- context [runs ?s' (repeat Step k)] =>
        assert (H : at_rest s' (rows, err) l) by (repeat split; auto; eexists; repeat split; auto; cbn; auto);
        specialize (IH k s' rows err H); destruct (runs s' (repeat Step k)) as [s2 os] end.
      cbn in *. now rewrite IH.
  Qed.

  (** After any history, setting and preparing a query that compiles, then reset, and k steps. *)
  Lemma steps_after_prepare : forall (s : stmt) rows err k,
    snd (runs s (Set_ (Some (rows, err)) :: Prepare :: Reset :: repeat Step k)) =
      OUnit :: OUnit :: OUnit :: expected rows err k.
  Proof.
    intros s rows err k. cbn [runs exec1]. unfold do_set, do_prepare, do_reset, cur_reset. cbn.
    match goal with |- context [runs ?s' (repeat Step k)] =>
      assert (H : at_rest s' (rows, err) rows) by (repeat split; auto; eexists; repeat split; auto);
      pose proof (steps_rest k H) as E; destruct (runs s' (repeat Step k)) as [s2 os] end.
    cbn in *. now rewrite E.
  Qed.

  (** reset() brings a prepared statement back to the start, except that the first reset after a
      failed step reports that failure. *)
  Lemma reset_restarts : forall (s : stmt) rows k c,
    prepared s = true -> cur s = Some c -> whole c = (rows, false) -> failed c = false ->
    snd (runs s (Reset :: repeat Step k)) = OUnit :: expected rows false k.
  Proof.
    intros s rows k c P C W F. cbn [runs exec1]. unfold do_reset, cur_reset. rewrite C, F. cbn.
    match goal with |- context [runs ?s' (repeat Step k)] =>
      assert (H : at_rest s' (rows, false) rows)
        by (repeat split; auto; eexists; repeat split; auto; cbn; now rewrite W);
      pose proof (steps_rest k H) as E; destruct (runs s' (repeat Step k)) as [s2 os] end.
    cbn in *. now rewrite E.
  Qed.

  (** Whether the last set/exec came after the last successful prepare. *)
  Fixpoint is_prepared (b : bool) (q : query row) (h : list call) : bool :=
    match h with
    | [] => b
    | Set_ q' :: h' => is_prepared false q' h'
    | Exec q' _ :: h' => is_prepared false q' h'
    | Prepare :: h' => is_prepared (match q with Some _ => true | None => b end) q h'
    | _ :: h' => is_prepared b q h'
    end.

  Lemma prepared_hist : forall h (s : stmt),
    prepared (fst (runs s h)) = is_prepared (prepared s) (sql s) h.
  Proof.
    induction h as [|c h IH]; intro s; [reflexivity|]. cbn.
    assert (H : prepared (fst (runs (fst (exec1 s c)) h)) =
      is_prepared (prepared (fst (exec1 s c))) (sql (fst (exec1 s c))) h) by apply IH.
    destruct (exec1 s c) as [s' o] eqn:Q. cbn in H.
    assert (R : prepared (fst (let (s'', os) := runs s' h in (s'', o :: os))) = prepared (fst (runs s' h)))
      by (destruct (runs s' h); reflexivity).
    rewrite R, H. clear H R IH.
    destruct c as [q| | | |q ok]; cbn in Q.
    - injection Q as <- _. reflexivity.
    - unfold do_prepare in Q. destruct (sql s) as [w|] eqn:S; injection Q as <- _; cbn; now rewrite ?S.
    - unfold do_step in Q. destruct (prepared s) eqn:P; cbn in Q; [|injection Q as <- _; now rewrite P].
      destruct (valid s); cbn in Q; [|injection Q as <- _; now rewrite P].
      destruct (cur s) as [c|]; [|injection Q as <- _; cbn; reflexivity].
      destruct (cur_step c) as [c' []]; injection Q as <- _; cbn; reflexivity.
    - unfold do_reset in Q. destruct (cur s) as [c|]; [|injection Q as <- _; reflexivity].
      destruct (cur_reset c) as [c' []]; injection Q as <- _; reflexivity.
    - injection Q as <- _. reflexivity.
  Qed.

  Lemma unprepared_step_throws : forall h q0,
    is_prepared false q0 h = false ->
    exec1 (fst (runs (new q0) h)) Step = (fst (runs (new q0) h), OThrow).
  Proof.
    intros h q0 H. cbn. unfold do_step. rewrite prepared_hist. cbn. now rewrite H.
  Qed.

  (** ** The iterator *)
  Lemma range_for_outcome : forall rows (s : stmt) fuel, fresh_at s rows false -> 4 <= fuel ->
    range_for fuel s =
      match rows with
      | [] => ([None], Thrown)
      | [r] => ([Some r; None], Thrown)
      | r1 :: r2 :: _ => ([Some r1; Some r2], Finished)
      end.
  Proof.
    intros rows s fuel (P & V & c & C & W & R) F.
    destruct fuel as [|[|[|[|fuel]]]]; try lia.
    unfold range_for, do_step. rewrite P, V, C. cbn [negb]. unfold cur_step. rewrite R.
    destruct c as [w rs fl]. cbn in W, R. subst w rs.
    destruct rows as [|r1 [|r2 rows]]; reflexivity.
  Qed.
End P.

Lemma range_for_iff : forall row rows (s : stmt row) fuel,
  fresh_at s rows false -> 4 <= fuel ->
  (range_for fuel s = (map Some rows, Finished) <-> length rows = 2).
Proof.
  intros row rows s fuel F L. rewrite (range_for_outcome F L).
  destruct rows as [|r1 [|r2 [|r3 rows]]]; cbn; split; intro H; try discriminate; try reflexivity.
Qed.

Lemma range_for_refuted : ~ (forall (rows : list nat) (s : stmt nat) fuel, fresh_at s rows false -> 4 <= fuel ->
  range_for fuel s = (map Some rows, Finished)).
Proof.
  intro H. specialize (H [5; 6; 7] (fst (runs (new None) [Set_ (Some ([5; 6; 7], false)); Prepare])) 4).
  assert (F : fresh_at (fst (runs (new None) [Set_ (Some ([5; 6; 7], false)); Prepare])) [5; 6; 7] false).
  { repeat split. eexists. repeat split. }
  specialize (H F (le_n 4)). vm_compute in H. discriminate.
Qed.
