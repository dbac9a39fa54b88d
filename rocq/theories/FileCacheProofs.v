(** Proofs about the on-disk matrix cache. *)
From Verif Require Import Base FileCacheModel.
From Coq Require Import ZArith Lia Bool List Arith.
Import ListNotations.
Set Implicit Arguments.

Section S.
Variable A : Type.
Lemma set_nth_same : forall (l : list A) i x y, nth_error l i = Some y -> nth_error (set_nth l i x) i = Some x.
Proof. induction l as [|a l IH]; intros [|i] x y H; try discriminate; cbn; eauto. Qed.
Lemma set_nth_other : forall (l : list A) i j x, i <> j -> nth_error (set_nth l i x) j = nth_error l j.
Proof. induction l as [|a l IH]; intros [|i] [|j] x H; cbn; auto; try lia. Qed.
Lemma set_nth_map : forall B (f : A -> B) l i x y, nth_error l i = Some y -> f x = f y -> map f (set_nth l i x) = map f l.
Proof. induction l as [|a l IH]; intros [|i] x y H E; try discriminate; cbn in *. { injection H as ->. rewrite E. reflexivity. } erewrite IH; eauto. Qed.
Lemma set_nth_len : forall (l : list A) i x, length (set_nth l i x) = length l.
Proof. induction l as [|a l IH]; intros [|i] x; cbn; auto. Qed.
Lemma nodup_map_in : forall B (f : A -> B) l i j x y, NoDup (map f l) -> nth_error l i = Some x -> nth_error l j = Some y -> f x = f y -> i = j.
Proof.
  intros B f l i j x y N Hi Hj E. rewrite NoDup_nth_error in N. apply N.
  - apply nth_error_Some. rewrite nth_error_map, Hi. discriminate.
  - rewrite !nth_error_map, Hi, Hj. cbn. congruence.
Qed.
Lemma nodup_map_inj : forall B (f : A -> B) l x y, NoDup (map f l) -> In x l -> In y l -> f x = f y -> x = y.
Proof.
  intros B f l x y N Hx Hy E. apply In_nth_error in Hx. apply In_nth_error in Hy. destruct Hx as [i Hi], Hy as [j Hj].
  pose proof (nodup_map_in f l i j N Hi Hj E). subst. congruence.
Qed.
Lemma nodup_app_l : forall (l l' : list A), NoDup (l ++ l') -> NoDup l.
Proof. induction l as [|a l IH]; intros l' N; constructor; inversion N; subst; rewrite ?in_app_iff in *; eauto. Qed.
Lemma firstn_S : forall (l : list A) k, k < length l -> exists x, nth_error l k = Some x.
Proof. intros l k H. destruct (nth_error l k) eqn:E; eauto. apply nth_error_None in E. lia. Qed.
End S.

Section P.
Variables P C M : Type.
Variable fmt : P -> C.
Variable ceqb : C -> C -> bool.
Variable calc : P -> M.
Variable enc : M -> list Z.
Variable dec : list Z -> option M.
Variable jtext : C -> list Z.
Variable jread : list Z -> option C.
Variable early : bool.
Hypothesis ceqb_spec : forall a b, ceqb a b = true <-> a = b.

Notation thread := (thread P M). Notation world := (world P C M). Notation disk := (disk C).
Notation act := (act fmt ceqb calc enc dec jtext jread early).
Notation step := (step fmt ceqb calc enc dec jtext jread early).
Notation run := (run fmt ceqb calc enc dec jtext jread early).

Definition has (d : disk) (u : uuid) (c : C) : Prop := exists rows, table d = Some rows /\ In (u, c) rows.

Variable ok : P -> Prop.  (** parameters whose matrix can be stored and whose configuration survives JSON *)
Hypothesis ok_dec : forall p, ok p -> dec (enc (calc p)) = Some (calc p).
Hypothesis ok_cut : forall p k, ok p -> k < length (enc (calc p)) -> dec (firstn k (enc (calc p))) = None.
Hypothesis ok_json : forall p, ok p -> jread (jtext (fmt p)) = Some (fmt p).

(** what is true of a thread with parameters [p] at a program point; [H]: all parameters used so far *)
Definition loc (H : list P) (used : list uuid) (d : disk) (p : P) (c : pc M) : Prop :=
  match c with
  | AtFlag => True
  | AtClear _ created => if created then early = false /\ table d <> None else early = true
  | AtCreate _ cleared => cleared = early
  | AtSelect _ => early = false -> table d <> None
  | AtUpdate _ u => has d u (fmt p)
  | AtInsert _ u => table d <> None /\ In u used /\ (forall c, ~ has d u c) /\ (forall v, ~ has d v (fmt p))
  | AtMat _ u => has d u (fmt p)
  | AtJson _ u => has d u (fmt p) /\ mat d u <> None
  | AtRead _ u => has d u (fmt p) /\ mat d u <> None
  | AtOpenJson _ u => has d u (fmt p) /\ mat d u = None
  | AtWriteJson _ u k => has d u (fmt p) /\ mat d u = None /\ json d u = Some (firstn k (jtext (fmt p))) /\ k <= length (jtext (fmt p))
  | AtLoad _ u => has d u (fmt p) /\ json d u = Some (jtext (fmt p))
  | AtOpenMat _ u => has d u (fmt p) /\ json d u = Some (jtext (fmt p))
  | AtWriteMat _ u k => has d u (fmt p) /\ json d u = Some (jtext (fmt p)) /\ mat d u = Some (firstn k (enc (calc p))) /\ k <= length (enc (calc p))
  | Done m => exists q, In q H /\ fmt q = fmt p /\ m = calc q
  | Failed r => early = true /\ r = NoTable
  end.

Definition pending (t : thread) : option uuid := match at_ t with AtInsert _ u => Some u | _ => None end.

Record Inv (H : list P) (used : list uuid) (w : world) : Prop := {
  i_rows : forall rows, table (dsk w) = Some rows -> NoDup (map fst rows) /\ NoDup (map snd rows);
  i_used : forall u c, has (dsk w) u c -> In u used /\ exists p, In p H /\ fmt p = c;
  i_mat : forall u bs, mat (dsk w) u = Some bs -> exists p k, In p H /\ has (dsk w) u (fmt p) /\
            json (dsk w) u = Some (jtext (fmt p)) /\ bs = firstn k (enc (calc p));
  i_json : forall u bs, json (dsk w) u = Some bs -> exists c, has (dsk w) u c;
  i_confs : NoDup (map (fun t => fmt (par t)) (team w));
  i_pend : forall i j ti tj u, nth_error (team w) i = Some ti -> nth_error (team w) j = Some tj ->
             pending ti = Some u -> pending tj = Some u -> i = j;
  i_loc : forall i t, nth_error (team w) i = Some t -> In (par t) H /\ loc H used (dsk w) (par t) (at_ t);
  i_flag : early = false -> flag w = false -> table (dsk w) <> None;
  i_ok : forall p, In p H -> ok p
}.

Lemma has_fun : forall d u c c', (forall rows, table d = Some rows -> NoDup (map fst rows) /\ NoDup (map snd rows)) ->
  has d u c -> has d u c' -> c = c'.
Proof.
  intros d u c c' N (r & T & I) (r' & T' & I'). rewrite T in T'. injection T' as <-. destruct (N _ T) as [N1 _].
  pose proof (nodup_map_inj fst r (u, c) (u, c') N1 I I' eq_refl) as E. congruence.
Qed.
Lemma has_inj : forall d u v c, (forall rows, table d = Some rows -> NoDup (map fst rows) /\ NoDup (map snd rows)) ->
  has d u c -> has d v c -> u = v.
Proof.
  intros d u v c N (r & T & I) (r' & T' & I'). rewrite T in T'. injection T' as <-. destruct (N _ T) as [_ N1].
  pose proof (nodup_map_inj snd r (u, c) (v, c) N1 I I' eq_refl) as E. congruence.
Qed.
Lemma has_table : forall d u c, has d u c -> table d <> None.
Proof. intros d u c (r & T & _). congruence. Qed.

(** Facts about a thread survive what another thread does. *)
Lemma loc_same_files : forall H H' used used' d d' p c,
  loc H used d p c -> (forall u c, has d u c -> has d' u c) -> (table d <> None -> table d' <> None) ->
  (forall u, json d' u = json d u) -> (forall u, mat d' u = mat d u) -> incl H H' -> incl used used' ->
  (forall u, c = AtInsert _ u -> (forall c, ~ has d' u c) /\ (forall v, ~ has d' v (fmt p))) ->
  loc H' used' d' p c.
Proof.
  intros H H' used used' d d' p c L X1 X2 X3 X4 X5 X6 X7. destruct c; cbn in *; rewrite ?X3, ?X4; try tauto; auto.
  - destruct created; tauto.
  - destruct L as (L1 & L2 & _). destruct (X7 u eq_refl). auto.
  - destruct L; auto.
  - destruct L; auto.
  - destruct L; auto.
  - destruct L; auto.
  - destruct L; auto.
  - destruct L; auto.
  - destruct L as (? & ? & ? & ?); auto.
  - destruct L as (q & ? & ? & ?); eauto.
Qed.
Lemma loc_other_file : forall H used d d' p c v q,
  loc H used d p c -> (forall rows, table d = Some rows -> NoDup (map fst rows) /\ NoDup (map snd rows)) ->
  table d' = table d -> (forall u, u <> v -> json d' u = json d u) -> (forall u, u <> v -> mat d' u = mat d u) ->
  has d v q -> q <> fmt p -> loc H used d' p c.
Proof.
  intros H used d d' p c v q L N T J Mt Hv Hq.
  assert (Hh : forall u c, has d' u c <-> has d u c) by (intros; unfold has; rewrite T; tauto).
  assert (Hn : forall u, has d u (fmt p) -> u <> v). { intros u Hu ->. apply Hq. eapply has_fun; eauto. }
  destruct c; cbn in *; rewrite ?T; rewrite ?Hh; auto.
  all: try (destruct L as (L1 & L2); rewrite ?(J _ (Hn _ L1)), ?(Mt _ (Hn _ L1)); auto; fail).
  - destruct L as (L1 & L2 & L3 & L4). repeat split; auto; intros x; rewrite Hh; auto.
Qed.

Lemma clash_false : forall rows u c, (forall c', ~ In (u, c') rows) -> (forall v, ~ In (v, c) rows) -> clash ceqb rows u c = false.
Proof.
  intros rows u c A B. destruct (clash ceqb rows u c) eqn:E; auto. unfold clash in E. apply existsb_exists in E. destruct E as ([v c'] & I & E).
  cbn in E. apply orb_true_iff in E. destruct E as [E|E].
  - apply Nat.eqb_eq in E. subst. elim (A _ I).
  - apply ceqb_spec in E. subst. elim (B _ I).
Qed.
Lemma findc_some : forall rows c u, find_conf ceqb rows c = Some u -> In (u, c) rows.
Proof.
  intros rows c u. unfold find_conf. destruct (find (fun r => ceqb (snd r) c) rows) as [[v c']|] eqn:E; [|discriminate]. intros [= <-].
  apply find_some in E. destruct E as [I E]. cbn in E. apply ceqb_spec in E. subst. exact I.
Qed.
Lemma findc_none : forall rows c v, find_conf ceqb rows c = None -> ~ In (v, c) rows.
Proof.
  intros rows c v. unfold find_conf. destruct (find (fun r => ceqb (snd r) c) rows) as [[w c']|] eqn:E; [discriminate|]. intros _ I.
  apply (find_none _ _ E) in I. cbn in I. assert (ceqb c c = true) by (apply ceqb_spec; reflexivity). congruence.
Qed.

(** The two general ways in which the world changes. *)
Section Step.
Variables (H : list P) (used : list uuid) (w : world) (i : nat) (t : thread) (fresh : uuid).
Hypothesis I : Inv H used w.
Hypothesis T : nth_error (team w) i = Some t.
Hypothesis Fr : ~ In fresh used.

Notation d := (dsk w).

(** Only the thread's position and maybe the flag change. *)
Lemma inv_move : forall fl c', loc H (fresh :: used) d (par t) c' -> (early = false -> fl = false -> table d <> None) ->
  (forall u, c' = AtInsert _ u -> u = fresh) ->
  Inv H (fresh :: used) (World d fl (set_nth (team w) i (Thread (par t) c'))).
Proof.
  intros fl c' L Fl Pe. split; cbn [dsk flag team]; try (apply I; fail).
  - intros u c Hh. destruct (i_used I Hh). split; auto. right; auto.
  - rewrite (set_nth_map (fun t => fmt (par t)) _ _ _ T) by reflexivity. apply (i_confs I).
  - intros a b ta tb u Ha Hb Pa Pb. destruct (Nat.eq_dec i a) as [<-|Na], (Nat.eq_dec i b) as [<-|Nb]; auto.
    + rewrite (set_nth_same _ _ _ T) in Ha. injection Ha as <-. rewrite set_nth_other in Hb by auto. unfold pending in Pa. cbn in Pa.
      destruct c'; try discriminate. injection Pa as ->. pose proof (Pe u eq_refl). subst u. elim Fr.
      destruct (i_loc I _ Hb) as [_ Lb]. unfold pending in Pb. destruct (at_ tb); try discriminate. injection Pb as ->. apply Lb.
    + rewrite (set_nth_same _ _ _ T) in Hb. injection Hb as <-. rewrite set_nth_other in Ha by auto. unfold pending in Pb. cbn in Pb.
      destruct c'; try discriminate. injection Pb as ->. pose proof (Pe u eq_refl). subst u. elim Fr.
      destruct (i_loc I _ Ha) as [_ La]. unfold pending in Pa. destruct (at_ ta); try discriminate. injection Pa as ->. apply La.
    + rewrite set_nth_other in Ha, Hb by auto. eapply (i_pend I); eauto.
  - intros a ta Ha. destruct (Nat.eq_dec i a) as [<-|Na].
    + rewrite (set_nth_same _ _ _ T) in Ha. injection Ha as <-. cbn. split; auto. apply (i_loc I _ T).
    + rewrite set_nth_other in Ha by auto. destruct (i_loc I _ Ha) as [Hp L']. split; auto.
      apply (loc_same_files (H := H) (used := used) (d := d)); auto. { intros x; auto. } { intros x; right; auto. }
      intros u E. rewrite E in L'. cbn in L'. tauto.
  - exact Fl.
Qed.

(** The thread changes its own files. *)
Lemma inv_files : forall u js ms c', has d u (fmt (par t)) ->
  (forall v, v <> u -> js v = json d v) -> (forall v, v <> u -> ms v = mat d v) ->
  loc H (fresh :: used) (Disk (table d) js ms) (par t) c' ->
  (forall bs, ms u = Some bs -> js u = Some (jtext (fmt (par t))) /\ exists k, bs = firstn k (enc (calc (par t)))) ->
  (forall v, c' <> AtInsert _ v) ->
  Inv H (fresh :: used) (World (Disk (table d) js ms) (flag w) (set_nth (team w) i (Thread (par t) c'))).
Proof.
  intros u js ms c' Hu J Ms L Mu Pe.
  assert (Hh : forall u c, has (Disk (table d) js ms) u c <-> has d u c) by (intros; unfold has; cbn; tauto).
  split; cbn [dsk flag team table json mat]; try (apply I; fail).
  - intros v c Hv. rewrite Hh in Hv. destruct (i_used I Hv). split; auto. right; auto.
  - intros v bs E. destruct (Nat.eq_dec v u) as [->|Nv].
    + destruct (Mu _ E) as (J' & k & ->). exists (par t), k. rewrite Hh. destruct (i_loc I _ T). auto.
    + rewrite Ms in E by auto. destruct (i_mat I _ E) as (p & k & ? & ? & ? & ?). exists p, k. rewrite Hh, J by auto. auto.
  - intros v bs E. destruct (Nat.eq_dec v u) as [->|Nv]. { exists (fmt (par t)). rewrite Hh. auto. }
    rewrite J in E by auto. destruct (i_json I _ E) as (c & Hc). exists c. rewrite Hh. auto.
  - rewrite (set_nth_map (fun t => fmt (par t)) _ _ _ T) by reflexivity. apply (i_confs I).
  - intros a b ta tb v Ha Hb Pa Pb. destruct (Nat.eq_dec i a) as [<-|Na], (Nat.eq_dec i b) as [<-|Nb]; auto.
    + rewrite (set_nth_same _ _ _ T) in Ha. injection Ha as <-. unfold pending in Pa. cbn in Pa.
      destruct c'; try discriminate. elim (Pe u0 eq_refl).
    + rewrite (set_nth_same _ _ _ T) in Hb. injection Hb as <-. unfold pending in Pb. cbn in Pb.
      destruct c'; try discriminate. elim (Pe u0 eq_refl).
    + rewrite set_nth_other in Ha, Hb by auto. eapply (i_pend I); eauto.
  - intros a ta Ha. destruct (Nat.eq_dec i a) as [<-|Na].
    + rewrite (set_nth_same _ _ _ T) in Ha. injection Ha as <-. cbn. split; auto. apply (i_loc I _ T).
    + rewrite set_nth_other in Ha by auto. destruct (i_loc I _ Ha) as [Hp L']. split; auto.
      apply (@loc_other_file H (fresh :: used) d (Disk (table d) js ms) (par ta) (at_ ta) u (fmt (par t))); cbn; auto.
      * apply (loc_same_files (H := H) (used := used) (d := d)); auto. { intros x; auto. } { intros x; right; auto. }
        intros x E. rewrite E in L'. cbn in L'. tauto.
      * apply (i_rows I).
      * intros E. apply Na. eapply (nodup_map_in (fun t => fmt (par t))); eauto. apply (i_confs I).
Qed.

Lemma loc_used : forall c, loc H used d (par t) c -> loc H (fresh :: used) d (par t) c.
Proof.
  intros c L. apply (loc_same_files (H := H) (used := used) (d := d)); auto. { intros x; auto. } { intros x; right; auto. }
  intros x E. rewrite E in L. cbn in L. tauto.
Qed.

End Step.

Lemma upd_same : forall A (f : uuid -> option A) u x, upd f u x u = Some x.
Proof. intros. unfold upd. rewrite Nat.eqb_refl. reflexivity. Qed.
Lemma upd_other : forall A (f : uuid -> option A) u x v, v <> u -> upd f u x v = f v.
Proof. intros. unfold upd. destruct (Nat.eqb_spec v u); congruence. Qed.

Lemma inv_act : forall H used w i p c fresh, Inv H used w -> nth_error (team w) i = Some (Thread p c) -> ~ In fresh used ->
  Inv H (fresh :: used) (step w (Run i fresh)).
Proof.
  intros H used w i p c fresh I T Fr. 
  cbn [step FileCacheModel.step]. rewrite T. destruct (i_loc I _ T) as [Hp L]. pose proof (i_ok I _ Hp) as Op.
  cbn [par at_] in *. destruct c; cbn [act FileCacheModel.act].
  - (* AtFlag *) destruct (flag w) eqn:Ef.
    + apply (inv_move i I T Fr (fl := true)); [|discriminate|destruct early; discriminate].
      destruct early eqn:Ee; cbn; auto.
    + apply (inv_move i I T Fr (fl := false)); [|intros; apply (i_flag I); auto|discriminate]. cbn. intros. apply (i_flag I); auto.
  - (* AtClear *) apply (inv_move i I T Fr (fl := false)); cbn in L.
    + destruct created; cbn; [|destruct L; auto]. intro. destruct L; auto.
    + intros E _. destruct created; [apply L|congruence].
    + destruct created; discriminate.
  - (* AtCreate *) 
    set (d' := Disk (match table (dsk w) with None => Some [] | t => t end) (json (dsk w)) (mat (dsk w))).
    assert (H1 : forall u c, has d' u c <-> has (dsk w) u c).
    { intros. unfold has, d'. cbn. destruct (table (dsk w)) eqn:Et; [tauto|]. split; intros (r & E & X); [injection E as <-; elim X|discriminate]. }
    assert (T' : table d' <> None) by (unfold d'; cbn; destruct (table (dsk w)); discriminate).
    split; cbn [dsk flag team].
    + intros rows E. unfold d' in E. cbn in E. destruct (table (dsk w)) eqn:E2. { apply (i_rows I). congruence. } injection E as <-. split; constructor.
    + intros u c0 Hh. rewrite H1 in Hh. destruct (i_used I Hh). split; auto. right; auto.
    + intros u bs E. destruct (i_mat I _ E) as (q & k & ? & ? & ? & ?). exists q, k. rewrite H1. auto.
    + intros u bs E. destruct (i_json I _ E) as (c0 & Hc). exists c0. rewrite H1. auto.
    + rewrite (set_nth_map (fun t => fmt (par t)) _ _ _ T) by reflexivity. apply (i_confs I).
    + intros a b ta tb v Ha Hb Pa Pb. destruct (Nat.eq_dec i a) as [<-|Na], (Nat.eq_dec i b) as [<-|Nb]; auto.
      * rewrite (set_nth_same _ _ _ T) in Ha. injection Ha as <-. destruct cleared; discriminate.
      * rewrite (set_nth_same _ _ _ T) in Hb. injection Hb as <-. destruct cleared; discriminate.
      * rewrite set_nth_other in Ha, Hb by auto. eapply (i_pend I); eauto.
    + intros a ta Ha. destruct (Nat.eq_dec i a) as [<-|Na].
      * rewrite (set_nth_same _ _ _ T) in Ha. injection Ha as <-. cbn. split; auto. cbn in L. subst cleared. case_eq early; intro Ee; cbn; auto.
      * rewrite set_nth_other in Ha by auto. destruct (i_loc I _ Ha) as [Hq L']. split; auto.
        apply (loc_same_files (H := H) (used := used) (d := dsk w)); auto. { intros u c0. rewrite H1. auto. } { intros x; auto. } { intros x; right; auto. }
        intros u E. rewrite E in L'. cbn in L'. destruct L' as (_ & _ & L1 & L2). split; intros x; rewrite H1; auto.
    + auto.
    + apply (i_ok I).
  - (* AtSelect *) destruct (table (dsk w)) as [rows|] eqn:Et'.
    + destruct (find_conf ceqb rows (fmt p)) as [u|] eqn:Ef.
      * apply (inv_move i I T Fr (fl := flag w)); [|intros; congruence|discriminate]. cbn. exists rows. split; auto. apply findc_some. auto.
      * apply (inv_move i I T Fr (fl := flag w)); [|intros; congruence|intros u [= <-]; reflexivity]. cbn. repeat split; try congruence; auto.
        -- intros c Hh. destruct (i_used I Hh) as [X _]. auto.
        -- intros v (r & E & X). rewrite E in Et'. injection Et' as ->. eapply findc_none; eauto.
    + apply (inv_move i I T Fr (fl := flag w)); [|intros E1 E2; apply (i_flag I); auto|discriminate]. cbn in *. destruct early; auto. elim (L eq_refl Et').
  - (* AtUpdate *) cbn in L. destruct (table (dsk w)) as [rows|] eqn:Et'. 2:{ elim (has_table L Et'). }
    apply (inv_move i I T Fr (fl := flag w)); [auto|intros; congruence|discriminate].
  - (* AtInsert *) cbn in L. destruct L as (L1 & L2 & L3 & L4). destruct (table (dsk w)) as [rows|] eqn:Et'; [|congruence]. 
    rewrite clash_false. 2:{ intros c X. apply (L3 c). exists rows. auto. } 2:{ intros v X. apply (L4 v). exists rows. auto. }
    set (d' := Disk (Some (rows ++ [(u, fmt p)])) (json (dsk w)) (mat (dsk w))).
    assert (H1 : forall v c, has d' v c <-> has (dsk w) v c \/ (v = u /\ c = fmt p)).
    { intros v c. unfold has, d'. cbn. split.
      - intros (r & [= <-] & X). apply in_app_iff in X. destruct X as [X|[X|[]]]; [left; eauto|right]. injection X as <- <-. auto.
      - intros [(r & E & X)|[-> ->]]; eexists; (split; [reflexivity|]); apply in_app_iff; [left|right; left; auto]. congruence. }
    split; cbn [dsk flag team].
    + intros r E. cbn in E. injection E as <-. destruct (i_rows I Et') as [N1 N2]. rewrite !map_app. cbn [map fst snd].
      split.
      * apply (NoDup_Add (a := u) (l := map fst rows)). { rewrite <- (app_nil_r (map fst rows)) at 1. apply Add_app. } split; auto.
        intros X. apply in_map_iff in X. destruct X as ([v c] & E & X). cbn in E. subst v. apply (L3 c). exists rows; auto.
      * apply (NoDup_Add (a := fmt p) (l := map snd rows)). { rewrite <- (app_nil_r (map snd rows)) at 1. apply Add_app. } split; auto.
        intros X. apply in_map_iff in X. destruct X as ([v c] & E & X). cbn in E. subst c. apply (L4 v). exists rows; auto.
    + intros v c Hh. rewrite H1 in Hh. destruct Hh as [Hh|[-> ->]]. { destruct (i_used I Hh). split; auto. right; auto. }
      split; [right; auto|]. exists p. auto.
    + intros v bs E. destruct (i_mat I _ E) as (q & k & ? & ? & ? & ?). exists q, k. rewrite H1. auto.
    + intros v bs E. destruct (i_json I _ E) as (c0 & Hc). exists c0. rewrite H1. auto.
    + rewrite (set_nth_map (fun t => fmt (par t)) _ _ _ T) by reflexivity. apply (i_confs I).
    + intros a b ta tb v Ha Hb Pa Pb. destruct (Nat.eq_dec i a) as [<-|Na], (Nat.eq_dec i b) as [<-|Nb]; auto.
      * rewrite (set_nth_same _ _ _ T) in Ha. injection Ha as <-. discriminate.
      * rewrite (set_nth_same _ _ _ T) in Hb. injection Hb as <-. discriminate.
      * rewrite set_nth_other in Ha, Hb by auto. eapply (i_pend I); eauto.
    + intros a ta Ha. destruct (Nat.eq_dec i a) as [<-|Na].
      * rewrite (set_nth_same _ _ _ T) in Ha. injection Ha as <-. cbn. split; auto. rewrite H1. auto.
      * rewrite set_nth_other in Ha by auto. destruct (i_loc I _ Ha) as [Hq L']. split; auto.
        apply (loc_same_files (H := H) (used := used) (d := dsk w)); auto. { intros v c0 X. rewrite H1. auto. } { discriminate. } { intros x; auto. } { intros x; right; auto. }
        intros v E. rewrite E in L'. cbn in L'. destruct L' as (_ & _ & M1 & M2).
        assert (Nv : v <> u). { intros ->. apply Na. refine (i_pend I _ _ T Ha (u := u) eq_refl _). unfold pending. rewrite E. reflexivity. }
        assert (Nc : fmt (par ta) <> fmt p).
        { intros X. apply Na. eapply (nodup_map_in (fun t => fmt (par t)) (team w)); eauto. apply (i_confs I). }
        split; intros x; rewrite H1; intros [X|[X1 X2]]; try (now apply (M1 _ X)); try (now apply (M2 _ X)); auto.
    + discriminate.
    + apply (i_ok I).
  - (* AtMat *) cbn in L. apply (inv_move i I T Fr (fl := flag w)); [|intros; apply (has_table L)|destruct (mat (dsk w) u); discriminate].
    destruct (mat (dsk w) u) eqn:E; cbn; rewrite ?E; repeat split; auto; discriminate.
  - (* AtJson *) cbn in L. destruct L as [L1 L2]. destruct (mat (dsk w) u) as [bs|] eqn:E; [|congruence].
    destruct (i_mat I _ E) as (q & k & Q1 & Q2 & Q3 & Q4). rewrite Q3.
    apply (inv_move i I T Fr (fl := flag w)); [|intros; apply (has_table L1)|discriminate]. cbn. rewrite E. split; auto; discriminate.
  - (* AtRead *) cbn in L. destruct L as [L1 L2]. destruct (mat (dsk w) u) as [bs|] eqn:E; [|congruence].
    destruct (i_mat I _ E) as (q & k & Q1 & Q2 & Q3 & Q4). rewrite Q3. pose proof (has_fun (i_rows I) Q2 L1) as Qe.
    rewrite Qe, (ok_json Op). replace (ceqb (fmt p) (fmt p)) with true by (symmetry; apply ceqb_spec; reflexivity).
    apply (inv_move i I T Fr (fl := flag w)); [|intros; apply (has_table L1)|discriminate]. cbn. rewrite Q3, Qe. auto.
  - (* AtOpenJson *) cbn in L. destruct L as [L1 L2]. 
    apply (@inv_files H used w i _ fresh I T u (upd (json (dsk w)) u []) (mat (dsk w)) (AtWriteJson M u 0)); auto; try discriminate.
    + intros v Hv. apply upd_other; auto.
    + cbn. rewrite upd_same. unfold has. cbn. repeat split; auto. lia.
    + cbn [par]. rewrite L2. discriminate.
  - (* AtWriteJson *) cbn in L. destruct L as (L1 & L2 & L3 & L4). destruct (nth_error (jtext (fmt p)) k) eqn:E.
    + apply (@inv_files H used w i _ fresh I T u (upd (json (dsk w)) u (firstn (S k) (jtext (fmt p)))) (mat (dsk w)) (AtWriteJson M u (S k))); auto; try discriminate.
      * intros v Hv. apply upd_other; auto.
      * cbn [loc par]. unfold has. cbn [json mat table]. rewrite upd_same. repeat split; auto. 
        assert (k < length (jtext (fmt p))) by (apply nth_error_Some; congruence). lia.
      * cbn [par]. rewrite L2. discriminate.
    + apply (inv_move i I T Fr (fl := flag w)); [|intros; apply (has_table L1)|discriminate]. cbn. split; auto. rewrite L3. f_equal.
      apply nth_error_None in E. apply firstn_all2. lia.
  - (* AtLoad *) cbn in L. destruct L as [L1 L2]. destruct (mat (dsk w) u) as [bs|] eqn:E.
    + destruct (i_mat I _ E) as (q & k & Q1 & Q2 & Q3 & Q4). pose proof (has_fun (i_rows I) Q2 L1) as Qe. pose proof (i_ok I _ Q1) as Oq.
      destruct (Nat.lt_ge_cases k (length (enc (calc q)))) as [Hk|Hk].
      * rewrite Q4, (ok_cut Oq Hk). apply (inv_move i I T Fr (fl := flag w)); [|intros; apply (has_table L1)|discriminate]. cbn. auto.
      * rewrite firstn_all2 in Q4 by lia. rewrite Q4, (ok_dec Oq). 
        apply (inv_move i I T Fr (fl := flag w)); [|intros; apply (has_table L1)|discriminate]. cbn. eauto.
    + apply (inv_move i I T Fr (fl := flag w)); [|intros; apply (has_table L1)|discriminate]. cbn. auto.
  - (* AtOpenMat *) cbn in L. destruct L as [L1 L2]. 
    apply (@inv_files H used w i _ fresh I T u (json (dsk w)) (upd (mat (dsk w)) u []) (AtWriteMat M u 0)); auto; try discriminate.
    + intros v Hv. apply upd_other; auto.
    + cbn. rewrite upd_same. unfold has. cbn. repeat split; auto. lia.
    + cbn [par]. rewrite upd_same. intros bs [= <-]. split; auto. exists 0. reflexivity.
  - (* AtWriteMat *) cbn in L. destruct L as (L1 & L2 & L3 & L4). destruct (nth_error (enc (calc p)) k) eqn:E.
    + apply (@inv_files H used w i _ fresh I T u (json (dsk w)) (upd (mat (dsk w)) u (firstn (S k) (enc (calc p)))) (AtWriteMat M u (S k))); auto; try discriminate.
      * intros v Hv. apply upd_other; auto.
      * cbn [loc par]. unfold has. cbn [json mat table]. rewrite upd_same. repeat split; auto. 
        assert (k < length (enc (calc p))) by (apply nth_error_Some; congruence). lia.
      * cbn [par]. rewrite upd_same. intros bs Eb. split; auto. exists (S k).
        apply (f_equal (fun o => match o with Some x => x | None => [] end)) in Eb. cbv beta iota in Eb. auto.
    + apply (inv_move i I T Fr (fl := flag w)); [|intros; apply (has_table L1)|discriminate]. cbn. exists p. auto.
  - (* Done *) apply (inv_move i I T Fr (fl := flag w)); [|intros E1 E2; apply (i_flag I); auto|discriminate]. exact L.
  - (* Failed *) apply (inv_move i I T Fr (fl := flag w)); [|intros E1 E2; apply (i_flag I); auto|discriminate]. exact L.
Qed.

(** Histories *)
Definition params_of (e : event P) : list P := match e with Restart ps => ps | Run _ _ => [] end.
Definition draws_of (e : event P) : list uuid := match e with Restart _ => [] | Run _ u => [u] end.
Definition params (es : list (event P)) : list P := concat (map params_of es).
Definition draws (es : list (event P)) : list uuid := concat (map draws_of es).
(** uuids are never drawn twice; a process never works on the same configuration in two threads *)
Definition good (es : list (event P)) : Prop :=
  NoDup (draws es) /\ (forall ps, In (Restart ps) es -> NoDup (map fmt ps)).

Lemma Inv_used : forall H used used' w, Inv H used w -> (forall u, In u used <-> In u used') -> Inv H used' w.
Proof.
  intros H used used' w I E. split; try apply I.
  - intros u c Hh. destruct (i_used I Hh). split; auto. apply E; auto.
  - intros i t T. destruct (i_loc I _ T) as [Hp L]. split; auto. destruct (at_ t); cbn in *; auto. rewrite <- E. auto.
Qed.

Lemma Inv_hist : forall H H' used w, Inv H used w -> (forall p, In p H <-> In p H') -> Inv H' used w.
Proof.
  intros H H' used w I E. split; try apply I.
  - intros u c Hh. destruct (i_used I Hh) as (? & p & ? & ?). split; auto. exists p. split; auto. apply E; auto.
  - intros u bs X. destruct (i_mat I _ X) as (p & k & ? & ?). exists p, k. split; auto. apply E; auto.
  - intros i t T. destruct (i_loc I _ T) as [Hp L]. split. { apply E; auto. }
    destruct (at_ t); cbn in *; auto. destruct L as (q & ? & ?). exists q. split; auto. apply E; auto.
  - intros p Hp. apply (i_ok I). apply E. auto.
Qed.

Lemma run_snoc : forall es e, run (es ++ [e]) = step (run es) e.
Proof. intros. unfold run, FileCacheModel.run. rewrite fold_left_app. reflexivity. Qed.

Lemma inv_run : forall es, good es -> (forall p, In p (params es) -> ok p) -> Inv (params es) (draws es) (run es).
Proof.
  induction es as [|e es IH] using rev_ind; intros [G1 G2] O.
  - split; cbn; try discriminate; try (intros; tauto).
    + intros u c (r & X & _). discriminate.
    + constructor.
    + intros [|]; discriminate.
    + intros [|]; discriminate.
  - unfold params, draws in *. rewrite !map_app, !concat_app in *. cbn [map concat] in *. rewrite !app_nil_r in *.
    assert (I : Inv (concat (map params_of es)) (concat (map draws_of es)) (run es)).
    { apply IH. 2:{ intros p Hp. apply O. apply in_app_iff. auto. } split.
      - apply (nodup_app_l _ _ G1).
      - intros ps Hp. apply G2. apply in_app_iff. auto. }
    rewrite run_snoc. destruct e as [i u|ps]; cbn [params_of draws_of] in *; rewrite ?app_nil_r in *.
    + assert (Fr : ~ In u (concat (map draws_of es))).
      { intro X. apply NoDup_remove_2 in G1. apply G1. rewrite app_nil_r. exact X. }
      apply Inv_used with (used := u :: concat (map draws_of es)). 2:{ intro v. rewrite in_app_iff. cbn. tauto. }
      destruct (nth_error (team (run es)) i) as [[p c]|] eqn:T.
      * eapply inv_act; eauto.
      * cbn [step FileCacheModel.step]. rewrite T. split; try apply I.
        -- intros v c Hh. destruct (i_used I Hh). split; auto. right; auto.
        -- intros j t Tj. destruct (i_loc I _ Tj) as [Hp L]. split; auto.
           apply (loc_same_files (H := concat (map params_of es)) (used := concat (map draws_of es)) (d := dsk (run es))); auto. { intros x; auto. } { intros x; right; auto. }
           intros x E. rewrite E in L. cbn in L. tauto.
    + assert (St : forall i t, nth_error (start M ps) i = Some t -> at_ t = AtFlag /\ In (par t) ps).
      { intros i t X. unfold start in X. apply nth_error_In in X. apply in_map_iff in X. destruct X as (p & <- & X). auto. }
      split; cbn [dsk flag team step FileCacheModel.step].
      * apply (i_rows I).
      * intros u c Hh. destruct (i_used I Hh) as (? & p & ? & ?). split; auto. exists p. rewrite in_app_iff. auto.
      * intros u bs X. destruct (i_mat I _ X) as (p & k & ? & ?). exists p, k. rewrite in_app_iff. auto.
      * apply (i_json I).
      * unfold start. rewrite map_map. cbn. apply (G2 ps). apply in_app_iff. right; left; auto.
      * intros i j ti tj u Ti _ X. destruct (St _ _ Ti) as [E _]. unfold pending in X. rewrite E in X. discriminate.
      * intros i t Ti. destruct (St _ _ Ti) as [E Hp]. rewrite E, in_app_iff. cbn. auto.
      * discriminate.
      * exact O.
Qed.

(** Every thread finishes after finitely many of its own actions, whatever the others do. *)
Definition rank (p : P) (c : pc M) : nat :=
  let E := length (enc (calc p)) in let J := length (jtext (fmt p)) in
  match c with
  | Done _ | Failed _ => 0
  | AtWriteMat _ _ k => 1 + (E - k)
  | AtOpenMat _ _ => 2 + E
  | AtLoad _ _ => 3 + E
  | AtWriteJson _ _ k => 3 + E + (J - k)
  | AtOpenJson _ _ => 4 + E + J
  | AtRead _ _ => 5 + E + J
  | AtJson _ _ => 6 + E + J
  | AtMat _ _ => 7 + E + J
  | AtUpdate _ _ | AtInsert _ _ => 8 + E + J
  | AtSelect _ => 9 + E + J
  | AtClear _ true | AtCreate _ true => 10 + E + J
  | AtClear _ false | AtCreate _ false => 11 + E + J
  | AtFlag => 12 + E + J
  end.
Lemma rank_act : forall p u d fl c d' fl' c', act p u d fl c = (d', fl', c') -> rank p c' <= rank p c - 1.
Proof.
  intros p u d fl c d' fl' c' A. destruct c; cbn [act FileCacheModel.act] in A.
  all: repeat match type of A with
       | context [match ?x with _ => _ end] => let E := fresh "E" in destruct x eqn:E
       end; injection A as _ _ <-; cbn [rank]; try lia.
  - assert (k < length (jtext (fmt p))) by (apply nth_error_Some; congruence). lia.
  - assert (k < length (enc (calc p))) by (apply nth_error_Some; congruence). lia.
Qed.

Definition runs_of (i : nat) (es : list (event P)) : nat :=
  length (filter (fun e => match e with Run j _ => Nat.eqb j i | Restart _ => false end) es).
Definition no_restart (es : list (event P)) : Prop := forall ps, ~ In (Restart ps) es.

Lemma rank_run : forall es w i t, no_restart es -> nth_error (team w) i = Some t ->
  exists t', nth_error (team (fold_left step es w)) i = Some t' /\ par t' = par t /\ rank (par t) (at_ t') <= rank (par t) (at_ t) - runs_of i es.
Proof.
  induction es as [|e es IH]; intros w i t N T. { exists t. cbn. repeat split; auto. lia. }
  assert (N' : no_restart es) by (intros ps X; apply (N ps); right; auto).
  destruct e as [j u|ps]. 2:{ elim (N ps). left; auto. }
  cbn [fold_left step FileCacheModel.step].
  destruct (nth_error (team w) j) as [tj|] eqn:Tj.
  - destruct (FileCacheModel.act fmt ceqb calc enc dec jtext jread early (par tj) u (dsk w) (flag w) (at_ tj)) as [[d' fl'] c'] eqn:A.
    destruct (Nat.eq_dec j i) as [->|Nj].
    + rewrite T in Tj. injection Tj as ->. destruct (IH (World d' fl' (set_nth (team w) i (Thread (par tj) c'))) i (Thread (par tj) c') N') as (t' & E1 & E2 & E3).
      { cbn. eapply set_nth_same; eauto. }
      exists t'. cbn [par at_] in *. repeat split; auto. apply rank_act in A. unfold runs_of in *. cbn. rewrite Nat.eqb_refl. cbn. lia.
    + destruct (IH (World d' fl' (set_nth (team w) j (Thread (par tj) c'))) i t N') as (t' & E1 & E2 & E3).
      { cbn. rewrite set_nth_other; auto. }
      exists t'. repeat split; auto. unfold runs_of in *. cbn. destruct (Nat.eqb_spec j i); [congruence|auto].
  - destruct (IH w i t N' T) as (t' & E1 & E2 & E3). exists t'. repeat split; auto.
    unfold runs_of in *. cbn. destruct (Nat.eqb_spec j i) as [->|]; [congruence|auto].
Qed.

Lemma rank_0 : forall p c, rank p c = 0 -> (exists m, c = Done m) \/ (exists r, c = Failed r).
Proof. intros p c R. destruct c; cbn in R; try lia; try destruct created; try destruct cleared; try lia; eauto. Qed.

(** enough actions for a thread to finish *)
Definition enough (p : P) : nat := 12 + length (enc (calc p)) + length (jtext (fmt p)).

Lemma finishes : forall es ps es2 i p, good (es ++ Restart ps :: es2) -> (forall p, In p (params (es ++ Restart ps :: es2)) -> ok p) ->
  no_restart es2 -> nth_error ps i = Some p -> enough p <= runs_of i es2 ->
  exists t, nth_error (team (run (es ++ Restart ps :: es2))) i = Some t /\ par t = p /\
    ((exists q, at_ t = Done (calc q) /\ In q (params (es ++ Restart ps :: es2)) /\ fmt q = fmt p) \/ (early = true /\ at_ t = Failed NoTable)).
Proof.
  intros es ps es2 i p G O N Hp R. pose proof (inv_run G O) as I.
  assert (E : run (es ++ Restart ps :: es2) = fold_left step es2 (World (dsk (run es)) true (start M ps))).
  { unfold run, FileCacheModel.run. rewrite fold_left_app. reflexivity. }
  destruct (@rank_run es2 (World (dsk (run es)) true (start M ps)) i (Thread p AtFlag) N) as (t & T1 & T2 & T3).
  { cbn. unfold start. rewrite nth_error_map, Hp. reflexivity. }
  cbn [par at_ rank] in T2, T3. rewrite <- E in T1. exists t. repeat split; auto.
  unfold enough in R. assert (R0 : rank p (at_ t) = 0) by lia. destruct (i_loc I _ T1) as [_ L]. rewrite T2 in L.
  destruct (rank_0 _ _ R0) as [(m & Em)|(r & Er)]; rewrite ?Em, ?Er in *; cbn in L.
  - destruct L as (q & L1 & L2 & ->). left. exists q. auto.
  - right. destruct L as [L1 ->]. auto.
Qed.
End P.
