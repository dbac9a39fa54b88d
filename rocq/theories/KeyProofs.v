(** C105: the key of a stored matrix determines the calculation.  Proofs. *)
From Coq Require Import ZArith Lia Bool String Ascii List QArith Qabs Lqa.
Import ListNotations.
From Verif Require Import Base ConfModel ConfProofs NumModel NumProofs NumProofs2 PropFile BasisnamesModel KeyModel KeySpec.
Set Implicit Arguments.
Local Open Scope string_scope.

Lemma half_double : forall h, (Z.abs h <= 20000)%Z -> PropFile.is_double (h # 2).
Proof. intros h H. exists h, (-1)%Z. split; [reflexivity|lia]. Qed.
Lemma half_close : forall h v, (Z.abs h <= 20000)%Z -> (Qabs (v - (h # 2)) <= (1 # 200000) * Qabs v)%Q -> (Qabs (v - (h # 2)) <= 1 # 10)%Q.
Proof.
  intros h v H C. apply Qabs_Qle_condition in C. apply Qabs_Qle_condition.
  assert (B : (-10000 <= h # 2 <= 10000)%Q) by (unfold Qle; cbn [Qnum Qden]; lia).
  set (x := h # 2) in *. clearbody x. revert C. apply Qabs_case; intros; split; lra.
Qed.
Lemma half_inj : forall a b, (Z.abs a <= 20000)%Z -> (Z.abs b <= 20000)%Z -> fmt6 (a # 2) = fmt6 (b # 2) -> a = b.
Proof.
  intros a b Ha Hb E. destruct (fmt6_close (double_in_range (half_double a Ha)) (double_in_range (half_double b Hb)) E) as (v & Va & Vb).
  apply half_close in Va, Vb; auto. apply Qabs_Qle_condition in Va, Vb.
  assert (L : (-(1 # 5) <= (a # 2) - (b # 2) <= 1 # 5)%Q) by (split; lra).
  assert (a - b = 0)%Z; [|lia].
  destruct L as [L1 L2]. unfold Qle, Qminus, Qplus, Qopp in L1, L2. cbn [Qnum Qden] in L1, L2. lia.
Qed.
(** what was written is read again *)
Lemma half_reads : forall c k h v, (Z.abs h <= 20000)%Z -> get c k = Some (fmt6 (h # 2)) -> rd_half c k = Ok v -> v = h.
Proof.
  intros c k h v H G R. unfold rd_half, at_const in R. rewrite G in R. cbn [bind] in R.
  destruct (fmt6_reads (double_in_range (half_double h H))) as (w & S & C). rewrite S in R. apply half_close in C; auto.
  pose proof (Qred_correct (2 * value w)) as Q. cbv zeta in R. remember (Qred (2 * value w)) as qr eqn:Eqr. clear Eqr.
  destruct (Z.eqb_spec (Zpos (Qden qr)) 1) as [D|]; [|discriminate]. injection R as <-. destruct qr as [x y]. cbn [Qnum Qden] in *. injection D as ->.
  apply Qabs_Qle_condition in C. assert (L : (-(1 # 5) <= (x # 1) - (h # 1) <= 1 # 5)%Q).
  { assert (E : ((h # 1) == 2 * (h # 2))%Q) by (unfold Qeq, Qmult; cbn [Qnum Qden]; lia). rewrite Q, E. split; lra. }
  destruct L as [L1 L2]. unfold Qle, Qminus, Qplus, Qopp in L1, L2. cbn [Qnum Qden] in L1, L2. lia.
Qed.
Lemma int_inj : forall a b, is_int a -> is_int b -> fmt_int a = fmt_int b -> a = b.
Proof. intros a b Ha Hb E. apply int_reads in Ha, Hb. rewrite E, Hb in Ha. congruence. Qed.
Lemma stoi_int : forall ts v, stoi ts = Ok v -> is_int v.
Proof.
  intros ts v. unfold stoi. destruct (sign ts) as [neg ts']. destruct (digits 0 0 ts') as [[a n] r]. destruct (n =? 0)%Z; [discriminate|].
  destruct ((- 2 ^ 31 <=? (if neg then - a else a)) && ((if neg then - a else a) <? 2 ^ 31))%Z eqn:E; [|discriminate].
  intros [= <-]. unfold is_int. lia.
Qed.
Lemma int_reads_back : forall c k x v, is_int x -> get c k = Some (fmt_int x) -> rd_int c k = Ok v -> v = x.
Proof. intros c k x v H G R. unfold rd_int, at_const in R. rewrite G in R. cbn [bind] in R. apply int_reads in H. rewrite H in R. congruence. Qed.

(** *** Reading through writes *)
Lemma get_write : forall c k v k', get (write c k v) k' = if k' =? k then Some v else get c k'.
Proof. intros. apply get_put. Qed.
Lemma at_get : forall c k v, at_const c k = Ok v <-> get c k = Some v.
Proof. intros. unfold at_const. destruct (get c k); split; congruence. Qed.
Ltac reads := repeat first [rewrite get_write | progress cbn [String.eqb Ascii.eqb Bool.eqb]].
Ltac inv_bind := repeat match goal with
  | H : bind ?a _ = Ok _ |- _ => let E := fresh "E" in destruct a eqn:E; [|discriminate H|discriminate H]; cbn [bind] in H
  | H : (let '(_, _) := ?a in _) = Ok _ |- _ => destruct a; cbv beta iota in H
  end.

Lemma copies_cons : forall src dst k ks r, copies src dst (k :: ks) = Ok r -> exists v, get src k = Some v /\ copies src (write dst k v) ks = Ok r.
Proof.
  intros src dst k ks r H. unfold copies in *. cbn [fold_left bind] in H. unfold copy at 2 in H. unfold at_const in H. destruct (get src k) as [v|].
  - exists v. split; [reflexivity|]. exact H.
  - exfalso. cbn [bind] in H. clear -H. induction ks as [|x ks IH]; cbn in H; [discriminate|auto].
Qed.
Lemma copies_nil : forall src dst r, copies src dst [] = Ok r -> r = dst.
Proof. intros src dst r H. unfold copies in H. cbn in H. congruence. Qed.
Ltac inv_copies H := repeat (apply copies_cons in H; let t := fresh "t" in let G := fresh "G" in destruct H as (t & G & H)); apply copies_nil in H.

(** entries that every basis copies *)
Definition base_conf (tn tl tj tm tc tw : string) : conf :=
  write (write (write (write (write (write [] "deltaNSingle" tn) "deltaLSingle" tl) "deltaJSingle" tj) "deltaMSingle" tm) "missingCalc" tc) "missingWhittaker" tw.
Lemma configure_spec : forall c k d, configure c = Ok (k, d) -> exists tn tl tj tm tc tw, k = base_conf tn tl tj tm tc tw /\
  get c "deltaNSingle" = Some tn /\ get c "deltaLSingle" = Some tl /\ get c "deltaJSingle" = Some tj /\ get c "deltaMSingle" = Some tm /\
  get c "missingCalc" = Some tc /\ get c "missingWhittaker" = Some tw /\
  stoi (toks tn) = Ok (dn d) /\ stoi (toks tl) = Ok (dl d) /\ stoi (toks tj) = Ok (dj d) /\ stoi (toks tm) = Ok (dm d).
Proof.
  intros c k d H. unfold configure in H. inv_bind. injection H as <- <-. inv_copies E. inv_copies E4. subst.
  unfold rd_int, at_const in *. repeat match goal with H : context [get (write _ _ _) _] |- _ => revert H end. reads. cbn [bind]. intros.
  do 6 eexists. split; [reflexivity|]. cbn [dn dl dj dm]. repeat (split; [eassumption|]). assumption.
Qed.

Lemma rd_state_int : forall c n l j m s, rd_state c n l j m = Ok s -> is_int (n_ s) /\ is_int (l_ s) /\ idx s = 0%Z.
Proof.
  intros c n l j m s H. unfold rd_state in H. inv_bind. injection H as <-. cbn. unfold rd_int in *. inv_bind.
  split; [eapply stoi_int; eassumption|]. split; [eapply stoi_int; eassumption|reflexivity].
Qed.
(** a state that was written is read again *)
Definition written (c : conf) (n l j m : string) (s : one) : Prop :=
  get c n = Some (fmt_int (n_ s)) /\ get c l = Some (fmt_int (l_ s)) /\ get c j = Some (fmt6 (jj s # 2)) /\ get c m = Some (fmt6 (mm s # 2)).
Definition proper (s : one) : Prop := is_int (n_ s) /\ is_int (l_ s) /\ idx s = 0%Z.
Lemma state_reads : forall c n l j m s t, proper s -> small s -> written c n l j m s -> rd_state c n l j m = Ok t -> t = s.
Proof.
  intros c n l j m s t (In_ & Il & I0) (Sj & Sm) (Wn & Wl & Wj & Wm) H. unfold rd_state in H. inv_bind. injection H as <-.
  apply (int_reads_back _ _ In_) in E; auto. apply (int_reads_back _ _ Il) in E0; auto.
  apply (half_reads _ _ _ Sj Wj) in E1. apply (half_reads _ _ _ Sm Wm) in E2. subst. destruct s; cbn in *. congruence.
Qed.
Lemma state_inj : forall c c' n l j m s t, proper s -> small s -> proper t -> small t -> written c n l j m s -> written c' n l j m t ->
  (forall k, get c k = get c' k) -> s = t.
Proof.
  intros c c' n l j m s t (In_ & Il & I0) (Sj & Sm) (Jn & Jl & J0) (Tj & Tm) (Wn & Wl & Wj & Wm) (Vn & Vl & Vj & Vm) E.
  rewrite E in Wn, Wl, Wj, Wm. rewrite Wn in Vn. rewrite Wl in Vl. rewrite Wj in Vj. rewrite Wm in Vm.
  injection Vn as Vn. injection Vl as Vl. injection Vj as Vj. injection Vm as Vm.
  apply int_inj in Vn, Vl; auto. apply half_inj in Vj, Vm; auto. destruct s, t; cbn in *. congruence.
Qed.

(** what the key of a one-atom matrix says about the problem *)
Record tells (k : conf) (p : problem) : Prop := Tells {
  t_species : get k "species1" = Some (p_species p);
  t_dn : rd_int k "deltaNSingle" = Ok (dn (p_deltas p)); t_dl : rd_int k "deltaLSingle" = Ok (dl (p_deltas p));
  t_dj : rd_int k "deltaJSingle" = Ok (dj (p_deltas p)); t_dm : rd_int k "deltaMSingle" = Ok (dm (p_deltas p));
  t_method : exists a b, rd_bool k "missingCalc" = Ok a /\ rd_bool k "missingWhittaker" = Ok b /\ p_method p = method_of a b;
  t_deltaE : rd_double k "deltaESingle" = Ok (p_deltaE p);
  t_dia : rd_bool k "diamagnetism" = Ok (p_diamagnetism p) }.
Definition tells_fields (k : conf) (f : fields) : Prop :=
  get k "Ex" = Some (fmt6 (f_Ex f)) /\ get k "Ey" = Some (fmt6 (f_Ey f)) /\ get k "Ez" = Some (fmt6 (f_Ez f)) /\
  get k "Bx" = Some (fmt6 (f_Bx f)) /\ get k "By" = Some (fmt6 (f_By f)) /\ get k "Bz" = Some (fmt6 (f_Bz f)).
Definition tells_start (k : conf) (l : list one) : Prop :=
  (exists s, l = [s] /\ proper s /\ written k "n1" "l1" "j1" "m1" s /\ get k "n2" = Some "") \/
  (exists s t, l = [s; t] /\ proper s /\ proper t /\ written k "n1" "l1" "j1" "m1" s /\ written k "n2" "l2" "j2" "m2" t).

Lemma names_spec : forall c w b, names c w = Ok b -> exists tn tl tj tm tc tw sp, 
  get c "deltaNSingle" = Some tn /\ get c "deltaLSingle" = Some tl /\ get c "deltaJSingle" = Some tj /\ get c "deltaMSingle" = Some tm /\
  get c "missingCalc" = Some tc /\ get c "missingWhittaker" = Some tw /\
  stoi (toks tn) = Ok (dn (b_deltas b)) /\ stoi (toks tl) = Ok (dl (b_deltas b)) /\ stoi (toks tj) = Ok (dj (b_deltas b)) /\ stoi (toks tm) = Ok (dm (b_deltas b)) /\
  get c (match w with Second => "species2" | _ => "species1" end) = Some sp /\
  let k := write (base_conf tn tl tj tm tc tw) "species1" sp in
  match w with
  | Both => exists s t, b_start b = [s; t] /\ proper s /\ proper t /\ b_conf b = wr_state (wr_state k "n1" "l1" "j1" "m1" s) "n2" "l2" "j2" "m2" t
  | _ => exists s, b_start b = [s] /\ proper s /\ b_conf b = write (write (write (write (wr_state k "n1" "l1" "j1" "m1" s) "n2" "") "l2" "") "j2" "") "m2" ""
  end.
Proof.
  assert (S : forall c sp n l j m b, names_single c sp n l j m = Ok b -> exists tn tl tj tm tc tw s',
    get c "deltaNSingle" = Some tn /\ get c "deltaLSingle" = Some tl /\ get c "deltaJSingle" = Some tj /\ get c "deltaMSingle" = Some tm /\
    get c "missingCalc" = Some tc /\ get c "missingWhittaker" = Some tw /\
    stoi (toks tn) = Ok (dn (b_deltas b)) /\ stoi (toks tl) = Ok (dl (b_deltas b)) /\ stoi (toks tj) = Ok (dj (b_deltas b)) /\ stoi (toks tm) = Ok (dm (b_deltas b)) /\
    get c sp = Some s' /\ let k := write (base_conf tn tl tj tm tc tw) "species1" s' in
    exists s, b_start b = [s] /\ proper s /\ b_conf b = write (write (write (write (wr_state k "n1" "l1" "j1" "m1" s) "n2" "") "l2" "") "j2" "") "m2" "").
  { intros c sp n l j m b H. unfold names_single in H. inv_bind. injection H as <-. apply at_get in E1.
    apply configure_spec in E0 as (tn & tl & tj & tm & tc & tw & -> & ? & ? & ? & ? & ? & ? & ? & ? & ? & ?).
    exists tn, tl, tj, tm, tc, tw. eexists. cbn [b_start b_deltas b_conf]. repeat (split; [eassumption|]). eexists.
    split; [reflexivity|]. split; [eapply rd_state_int; eassumption|reflexivity]. }
  intros c [] b H; [exact (S _ _ _ _ _ _ _ H)|exact (S _ _ _ _ _ _ _ H)|]. clear S.
  unfold names, names_both in H. inv_bind. destruct (negb (_ =? _)); [discriminate|]. inv_bind. injection H as <-. apply at_get in E1.
  apply configure_spec in E3 as (tn & tl & tj & tm & tc & tw & -> & ? & ? & ? & ? & ? & ? & ? & ? & ? & ?).
  exists tn, tl, tj, tm, tc, tw. eexists. cbn [b_start b_deltas b_conf]. repeat (split; [eassumption|]). do 2 eexists.
  split; [reflexivity|]. apply rd_state_int in E, E0. unfold order. destruct (_ || _); cbn [fst snd]; auto.
Qed.

Ltac to_gets := unfold rd_int, rd_bool, rd_double, at_const in *.
Lemma one_spec : forall c w f k p, one_step c w f = Ok (k, p) -> tells k p /\ tells_fields k (p_fields p) /\ tells_start k (p_start p) /\ p_fields p = f /\
  sorted k /\
  rd_int c "deltaNSingle" = Ok (dn (p_deltas p)) /\ rd_int c "deltaLSingle" = Ok (dl (p_deltas p)) /\
  rd_int c "deltaJSingle" = Ok (dj (p_deltas p)) /\ rd_int c "deltaMSingle" = Ok (dm (p_deltas p)) /\
  rd_double c "deltaESingle" = Ok (p_deltaE p) /\ rd_bool c "diamagnetism" = Ok (p_diamagnetism p) /\
  (exists a b, rd_bool c "missingCalc" = Ok a /\ rd_bool c "missingWhittaker" = Ok b /\ p_method p = method_of a b) /\
  get k "missingCalc" = get c "missingCalc" /\ get k "missingWhittaker" = get c "missingWhittaker" /\
  get c (match w with Second => "species2" | _ => "species1" end) = Some (p_species p) /\
  (List.length (p_start p) = match w with Both => 2 | _ => 1 end)%nat.
Proof.
  intros c w f k p H. unfold one_step in H. inv_bind. injection H as <- <-.
  apply names_spec in E as (tn & tl & tj & tm & tc & tw & sp & Gn & Gl & Gj & Gm & Gc & Gw & Sn & Sl & Sj & Sm & Gs & B). cbn zeta in B.
  inv_copies E0. cbn [p_deltas p_species p_start p_method p_deltaE p_diamagnetism p_fields].
  destruct w.
  1,2: destruct B as (s & Bs & Ps & Bc); rewrite Bs; rewrite Bc in E0; subst a0; unfold wr_state, base_conf, wr_fields in *; to_gets;
    repeat match goal with H : context [get (write _ _ _) _] |- _ => revert H end; reads; cbn [bind]; intros;
    repeat match goal with H : Ok _ = Ok _ |- _ => injection H as H; try subst end;
    (split; [constructor; cbn [p_deltas p_species p_start p_method p_deltaE p_diamagnetism p_fields]; to_gets; reads; cbn [bind]; eauto |]);
    (split; [repeat split; reads; reflexivity|]);
    (split; [left; exists s; split; [reflexivity|]; split; [exact Ps|]; split; [repeat split; reads; reflexivity|reads; reflexivity]|]);
    (split; [reflexivity|]); (split; [repeat apply put_sorted; constructor|]);
    rewrite ?Gn, ?Gl, ?Gj, ?Gm, ?Gc, ?Gw, ?Gs, ?G, ?G0; cbn [bind]; repeat (split; [solve [eauto | reads; eauto]|]); reflexivity.
  destruct B as (s & t' & Bs & Ps & Pt & Bc); rewrite Bs; rewrite Bc in E0; subst a0; unfold wr_state, base_conf, wr_fields in *; to_gets;
    repeat match goal with H : context [get (write _ _ _) _] |- _ => revert H end; reads; cbn [bind]; intros;
    repeat match goal with H : Ok _ = Ok _ |- _ => injection H as H; try subst end;
    (split; [constructor; cbn [p_deltas p_species p_start p_method p_deltaE p_diamagnetism p_fields]; to_gets; reads; cbn [bind]; eauto |]);
    (split; [repeat split; reads; reflexivity|]);
    (split; [right; exists s, t'; split; [reflexivity|]; split; [exact Ps|]; split; [exact Pt|]; split; repeat split; reads; reflexivity|]);
    (split; [reflexivity|]); (split; [repeat apply put_sorted; constructor|]);
    rewrite ?Gn, ?Gl, ?Gj, ?Gm, ?Gc, ?Gw, ?Gs, ?G, ?G0; cbn [bind]; repeat (split; [solve [eauto | reads; eauto]|]); reflexivity.
Qed.

(** *** One atom *)
Ltac same_reads E H := unfold rd_int, rd_bool, rd_double, at_const in H; rewrite ?E in H.
Lemma agree_settings : forall k k' p p', (forall x, get k x = get k' x) -> tells k p -> tells k' p' ->
  p_species p = p_species p' /\ p_deltas p = p_deltas p' /\ p_method p = p_method p' /\ p_deltaE p = p_deltaE p' /\ p_diamagnetism p = p_diamagnetism p'.
Proof.
  intros k k' p p' E [A1 A2 A3 A4 A5 (a & b & A6 & A6' & A6'') A7 A8] [B1 B2 B3 B4 B5 (a' & b' & B6 & B6' & B6'') B7 B8].
  unfold rd_int, rd_bool, rd_double, at_const in *. rewrite E in *.
  split; [congruence|]. split; [destruct (p_deltas p), (p_deltas p'); cbn in *; congruence|]. split; [congruence|]. split; congruence.
Qed.
Lemma close_of : forall x y, is_double x -> is_double y -> fmt6 x = fmt6 y -> close x y.
Proof. intros x y X Y E. apply fmt6_close; auto; apply double_in_range; assumption. Qed.
Lemma agree_fields : forall k k' f f', (forall x, get k x = get k' x) -> tells_fields k f -> tells_fields k' f' -> doubles f -> doubles f' -> close_fields f f'.
Proof.
  intros k k' f f' E (A1 & A2 & A3 & A4 & A5 & A6) (B1 & B2 & B3 & B4 & B5 & B6) D D'. unfold doubles in *. rewrite E in *.
  repeat match goal with H : Forall _ (_ :: _) |- _ => apply Forall_inv in H as ?; apply Forall_inv_tail in H end.
  unfold close_fields. repeat split; apply close_of; auto; congruence.
Qed.
Lemma int_text : forall x, fmt_int x <> "".
Proof.
  intros x E. unfold fmt_int, text in E. 
  assert (N : exists t ts, ((if (x <? 0)%Z then [Minus] else []) ++ dec_digits 10 (Z.abs x) [])%list = t :: ts).
  { assert (G : forall f n acc, (f <> 0%nat \/ acc <> []) -> exists t ts, dec_digits f n acc = t :: ts).
    { induction f as [|f IH]; intros n acc H; cbn; [destruct H, acc; try congruence; eauto|]. destruct (n <? 10)%Z; [eauto|]. apply IH. right. discriminate. }
    destruct (x <? 0)%Z; cbn [app]; [eauto|]. apply G. left. discriminate. }
  destruct N as (t & ts & N). rewrite N in E. cbn in E. discriminate.
Qed.
Lemma agree_start : forall k k' l l', (forall x, get k x = get k' x) -> tells_start k l -> tells_start k' l' -> Forall small l -> Forall small l' -> l = l'.
Proof.
  intros k k' l l' E T T' S S'.
  destruct T as [(s & -> & Ps & W & N)|(s & t & -> & Ps & Pt & W & V)], T' as [(s' & -> & Ps' & W' & N')|(s' & t' & -> & Ps' & Pt' & W' & V')];
    repeat match goal with H : Forall _ (_ :: _) |- _ => apply Forall_inv in H as ?; apply Forall_inv_tail in H end.
  - f_equal. eapply state_inj; eauto.
  - exfalso. destruct V' as (V & _). rewrite E, V in N. injection N. apply int_text.
  - exfalso. destruct V as (V & _). rewrite E, N' in V. injection V. intro X. symmetry in X. revert X. apply int_text.
  - f_equal; [|f_equal]; eapply state_inj; eauto.
Qed.
Lemma one_same : forall c w f c' w' f' k p p', one_step c w f = Ok (k, p) -> one_step c' w' f' = Ok (k, p') ->
  Forall small (p_start p) -> Forall small (p_start p') -> doubles f -> doubles f' -> same_problem p p'.
Proof.
  intros c w f c' w' f' k p p' H H' S S' D D'.
  apply one_spec in H as (T & F & St & E & _). apply one_spec in H' as (T' & F' & St' & E' & _). unfold same_problem.
  destruct (@agree_settings k k p p' (fun _ => eq_refl) T T') as (A & B & C & G & I). pose proof (@agree_start k k _ _ (fun _ => eq_refl) St St' S S') as J.
  split; [destruct p, p'; cbn in *; congruence|]. rewrite E, E' in *. exact (@agree_fields k k _ _ (fun _ => eq_refl) F F' D D').
Qed.

(** *** Two atoms *)
Lemma tells_ext : forall k k' p, (forall x, In x ["species1"; "deltaNSingle"; "deltaLSingle"; "deltaJSingle"; "deltaMSingle"; "missingCalc"; "missingWhittaker"; "deltaESingle"; "diamagnetism"] -> get k x = get k' x) ->
  tells k p -> tells k' p.
Proof.
  intros k k' p E [A1 A2 A3 A4 A5 A6 A7 A8]. unfold rd_int, rd_bool, rd_double, at_const in *.
  constructor; unfold rd_int, rd_bool, rd_double, at_const in *; rewrite <- E by (cbn; tauto); auto.
  rewrite <- E by (cbn; tauto). auto.
Qed.
Record pair_tells (k : conf) (q : pair_problem) : Prop := PairTells {
  pt_one : tells k (q_one1 q); pt_fields : tells_fields k (p_fields (q_one1 q)); pt_fields2 : p_fields (q_one2 q) = p_fields (q_one1 q);
  pt_proper1 : proper (fst (q_initial q)); pt_proper2 : proper (snd (q_initial q));
  pt_state1 : written k "n1" "l1" "j1" "m1" (fst (q_initial q)); pt_state2 : written k "n2" "l2" "j2" "m2" (snd (q_initial q));
  pt_start1 : p_start (q_one1 q) = if q_shared q then [fst (q_initial q); snd (q_initial q)] else [fst (q_initial q)];
  pt_start2 : p_start (q_one2 q) = if q_shared q then [fst (q_initial q); snd (q_initial q)] else [snd (q_initial q)];
  pt_combined : get k "combined" = Some (fmt_int (if q_shared q then 1 else 0));
  pt_species1 : fst (q_species q) = p_species (q_one1 q); pt_species2 : get k "species2" = Some (snd (q_species q));
  pt_species3 : snd (q_species q) = p_species (q_one2 q);
  pt_settings : p_deltas (q_one2 q) = p_deltas (q_one1 q) /\ p_method (q_one2 q) = p_method (q_one1 q) /\ p_deltaE (q_one2 q) = p_deltaE (q_one1 q) /\
    p_diamagnetism (q_one2 q) = p_diamagnetism (q_one1 q) /\ q_method q = p_method (q_one1 q);
  pt_deltaE : rd_double k "deltaEPair" = Ok (q_deltaE q);
  pt_dn : rd_int k "deltaNPair" = Ok (dn (q_deltas q)); pt_dl : rd_int k "deltaLPair" = Ok (dl (q_deltas q));
  pt_dj : rd_int k "deltaJPair" = Ok (dj (q_deltas q)); pt_dm : rd_int k "deltaMPair" = Ok (dm (q_deltas q));
  pt_exponent : rd_int k "exponent" = Ok (q_exponent q);
  pt_distance : get k "R" = Some (fmt6 (q_distance q));
  pt_inv : get k "inversion" = Some (wr_sym (s_inv (q_symmetry q))); pt_per : get k "permutation" = Some (wr_sym (s_per (q_symmetry q)));
  pt_ref : get k "reflection" = Some (wr_sym (s_ref (q_symmetry q))); pt_rot : get k "rotation" = Some (wr_sym (s_rot (q_symmetry q))) }.

Lemma two_same_step : forall c w w' f k k' p p', one_step c w f = Ok (k, p) -> one_step c w' f = Ok (k', p') ->
  p_deltas p' = p_deltas p /\ p_method p' = p_method p /\ p_deltaE p' = p_deltaE p /\ p_diamagnetism p' = p_diamagnetism p /\ p_fields p' = p_fields p.
Proof.
  intros c w w' f k k' p p' H H'.
  apply one_spec in H as (_ & _ & _ & F & _ & A1 & A2 & A3 & A4 & A5 & A6 & (a & b & A7 & A8 & A9) & _).
  apply one_spec in H' as (_ & _ & _ & F' & _ & B1 & B2 & B3 & B4 & B5 & B6 & (a' & b' & B7 & B8 & B9) & _).
  split; [destruct (p_deltas p), (p_deltas p'); cbn in *; congruence|]. repeat split; congruence.
Qed.

Lemma names_two_spec : forall same k1 k2 kp ab, names_two same k1 k2 = Ok (kp, ab) -> exists tn tl tj tm tc tw sp1 sp2,
  kp = wr_state (write (wr_state (write (write (base_conf tn tl tj tm tc tw) "combined" (fmt_int (if same then 1 else 0))) "species1" sp1)
         "n1" "l1" "j1" "m1" (fst ab)) "species2" sp2) "n2" "l2" "j2" "m2" (snd ab) /\
  get k1 "deltaNSingle" = Some tn /\ get k1 "deltaLSingle" = Some tl /\ get k1 "deltaJSingle" = Some tj /\ get k1 "deltaMSingle" = Some tm /\
  get k1 "missingCalc" = Some tc /\ get k1 "missingWhittaker" = Some tw /\
  rd_state k1 "n1" "l1" "j1" "m1" = Ok (fst ab) /\
  (if same then rd_state k1 "n2" "l2" "j2" "m2" else rd_state k2 "n1" "l1" "j1" "m1") = Ok (snd ab) /\
  get k1 "species1" = Some sp1 /\ get (if same then k1 else k2) "species1" = Some sp2.
Proof.
  intros same k1 k2 kp ab H. unfold names_two in H. inv_bind. destruct (if same then _ else _); [discriminate|]. inv_bind. injection H as <- <-.
  apply configure_spec in E1 as (tn & tl & tj & tm & tc & tw & -> & ? & ? & ? & ? & ? & ? & _). apply at_get in E4, E5.
  exists tn, tl, tj, tm, tc, tw. do 2 eexists. split; [reflexivity|]. cbn [fst snd].
  repeat (split; [solve [eassumption | reflexivity]|]). eassumption.
Qed.

Lemma two_spec : forall c same f r s k q, two_step c same f r s = Ok (k, q) -> Forall small (p_start (q_one1 q)) -> Forall small (p_start (q_one2 q)) ->
  pair_tells k q /\ p_fields (q_one1 q) = f /\ q_distance q = r /\ q_symmetry q = s /\ q_shared q = same /\ sorted k.
Proof.
  intros c same f r s K q H S1 S2. unfold two_step in H. inv_bind. injection H as <- <-.
  cbn [q_one1 q_one2 q_shared q_species q_initial q_method q_deltaE q_deltas q_exponent q_distance q_symmetry] in *.
  destruct (@two_same_step _ _ _ _ _ _ _ _ E E0) as (D1 & D2 & D3 & D4 & D5).
  pose proof E as X. apply one_spec in X as (T & F & St & Ff & So & _ & _ & _ & _ & _ & _ & (ba & bb & Ba & Bb & Bm) & Mc & Mw & _ & Len).
  pose proof E0 as X. apply one_spec in X as (T0 & _ & St0 & _ & _ & _ & _ & _ & _ & _ & _ & _ & _ & _ & _ & Len0).
  apply names_two_spec in E1 as (tn & tl & tj & tm & tc & tw & sp1 & sp2 & Ekp & Gn & Gl & Gj & Gm & Gc & Gw & Ra & Rb & Gs1 & Gs2).
  inv_copies E2.
  assert (Sa : sorted a). { subst a c2. unfold wr_state, base_conf. repeat apply put_sorted. constructor. }
  assert (Gapp : forall k, get (append c0 a) k = match get a k with Some v => Some v | None => get c0 k end) by (intro; apply get_append; exact Sa).
  pose proof Ekp as Ea. unfold wr_state, base_conf in Ea.
  assert (Ga' : a = a) by reflexivity. rewrite E2 in Ga' at 2. rewrite Ea in Ga'.
  assert (GA : forall k, get (append c0 a) k = match get a k with Some v => Some v | None => get c0 k end) by exact Gapp. clear Gapp.
  assert (Stt : p_start p = (if same then [fst p1; snd p1] else [fst p1]) /\ p_start p0 = if same then [fst p1; snd p1] else [snd p1]).
  { destruct same.
    - rewrite E in E0. injection E0 as <- <-. assert (p_start p = [fst p1; snd p1]); [|auto].
      destruct St as [(x & Ex & _)|(x & y & Ex & Px & Py & W & V)]; rewrite Ex in *; [cbn in Len; discriminate|].
      repeat match goal with H : Forall _ (_ :: _) |- _ => apply Forall_inv in H as ?; apply Forall_inv_tail in H end.
      rewrite (state_reads Px ltac:(assumption) W Ra), (state_reads Py ltac:(assumption) V Rb). reflexivity.
    - destruct St as [(x & Ex & Px & W & _)|(x & y & Ex & _)]; rewrite Ex in *; [|cbn in Len; discriminate].
      destruct St0 as [(y & Ey & Py & V & _)|(x' & y & Ey & _)]; rewrite Ey in *; [|cbn in Len0; discriminate].
      repeat match goal with H : Forall _ (_ :: _) |- _ => apply Forall_inv in H as ?; apply Forall_inv_tail in H end.
      rewrite (state_reads Px ltac:(assumption) W Ra), (state_reads Py ltac:(assumption) V Rb). auto. }
  destruct Stt as [Stt1 Stt2].
  assert (Sp1 : p_species p = sp1) by (destruct T; congruence).
  assert (Sp2 : p_species p0 = sp2). { destruct T, T0. destruct same; [|congruence]. rewrite E in E0. injection E0 as <- <-. congruence. }
  unfold rd_int, rd_double, rd_bool in *. 
  split; [|split; [exact Ff|split; [reflexivity|split; [reflexivity|split; [reflexivity|]]]]].
  2:{ repeat apply put_sorted. apply append_sorted. exact So. }
  constructor; cbn [q_one1 q_one2 q_shared q_species q_initial q_method q_deltaE q_deltas q_exponent q_distance q_symmetry dn dl dj dm fst snd].
  - eapply tells_ext; [|exact T]. intros x Hx. repeat (destruct Hx as [<-|Hx]; [reads; rewrite GA, Ga'; reads; cbn [get]; congruence|]). elim Hx.
  - rewrite Ff. rewrite Ff in F. destruct F as (F1 & F2 & F3 & F4 & F5 & F6). repeat split; reads; rewrite GA, Ga'; reads; assumption.
  - exact D5.
  - exact (rd_state_int _ _ _ _ _ Ra).
  - destruct same; exact (rd_state_int _ _ _ _ _ Rb).
  - repeat split; reads; rewrite GA, Ga'; reads; reflexivity.
  - repeat split; reads; rewrite GA, Ga'; reads; reflexivity.
  - exact Stt1.
  - exact Stt2.
  - reads. rewrite GA, Ga'. reads. reflexivity.
  - apply at_get in E3. rewrite GA, Ga' in E3. revert E3. reads. congruence.
  - reads. apply at_get in E4. exact E4.
  - apply at_get in E4. rewrite GA, Ga' in E4. revert E4. reads. congruence.
  - split; [exact D1|]. split; [exact D2|]. split; [exact D3|]. split; [exact D4|]. rewrite Bm. congruence.
  - unfold rd_double, at_const in *. reads. exact E5.
  - unfold rd_int, at_const in *. reads. exact E6.
  - unfold rd_int, at_const in *. reads. exact E7.
  - unfold rd_int, at_const in *. reads. exact E8.
  - unfold rd_int, at_const in *. reads. exact E9.
  - unfold rd_int, at_const in *. reads. rewrite GA, Ga'. reads. match goal with H : get c "exponent" = _ |- _ => rewrite H in E10 end. exact E10.
  - reads. reflexivity.
  - reads. reflexivity.
  - reads. reflexivity.
  - reads. reflexivity.
  - reads. reflexivity.
Qed.

Lemma sym_inj : forall a b, (forall x, a = Some x -> is_int x) -> (forall x, b = Some x -> is_int x) -> wr_sym a = wr_sym b -> a = b.
Proof.
  intros [a|] [b|] A B E; cbn in E; try reflexivity; [f_equal; apply int_inj; auto|elim (int_text _ E)|elim (int_text _ (eq_sym E))].
Qed.
Lemma two_same : forall c same f r s c' same' f' r' s' k q q', two_step c same f r s = Ok (k, q) -> two_step c' same' f' r' s' = Ok (k, q') ->
  Forall small (p_start (q_one1 q) ++ p_start (q_one2 q)) -> Forall small (p_start (q_one1 q') ++ p_start (q_one2 q')) ->
  doubles f -> doubles f' -> is_double r -> is_double r' -> sym_ints s -> sym_ints s' -> same_pair q q'.
Proof.
  intros c same f r s c' same' f' r' s' k q q' H H' S S' D D' Dr Dr' Y Y'.
  apply Forall_app in S as [S1 S2]. apply Forall_app in S' as [S1' S2'].
  destruct (@two_spec _ _ _ _ _ _ _ H S1 S2) as (T & F & R & Ys & Sh & _). destruct (@two_spec _ _ _ _ _ _ _ H' S1' S2') as (T' & F' & R' & Ys' & Sh' & _).
  pose proof (pt_fields2 T) as PF. pose proof (pt_fields2 T') as PF'. destruct T, T'.
  destruct (@agree_settings k k _ _ (fun _ => eq_refl) pt_one0 pt_one1) as (A & B & C & G & I).
  assert (CF : close_fields (p_fields (q_one1 q)) (p_fields (q_one1 q'))).
  { apply (@agree_fields k k _ _ (fun _ => eq_refl) pt_fields0 pt_fields1); congruence. }
  assert (Sh2 : q_shared q' = q_shared q).
  { rewrite pt_combined0 in pt_combined1. injection pt_combined1 as X. apply int_inj in X; [|unfold is_int; destruct (q_shared q); lia|unfold is_int; destruct (q_shared q'); lia].
    destruct (q_shared q), (q_shared q'); congruence. }
  assert (Sm : small (fst (q_initial q)) /\ small (snd (q_initial q))).
  { rewrite pt_start3 in S1. rewrite pt_start4 in S2. destruct (q_shared q); inversion S1; subst; inversion S2; subst; auto; split; auto. inversion H3; auto. }
  assert (Sm' : small (fst (q_initial q')) /\ small (snd (q_initial q'))).
  { rewrite pt_start5 in S1'. rewrite pt_start6 in S2'. destruct (q_shared q'); inversion S1'; subst; inversion S2'; subst; auto; split; auto. inversion H3; auto. }
  assert (I1 : fst (q_initial q) = fst (q_initial q')) by (eapply (@state_inj k k); eauto; tauto).
  assert (I2 : snd (q_initial q) = snd (q_initial q')) by (eapply (@state_inj k k); eauto; tauto).
  assert (SP2 : snd (q_species q) = snd (q_species q')) by congruence.
  assert (Dl : q_deltas q = q_deltas q') by (destruct (q_deltas q), (q_deltas q'); cbn in *; congruence).
  assert (Sy : q_symmetry q = q_symmetry q').
  { subst s s'. unfold sym_ints in *. 
    assert (V : forall a b, get k a = Some b -> forall b', get k a = Some b' -> b = b') by congruence.
    destruct (q_symmetry q) as [a1 a2 a3 a4], (q_symmetry q') as [b1 b2 b3 b4]; cbn [s_inv s_per s_ref s_rot] in *. f_equal; apply sym_inj; try (intros x ->; solve [apply Y; cbn; tauto | apply Y'; cbn; tauto]); congruence. }
  destruct pt_settings0 as (P1 & P2 & P3 & P4 & P5), pt_settings1 as (P1' & P2' & P3' & P4' & P5').
  assert (I3 : q_initial q = q_initial q') by (destruct (q_initial q), (q_initial q'); cbn in *; congruence).
  assert (SP : q_species q = q_species q') by (destruct (q_species q), (q_species q'); cbn in *; congruence).
  split; [|split; [|split]].
  - split; [|exact CF]. destruct (q_one1 q), (q_one1 q'); cbn in *. rewrite Sh2, I1, I2 in *. congruence.
  - split; [|rewrite PF, PF'; exact CF]. destruct (q_one1 q), (q_one1 q'), (q_one2 q), (q_one2 q'); cbn in *. rewrite Sh2, I1, I2 in *. congruence.
  - destruct q, q'; cbn in *. congruence.
  - rewrite R, R'. apply close_of; congruence.
Qed.

(** *** Keys can be stored as JSON *)
Lemma plain_write : forall c k v, plain c -> dotted k = false -> k <> "" -> plain (write c k v).
Proof. intros c k v H D N k' v' I. apply in_put in I as [[-> _]|I]; [auto|apply (H _ _ I)]. Qed.
Lemma plain_nil : plain [].
Proof. intros k v []. Qed.
Lemma plain_append : forall b a, plain a -> plain b -> plain (append a b).
Proof.
  unfold append. induction b as [|[k v] b IH]; intros a A B; cbn [fold_left]; [exact A|]. apply IH.
  - apply plain_write; [exact A|..]; apply (B k v); left; reflexivity.
  - intros k' v' I. apply (B k' v'). right. exact I.
Qed.
Lemma sorted_make : forall c, sorted c -> exists os, c = make os.
Proof.
  intros c S. exists (map (fun kv => Write (fst kv) (snd kv)) c). unfold make. rewrite <- (append_nil S) at 1. unfold append.
  generalize (@nil (string * string)). induction c as [|x c IH]; intros a; [reflexivity|]. cbn [fold_left map conf_exec]. unfold write.
  apply IH. inversion S; auto.
Qed.
Ltac plains := repeat (apply plain_write; [|reflexivity|discriminate]).
Lemma one_plain : forall c w f k p, one_step c w f = Ok (k, p) -> plain k.
Proof.
  intros c w f k p H. unfold one_step in H. inv_bind. injection H as <- <-.
  apply names_spec in E as (tn & tl & tj & tm & tc & tw & sp & _ & _ & _ & _ & _ & _ & _ & _ & _ & _ & _ & B). cbn zeta in B.
  inv_copies E0. subst a0. unfold wr_fields. plains. destruct w; [destruct B as (s & _ & _ & ->)|destruct B as (s & _ & _ & ->)|destruct B as (s & t' & _ & _ & _ & ->)];
    unfold wr_state, base_conf; plains; apply plain_nil.
Qed.
Lemma two_plain : forall c same f r s k q, two_step c same f r s = Ok (k, q) -> plain k /\ sorted k.
Proof.
  intros c same f r s K q H. unfold two_step in H. inv_bind. injection H as <- <-.
  pose proof (one_plain _ _ _ E) as P. apply one_spec in E as (_ & _ & _ & _ & So & _).
  apply names_two_spec in E1 as (tn & tl & tj & tm & tc & tw & sp1 & sp2 & Ekp & _). inv_copies E2.
  split; [|repeat apply put_sorted; apply append_sorted; exact So].
  plains. apply plain_append; [exact P|]. subst. unfold wr_state, base_conf. plains. apply plain_nil.
Qed.
