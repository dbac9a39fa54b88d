(** C51, C52, C53, C68: the on-disk matrix cache.  C56, C67: Configuration.

    [run early es] is the state after the events [es]: a process is started with one thread for every parameter set of a list
    (which also means that the process before it is gone, at whatever point), and threads do their next action.
    [early] = true is HamiltonianOne, false is HamiltonianTwo. *)
From Coq Require Import ZArith NArith Lia Bool String Ascii List QArith Qabs.
From Verif Require Import Base SerModel SparseModel SparseProofs SparseProofs2 ConfModel ConfDemo ConfProofs NumModel NumProofs NumProofs2
  FileCacheModel FileCacheProofs FileCacheProofs2 FileCacheProofs3.
Import ListNotations.
Set Implicit Arguments.
Local Open Scope nat_scope.

(** *** C56 *)
Theorem C56_append : forall os os' k,
  get (append (make os) (make os')) k = match get (make os') k with Some v => Some v | None => get (make os) k end.
Proof. intros. apply get_append. apply make_sorted. Qed.
Theorem C56_equal : forall os os', equal (make os) (make os') = true <-> forall k, get (make os) k = get (make os') k.
Proof.
  intros. rewrite equal_iff. split; [intros ->; auto|]. apply sorted_ext; apply make_sorted.
Qed.
Theorem C56_const_access : forall c k, (forall v, get c k = Some v -> at_const c k = Ok v) /\ (get c k = None -> at_const c k = Throw).
Proof. intros c k. unfold at_const. split; [intros v ->|intros ->]; reflexivity. Qed.
(** operator[] of a configuration that is not const: a missing key is inserted with an empty value, nothing else changes *)
Theorem C56_access : forall os k k', get (access (make os) k) k' =
  if String.eqb k' k then match get (make os) k with Some v => Some v | None => Some ""%string end else get (make os) k'.
Proof.
  intros os k k'. unfold access. destruct (get (make os) k) eqn:E.
  - destruct (String.eqb_spec k' k); subst; auto.
  - rewrite get_put. destruct (String.eqb_spec k' k); auto.
Qed.
Theorem C56_write : forall c k v k', get (write c k v) k' = if String.eqb k' k then Some v else get c k'.
Proof. intros. apply get_put. Qed.
(** Saving and loading again; the keys must not be empty nor contain a dot.  Loading into a nonempty configuration merges.
    Missing: keys with a dot, see the next theorem. *)
Theorem C56_json_partial : forall os, plain (make os) -> exists t, save_to_json (make os) = Ok t /\ load_from_json t [] = make os /\
  forall c, load_from_json t c = append c (make os).
Proof.
  intros os P. pose proof (make_sorted os) as S. exists (Node "" (map leaf (make os))). unfold save_to_json.
  rewrite to_tree_plain, writable_flat by auto. split; [reflexivity|].
  assert (G : forall c, load_from_json (Node "" (map leaf (make os))) c = append c (make os)) by (intro; apply load_flat).
  split; auto. rewrite G. apply append_nil. auto.
Qed.
(** A key with a dot gets lost without an error. *)
Theorem C56_json_dot_refuted : forall os k v t, get (make os) k = Some v -> dotted k = true -> save_to_json (make os) = Ok t ->
  get (load_from_json t []) k = None.
Proof.
  intros os k v t G D S. unfold save_to_json in S. destruct (writable (to_tree (make os))); [|discriminate]. injection S as <-.
  unfold load_from_json. rewrite load_keys; auto. intros x y X E. subst. rewrite (to_tree_roots _ _ _ X) in D. discriminate.
Qed.
(** The file contains every entry: the parts of the key between the dots are the path to the value. *)
Theorem C56_json_written : forall os t k v, save_to_json (make os) = Ok t -> get (make os) k = Some v -> tree_get (fragments k) t = Some v.
Proof.
  intros os t k v S G. unfold save_to_json in S. destruct (writable (to_tree (make os))); [|discriminate]. injection S as <-. apply to_tree_get; [apply make_sorted|apply get_in; exact G].
Qed.
(** An empty key with a value cannot be saved: this throws. *)
Theorem C56_json_empty_key : forall os v, get (make os) ""%string = Some v -> v <> ""%string -> save_to_json (make os) = Throw.
Proof.
  intros os v G N. unfold save_to_json. assert (T := @to_tree_get (make os) (Node "" []) ""%string v (make_sorted os) (get_in _ _ G)). change (fold_left _ _ _) with (to_tree (make os)) in T. cbn in T. injection T as T.
  unfold writable. rewrite T. destruct (String.eqb_spec v ""); [contradiction|reflexivity].
Qed.
(** count *)
Theorem C56_count : forall c k, (get c k <> None -> count c k = 1) /\ (get c k = None -> count c k = 0).
Proof. intros c k. unfold count. destruct (get c k); split; congruence. Qed.
Example C56_nonvacuous :
  plain (make [Write "n1" "60"; Write "species1" "Rb"; Access "l1"]) /\
  make [Write "n1" "60"; Write "species1" "Rb"; Access "l1"] = [("l1", ""); ("n1", "60"); ("species1", "Rb")]%string /\
  save_to_json (make [Write "a.b" "1"]) = Ok (Node "" [("a", Node "" [("b", Node "1" [])])])%string.
Proof.
  split; [|split; reflexivity]. intros k v H. vm_compute in H.
  repeat (destruct H as [H|H]; [injection H as <- <-; split; [reflexivity|discriminate]|]). elim H.
Qed.

(** *** C67 *)
Definition dbl (m k : Z) : Q := (if 0 <=? k then (m * 2 ^ k) # 1 else m # Z.to_pos (2 ^ (- k)))%Z.
(** the finite doubles *)
Definition is_double (x : Q) : Prop := exists m k, x = dbl m k /\ (Z.abs m < 2 ^ 53 /\ -1074 <= k <= 971)%Z.
Lemma double_in_range : forall x, is_double x -> double_range x.
Proof.
  intros x (m & k & -> & Hm & Hk). destruct (Z.eq_dec m 0) as [->|N].
  { left. unfold dbl. destruct (0 <=? k)%Z; reflexivity. }
  right. unfold dbl. destruct (Z.leb_spec 0 k) as [L|L]; cbn [Qnum Qden].
  - assert (P : (0 < 2 ^ k)%Z) by (apply Z.pow_pos_nonneg; lia).
    assert (P2 : (2 ^ k <= 2 ^ 971)%Z) by (apply Z.pow_le_mono_r; lia).
    rewrite Z.abs_mul, (Z.abs_eq (2 ^ k)) by lia. split; [lia|]. split; [nia|]. unfold ge10.
    change (0 <=? -360)%Z with false. change (0 <=? 320)%Z with true. cbv iota. split.
    + apply Z.leb_le. assert ((1 <= 10 ^ (- -360))%Z) by (apply Z.leb_le; vm_compute; reflexivity). nia.
    + apply Z.leb_gt. assert (((2 ^ 53) * 2 ^ 971 < 10 ^ 320)%Z) by (apply Z.ltb_lt; vm_compute; reflexivity). nia.
  - assert (P : (0 < 2 ^ (- k))%Z) by (apply Z.pow_pos_nonneg; lia).
    assert (P2 : (2 ^ (- k) <= 2 ^ 1074)%Z) by (apply Z.pow_le_mono_r; lia).
    rewrite Z2Pos.id by auto. split; [lia|]. split; [lia|]. unfold ge10.
    change (0 <=? -360)%Z with false. change (0 <=? 320)%Z with true. cbv iota. split.
    + apply Z.leb_le. assert ((2 ^ 1074 <= 10 ^ (- -360))%Z) by (apply Z.leb_le; vm_compute; reflexivity). nia.
    + apply Z.leb_gt. assert (((2 ^ 53) < 10 ^ 320)%Z) by (apply Z.ltb_lt; vm_compute; reflexivity). nia.
Qed.
Theorem C67_int : forall n, (- 2 ^ 31 <= n < 2 ^ 31)%Z -> stoi (toks (fmt_int n)) = Ok n.
Proof. exact int_reads. Qed.
(** A double is read back with a relative deviation of at most 5e-6 (before stod rounds to the nearest double).
    Missing: the exact value, see the next theorem. *)
Theorem C67_double_partial : forall x, is_double x ->
  exists v, stod (toks (fmt6 x)) = Some v /\ (Qabs (value v - x) <= (1 # 200000) * Qabs (value v))%Q.
Proof. intros x D. apply fmt6_reads. apply double_in_range. auto. Qed.
Theorem C67_double_refuted : is_double (1234567 # 1) /\ fmt6 (1234567 # 1) = "1.23457e+06"%string /\
  exists v, stod (toks (fmt6 (1234567 # 1))) = Some v /\ (value v == 1234570 # 1)%Q.
Proof.
  split; [exists 1234567%Z, 0%Z; split; [reflexivity|lia]|]. split; [vm_compute; reflexivity|].
  eexists. split; [vm_compute; reflexivity|]. vm_compute. reflexivity.
Qed.
Example C67_nonvacuous : fmt6 (1 # 8) = "0.125"%string /\ fmt6 (-3 # 1) = "-3"%string /\ fmt6 (1 # 1048576) = "9.53674e-07"%string /\
  fmt_int (-2147483648) = "-2147483648"%string /\ is_double (1 # 8) /\ stoi (toks "abc") = Throw /\ stoi (toks "2147483648") = Throw /\ stoi (toks "12abc") = Ok 12%Z.
Proof.
  assert (D8 : is_double (1 # 8)) by (exists 1%Z, (-3)%Z; split; [reflexivity|lia]).
  refine (conj _ (conj _ (conj _ (conj _ (conj D8 (conj _ (conj _ _))))))); vm_compute; reflexivity.
Qed.

(** *** The files *)
Definition matrix := (csc SparseModel.value * csc SparseModel.value)%type.
Section Files.
Variable cx : bool.
Variable fconv : ty -> ty -> list Z -> list Z.
(** address at which a file is loaded *)
Variable base : Z.
Definition file_of (m : matrix) : list Z := match save (ser cx m) with Ok e => e | _ => [] end.
Definition of_file (bytes : list Z) : option matrix := match deser cx fconv base bytes with Ok m => Some m | _ => None end.
(** matrices that can be stored (C50) *)
Definition storable_matrix (m : matrix) : Prop :=
  compressed (fst m) /\ compressed (snd m) /\ fits cx (fst m) /\ fits cx (snd m) /\ storable (fst m) /\ storable (snd m) /\
  (base + Z.of_nat (length (file_of m)) < 2 ^ 63)%Z.
(** boost's JSON printer and parser *)
Variable jprint : ptree -> list Z.
Variable jparse : list Z -> option ptree.
Definition boost_json : Prop := forall t, writable t = true -> jparse (jprint t) = Some t.
Definition jtext (c : conf) : list Z := match save_to_json c with Ok t => jprint t | _ => [] end.
Definition jread (bytes : list Z) : option conf := match jparse bytes with Some t => Some (load_from_json t []) | None => None end.
Variable P : Type.
Variable fmt : P -> conf.
Variable calc : P -> matrix.
Definition cache early es := run fmt equal calc file_of of_file jtext jread early es.
(** what holds of a parameter set *)
Definition fine (p : P) : Prop := storable_matrix (calc p) /\ (exists os, fmt p = make os) /\ plain (fmt p).

Lemma fine_dec : forall p, (0 <= base)%Z -> fine p -> of_file (file_of (calc p)) = Some (calc p) /\
  forall k, k < length (file_of (calc p)) -> of_file (firstn k (file_of (calc p))) = None.
Proof.
  intros p B ((Ca & Cb & Fa & Fb & Sa & Sb & L) & _). unfold of_file, file_of in *. destruct (calc p) as [a b]. cbn [fst snd] in *.
  destruct (save (ser cx (a, b))) as [e| |] eqn:S.
  - split.
    + rewrite (@deser_ser cx fconv base a b e Ca Cb Fa Fb S B L). rewrite !build_raw, !rebuild_ok by auto. reflexivity.
    + intros k Hk. rewrite (@deser_cut cx fconv base B a b e k Ca Cb Fa Fb S L Hk). reflexivity.
  - exfalso. destruct (@save_wf (ser cx (a, b))) as [e E]; [|congruence].
    unfold ser. cbn [fst snd]. destruct (parts_wf Ca Fa) as (? & ? & ?), (parts_wf Cb Fb) as (? & ? & ?). unfold ser_one.
    apply Forall_app; split; apply Forall_app; split; try assumption; apply Forall_app; split; assumption.
  - exfalso. destruct (@save_wf (ser cx (a, b))) as [e E]; [|congruence].
    unfold ser. cbn [fst snd]. destruct (parts_wf Ca Fa) as (? & ? & ?), (parts_wf Cb Fb) as (? & ? & ?). unfold ser_one.
    apply Forall_app; split; apply Forall_app; split; try assumption; apply Forall_app; split; assumption.
Qed.
Lemma fine_json : forall p, boost_json -> fine p -> jread (jtext (fmt p)) = Some (fmt p).
Proof.
  intros p J (_ & (os & E) & Pl). rewrite E in *. unfold jread, jtext. destruct (C56_json_partial os Pl) as (t & S & L & _). rewrite S.
  rewrite J. { rewrite L. reflexivity. } unfold save_to_json in S. destruct (writable (to_tree (make os))) eqn:W; [|discriminate]. injection S as <-. exact W.
Qed.
End Files.

(** *** C51.  The history [es] is arbitrary: any number of runs, killed at any points.  Then a process is started with the
    parameter sets [ps]; if thread i gets enough turns, it has finished with a matrix calculated for parameters that are
    written like its own (equal to its own, if different parameters are written differently).
    [good]: no uuid is drawn twice, and no process works on the same configuration in two threads at once.
    Missing: matrices that cannot be stored (C51_unstorable_refuted), several threads in HamiltonianOne (C53), the same
    configuration in two threads (C68), parameters that are written equally (C52). *)
Theorem C51_two_partial : forall cx fconv base jprint jparse P (fmt : P -> conf) calc es ps es2 i p,
  (0 <= base)%Z -> boost_json jprint jparse ->
  let h := es ++ Restart ps :: es2 in
  good fmt h -> (forall q, In q (params h) -> fine cx base fmt calc q) ->
  no_restart es2 -> nth_error ps i = Some p -> enough fmt calc (file_of cx) (jtext jprint) p <= runs_of i es2 ->
  exists t q, nth_error (team (cache cx fconv base jprint jparse fmt calc false h)) i = Some t /\ par t = p /\
    at_ t = Done (calc q) /\ In q (params h) /\ fmt q = fmt p.
Proof.
  intros cx fconv base jprint jparse P fmt calc es ps es2 i p B J h G O N Hp R.
  destruct (@finishes P conf matrix fmt equal calc (file_of cx) (of_file cx fconv base) (jtext jprint) (jread jparse) false equal_iff
    (fine cx base fmt calc) (fun p O => proj1 (fine_dec fconv B O)) (fun p k O => proj2 (fine_dec fconv B O) k) (fun p O => fine_json J O)
    es ps es2 i p G O N Hp R) as (t & T & Pt & [(q & ? & ? & ?)|[? _]]); [|discriminate].
  exists t, q. auto.
Qed.
Theorem C51_one_partial : forall cx fconv base jprint jparse P (fmt : P -> conf) calc es es2 p,
  (0 <= base)%Z -> boost_json jprint jparse ->
  let h := es ++ Restart [p] :: es2 in
  good fmt h -> (forall q, In q (params h) -> fine cx base fmt calc q) ->
  no_restart es2 -> enough fmt calc (file_of cx) (jtext jprint) p <= runs_of 0 es2 ->
  exists t q, nth_error (team (cache cx fconv base jprint jparse fmt calc true h)) 0 = Some t /\ par t = p /\
    at_ t = Done (calc q) /\ In q (params h) /\ fmt q = fmt p.
Proof.
  intros cx fconv base jprint jparse P fmt calc es es2 p B J h G O N R.
  destruct (@finishes P conf matrix fmt equal calc (file_of cx) (of_file cx fconv base) (jtext jprint) (jread jparse) true equal_iff
    (fine cx base fmt calc) (fun p O => proj1 (fine_dec fconv B O)) (fun p k O => proj2 (fine_dec fconv B O) k) (fun p O => fine_json J O)
    es [p] es2 0 p G O N eq_refl R) as (t & T & Pt & [(q & ? & ? & ?)|[_ F]]). { exists t, q. auto. }
  exfalso. destruct (@early_run P conf matrix fmt equal calc (file_of cx) (of_file cx fconv base) (jtext jprint) (jread jparse) es p es2 N)
    as (t' & T' & _ & L). rewrite T' in T. injection T as ->. unfold early_ok in L. rewrite F in L. exact L.
Qed.

(** *** C53 *)
(** HamiltonianTwo: for every schedule of every number of threads the table is there. *)
Theorem C53_two : forall P C M (fmt : P -> C) ceqb (calc : P -> M) enc dec jtext jread es i t,
  nth_error (team (run fmt ceqb calc enc dec jtext jread false es)) i = Some t -> at_ t <> Failed NoTable.
Proof.
  intros P C M fmt ceqb calc enc dec jt jr es i t T E.
  destruct (@late_run P C M fmt ceqb calc enc dec jt jr es) as [_ L]. specialize (L _ _ T). unfold late_ok in L. rewrite E in L. exact L.
Qed.
(** HamiltonianOne: with one thread.  Missing: more threads. *)
Theorem C53_one_partial : forall P C M (fmt : P -> C) ceqb (calc : P -> M) enc dec jtext jread es p es2 i t, no_restart es2 ->
  nth_error (team (run fmt ceqb calc enc dec jtext jread true (es ++ Restart [p] :: es2))) i = Some t -> at_ t <> Failed NoTable.
Proof.
  intros P C M fmt ceqb calc enc dec jt jr es p es2 i t N T E.
  destruct (@early_run P C M fmt ceqb calc enc dec jt jr es p es2 N) as (t' & T' & _ & L). rewrite T' in T.
  destruct i as [|[|i]]; try discriminate. injection T as ->. unfold early_ok in L. rewrite E in L. exact L.
Qed.
(** With two threads: the first clears the flag, the second sees that and queries the table before the first creates it. *)
Theorem C53_one_refuted : forall P C M (fmt : P -> C) ceqb (calc : P -> M) enc dec jtext jread p q, exists es,
  nth_error (team (run fmt ceqb calc enc dec jtext jread true (Restart [p; q] :: es))) 1 = Some (Thread q (Failed NoTable)).
Proof. intros. exists [Run 0 0; Run 0 1; Run 1 2; Run 1 3]. reflexivity. Qed.

(** *** C68.  Two steps whose parameters are written in the same way: both threads find no entry, the second INSERT violates
    the UNIQUE constraint and ends the program. *)
Theorem C68_same_conf_refuted : forall early P C M (fmt : P -> C) ceqb (calc : P -> M) enc dec jtext jread p q,
  (forall a b, ceqb a b = true <-> a = b) -> fmt p = fmt q -> exists es, NoDup (draws es) /\ no_restart es /\
  nth_error (team (run fmt ceqb calc enc dec jtext jread early (Restart [p; q] :: es))) 1 = Some (Thread q (Failed NotUnique)).
Proof.
  intros early P C M fmt ceqb calc enc dec jt jr p q S E.
  assert (R : ceqb (fmt q) (fmt q) = true) by (apply S; reflexivity).
  exists ([Run 0 0; Run 0 1; Run 0 2; Run 0 3; Run 1 4; Run 1 5; Run 0 6; Run 1 7]).
  split; [repeat constructor; cbn; intuition discriminate|]. split; [intros ps X; cbn in X; intuition discriminate|].
  unfold run. destruct early; cbn; unfold clash; cbn; rewrite E, R; cbn; reflexivity.
Qed.

(** *** C52.  Parameters of HamiltonianOne: fields in V/cm and G (HamiltonianOne.cpp:477-495). *)
Record fields := Fields { f_Ex : Q; f_Ey : Q; f_Ez : Q; f_Bx : Q; f_By : Q; f_Bz : Q }.
Definition conf_one (basic : conf) (f : fields) : conf :=
  write (write (write (write (write (write basic "Ex" (fmt6 (f_Ex f))) "Ey" (fmt6 (f_Ey f))) "Ez" (fmt6 (f_Ez f)))
    "Bx" (fmt6 (f_Bx f))) "By" (fmt6 (f_By f))) "Bz" (fmt6 (f_Bz f)).
Definition component (f : fields) : list Q := [f_Ex f; f_Ey f; f_Ez f; f_Bx f; f_By f; f_Bz f].
Definition close (x y : Q) : Prop := exists v, (Qabs (v - x) <= (1 # 200000) * Qabs v /\ Qabs (v - y) <= (1 # 200000) * Qabs v)%Q.
Lemma conf_one_close : forall basic f g, Forall is_double (component f) -> Forall is_double (component g) ->
  conf_one basic f = conf_one basic g -> Forall2 close (component f) (component g).
Proof.
  intros basic f g Df Dg E. unfold component in *.
  repeat match goal with H : Forall _ (_ :: _) |- _ => apply Forall_inv in H as ?; apply Forall_inv_tail in H end.
  assert (K : forall k, get (conf_one basic f) k = get (conf_one basic g) k) by (intro; rewrite E; reflexivity).
  pose proof (K "Ex"%string) as K1. pose proof (K "Ey"%string) as K2. pose proof (K "Ez"%string) as K3.
  pose proof (K "Bx"%string) as K4. pose proof (K "By"%string) as K5. pose proof (K "Bz"%string) as K6.
  unfold conf_one, write in *. rewrite !get_put in *. cbn [String.eqb Ascii.eqb Bool.eqb] in *.
  injection K1 as K1. injection K2 as K2. injection K3 as K3. injection K4 as K4. injection K5 as K5. injection K6 as K6.
  repeat constructor; apply fmt6_close; auto using double_in_range.
Qed.
(** The matrix that is returned belongs to fields that agree with the requested ones to about five digits.
    Missing: agreement of the fields, see the next theorem. *)
Theorem C52_partial : forall cx fconv base jprint jparse basic calc es es2 p,
  (0 <= base)%Z -> boost_json jprint jparse ->
  let h := es ++ Restart [p] :: es2 in
  good (conf_one basic) h -> (forall q, In q (params h) -> fine cx base (conf_one basic) calc q /\ Forall is_double (component q)) ->
  no_restart es2 -> enough (conf_one basic) calc (file_of cx) (jtext jprint) p <= runs_of 0 es2 ->
  exists t q, nth_error (team (cache cx fconv base jprint jparse (conf_one basic) calc true h)) 0 = Some t /\
    at_ t = Done (calc q) /\ Forall2 close (component q) (component p).
Proof.
  intros cx fconv base jprint jparse basic calc es es2 p B J h G O N R.
  destruct (@C51_one_partial cx fconv base jprint jparse _ (conf_one basic) calc es es2 p B J G (fun q Hq => proj1 (O q Hq)) N R) as (t & q & T & Pt & D & Hq & E).
  exists t, q. split; auto. split; auto. apply (conf_one_close basic); auto. { apply O; auto. }
  apply O. unfold h, params. rewrite map_app, concat_app. apply in_app_iff. right. left. reflexivity.
Qed.

(** Two fields that differ, are written equally; who asks for the second one after somebody asked for the first one gets
    the matrix of the first one. *)
Theorem C52_refuted : exists p q, Forall is_double (component p) /\ Forall is_double (component q) /\ ~ (f_Ex p == f_Ex q)%Q /\
  forall cx fconv base jprint jparse basic calc, (0 <= base)%Z -> boost_json jprint jparse ->
  fine cx base (conf_one basic) calc p ->
  exists es es2, NoDup (draws (Restart [p] :: es ++ Restart [q] :: es2)) /\ no_restart es /\ no_restart es2 /\
    team (cache cx fconv base jprint jparse (conf_one basic) calc true (Restart [p] :: es ++ Restart [q] :: es2)) = [Thread q (Done (calc p))].
Proof.
  exists (Fields (1000001 # 1) 0 0 0 0 0), (Fields (1000002 # 1) 0 0 0 0 0).
  assert (D0 : is_double 0) by (exists 0%Z, 0%Z; split; [reflexivity|lia]).
  split; [|split; [|split]].
  - repeat constructor; auto. exists 1000001%Z, 0%Z. split; [reflexivity|lia].
  - repeat constructor; auto. exists 1000002%Z, 0%Z. split; [reflexivity|lia].
  - cbn. intro H. unfold Qeq in H. cbn in H. lia.
  - intros cx fconv base jprint jparse basic calc B J F.
    set (p := Fields (1000001 # 1) 0 0 0 0 0) in *. set (q := Fields (1000002 # 1) 0 0 0 0 0) in *.
    assert (E : conf_one basic q = conf_one basic p).
    { unfold conf_one, p, q. cbn [f_Ex f_Ey f_Ez f_Bx f_By f_Bz]. replace (fmt6 (1000002 # 1)) with (fmt6 (1000001 # 1)) by (vm_compute; reflexivity). reflexivity. }
    destruct (@second_run _ _ _ (conf_one basic) equal calc (file_of cx) (of_file cx fconv base) (jtext jprint) (jread jparse) true
      equal_iff p q (calc p) E (fine_json J F) (proj1 (fine_dec fconv B F))) as (d & fl & R).
    exists (turns _ 0 (first_len (conf_one basic) calc (file_of cx) (jtext jprint) p)), (turns _ (first_len (conf_one basic) calc (file_of cx) (jtext jprint) p) 9).
    split; [|split; [apply turns_no_restart|split; [apply turns_no_restart|]]].
    + match goal with |- NoDup (draws (?a :: ?b ++ ?c :: ?d)) => change (a :: b ++ c :: d) with ([a] ++ b ++ [c] ++ d) end.
      rewrite !draws_app, !draws_turns. cbn [draws draws_of map concat app]. rewrite <- seq_app. apply seq_NoDup.
    + unfold cache. change (?a :: ?b ++ ?c) with ((a :: b) ++ c). rewrite R. reflexivity.
Qed.

Definition demo_a : csc SparseModel.value := Csc 2 2 [0;1;2] [0;1] [(le 8 1, @nil Z); (le 8 2, [])].
Definition demo_b : csc SparseModel.value := Csc 2 1 [0;2] [0;1] [(le 8 1, @nil Z); (le 8 1, [])].
Definition demo_b' : csc SparseModel.value := Csc 2 1 [2;2] [0;1] [(le 8 1, @nil Z); (le 8 1, [])].
Definition demo_file : list Z := Eval vm_compute in match save (ser false (demo_a, demo_b)) with Ok e => e | _ => [] end.
Lemma demo_saved : save (ser false (demo_a, demo_b)) = Ok demo_file. Proof. vm_compute. reflexivity. Qed.
Lemma demo_len : Z.of_nat (length demo_file) = 138%Z. Proof. vm_compute. reflexivity. Qed.
Lemma demo_fits_a : compressed demo_a /\ fits false demo_a.
Proof.
  assert (X : forall c, c < 2 -> c = 0 \/ c = 1) by lia. split.
  - repeat split; try reflexivity; [|repeat constructor]. cbn [demo_a m_cols m_outer]. intros c Hc. destruct (X c Hc) as [-> | ->]; cbn; lia.
  - repeat split; cbn; try lia; repeat constructor.
Qed.
Lemma demo_fits_b : compressed demo_b /\ fits false demo_b.
Proof.
  split.
  - repeat split; try reflexivity; [|repeat constructor]. cbn [demo_b m_cols m_outer]. intros c Hc. replace c with 0 by lia. cbn. lia.
  - repeat split; cbn; try lia; repeat constructor.
Qed.

(** A matrix that cannot be stored: whoever asks for it a second time gets another matrix. *)
Theorem C51_unstorable_refuted : exists m m' : matrix, m <> m' /\
  forall fconv base jprint jparse P (fmt : P -> conf) calc p, (0 <= base)%Z -> (base < 2 ^ 62)%Z -> boost_json jprint jparse ->
  calc p = m -> (exists os, fmt p = make os) -> plain (fmt p) ->
  forall early, exists es es2, NoDup (draws (Restart [p] :: es ++ Restart [p] :: es2)) /\ no_restart es /\ no_restart es2 /\
    team (cache false fconv base jprint jparse fmt calc early (Restart [p] :: es)) = [Thread p (Done m)] /\
    team (cache false fconv base jprint jparse fmt calc early (Restart [p] :: es ++ Restart [p] :: es2)) = [Thread p (Done m')].
Proof.
  exists (demo_a, demo_b), (demo_a, demo_b'). split; [discriminate|].
  intros fconv base jprint jparse P fmt calc p B B2 J Cm (os & Eos) Pl early.
  assert (Jr : jread jparse (jtext jprint (fmt p)) = Some (fmt p)).
  { unfold jread, jtext. rewrite Eos in Pl. rewrite Eos. destruct (C56_json_partial os Pl) as (t & S & L & _). rewrite S. rewrite J; [rewrite L; reflexivity|].
    unfold save_to_json in S. destruct (writable (to_tree (make os))) eqn:W; [|discriminate]. injection S as <-. exact W. }
  assert (D : of_file false fconv base (file_of false (calc p)) = Some (demo_a, demo_b')).
  { rewrite Cm. unfold of_file, file_of. rewrite demo_saved.
    destruct demo_fits_a as [Ca Fa], demo_fits_b as [Cb Fb].
    rewrite (@deser_ser false fconv base demo_a demo_b demo_file Ca Cb Fa Fb demo_saved B) by (rewrite demo_len; lia).
    rewrite !build_raw by auto. vm_compute. reflexivity. }
  destruct (@second_run _ _ _ fmt equal calc (file_of false) (of_file false fconv base) (jtext jprint) (jread jparse) early equal_iff p p (demo_a, demo_b') eq_refl Jr D)
    as (d & fl & R).
  destruct (@first_run _ _ _ fmt equal calc (file_of false) (of_file false fconv base) (jtext jprint) (jread jparse) early p) as (d0 & fl0 & R0 & _).
  exists (turns _ 0 (first_len fmt calc (file_of false) (jtext jprint) p)), (turns _ (first_len fmt calc (file_of false) (jtext jprint) p) 9).
  split; [|split; [apply turns_no_restart|split; [apply turns_no_restart|split]]].
  + match goal with |- NoDup (draws (?a :: ?b ++ ?c :: ?d)) => change (a :: b ++ c :: d) with ([a] ++ b ++ [c] ++ d) end.
    rewrite !draws_app, !draws_turns. cbn [draws draws_of map concat app]. rewrite <- seq_app. apply seq_NoDup.
  + unfold cache. rewrite R0, Cm. reflexivity.
  + unfold cache. change (?a :: ?b ++ ?c) with ((a :: b) ++ c). rewrite R. reflexivity.
Qed.

(** The hypotheses of C51, C52: HamiltonianOne is asked for the field (1000001, 0, ...) and killed after seven actions, then
    asked for it again; [demo_a] is diag(1,2).  The fields are doubles, the keys are plain, the JSON printer exists. *)
Definition demo_p : fields := Fields (1000001 # 1) 0 0 0 0 0.
Definition demo_history : list (event fields) := (Restart [demo_p] :: turns _ 0 7) ++ Restart [demo_p] :: turns _ 7 1000.
Lemma demo_fine : forall basic, (exists os, basic = make os) -> plain basic -> fine false 4096 (conf_one basic) (fun _ => (demo_a, demo_a)) demo_p.
Proof.
  intros basic (os & E) Pl. split; [|split].
  - destruct demo_fits_a as [C F]. unfold storable_matrix. cbn [fst snd].
    assert (S : storable demo_a) by (right; exists 0; split; [cbn; lia|discriminate]).
    repeat (split; [assumption|]). assert (L : Z.of_nat (length (file_of false (demo_a, demo_a))) = 142%Z) by (vm_compute; reflexivity). rewrite L. lia.
  - subst. exists (os ++ [Write "Ex" (fmt6 (f_Ex demo_p)); Write "Ey" (fmt6 (f_Ey demo_p)); Write "Ez" (fmt6 (f_Ez demo_p));
      Write "Bx" (fmt6 (f_Bx demo_p)); Write "By" (fmt6 (f_By demo_p)); Write "Bz" (fmt6 (f_Bz demo_p))]).
    unfold make, conf_one. rewrite fold_left_app. reflexivity.
  - intros k v H. unfold conf_one, write in H. repeat (apply in_put in H as [[-> _]|H]; [split; [reflexivity|discriminate]|]). apply (Pl _ _ H).
Qed.
Example C51_nonvacuous : boost_json demo_print demo_parse /\ good (conf_one [("n1", "60")]%string) demo_history /\
  (forall q, In q (params demo_history) -> fine false 4096 (conf_one [("n1", "60")]%string) (fun _ => (demo_a, demo_a)) q /\ Forall is_double (component q)) /\
  enough (conf_one [("n1", "60")]%string) (fun _ : fields => (demo_a, demo_a)) (file_of false) (jtext demo_print) demo_p <= runs_of 0 (turns fields 7 1000) /\
  no_restart (turns fields 7 1000).
Proof.
  split; [intros t _; apply demo_json|]. split; [|split; [|split]].
  - split.
    + unfold demo_history. rewrite draws_app. change (Restart [demo_p] :: turns fields 0 7) with ([Restart [demo_p]] ++ turns fields 0 7).
      change (Restart [demo_p] :: turns fields 7 1000) with ([Restart [demo_p]] ++ turns fields 7 1000).
      rewrite !draws_app, !draws_turns. change (NoDup (seq 0 7 ++ seq (0 + 7) 1000)). rewrite <- seq_app. apply seq_NoDup.
    + intros ps H. unfold demo_history in H. apply in_app_iff in H as [[H|H]|[H|H]].
      * injection H as <-. repeat constructor. intros [].
      * elim (@turns_no_restart _ _ _ _ H).
      * injection H as <-. repeat constructor. intros [].
      * elim (@turns_no_restart _ _ _ _ H).
  - assert (Q : forall q, In q (params demo_history) -> q = demo_p).
    { intros q H. unfold params in H. apply in_concat in H as (l & Hl & Hq). apply in_map_iff in Hl as (e & <- & He).
      unfold demo_history in He. apply in_app_iff in He as [[He|He]|[He|He]]; try (subst e; destruct Hq as [Hq|[]]; auto);
        destruct e as [|ps]; [destruct Hq|elim (@turns_no_restart _ _ _ _ He)|destruct Hq|elim (@turns_no_restart _ _ _ _ He)]. }
    intros q H. rewrite (Q q H). split.
    + apply demo_fine. { exists [Write "n1" "60"]. reflexivity. }
      intros k v [E|[]]. injection E as <- <-. split; [reflexivity|discriminate].
    + assert (D0 : is_double 0) by (exists 0%Z, 0%Z; split; [reflexivity|lia]).
      repeat constructor; auto. exists 1000001%Z, 0%Z. split; [reflexivity|lia].
  - apply Nat.leb_le. vm_compute. reflexivity.
  - apply turns_no_restart.
Qed.

Print Assumptions C56_append. Print Assumptions C56_equal. Print Assumptions C56_const_access. Print Assumptions C56_access.
Print Assumptions C56_write. Print Assumptions C56_json_partial. Print Assumptions C56_json_dot_refuted.
Print Assumptions C67_int. Print Assumptions C67_double_partial. Print Assumptions C67_double_refuted.
Print Assumptions C51_two_partial. Print Assumptions C51_one_partial. Print Assumptions C51_unstorable_refuted.
Print Assumptions C53_two. Print Assumptions C53_one_partial. Print Assumptions C53_one_refuted. Print Assumptions C68_same_conf_refuted.
Print Assumptions C52_partial. Print Assumptions C52_refuted.
Print Assumptions C56_json_written. Print Assumptions C56_json_empty_key. Print Assumptions C56_count.
