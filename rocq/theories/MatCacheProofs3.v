(** Proofs about MatCacheModel: failures, sessions, decimal numbers. *)
From Coq Require Import ZArith Lia Bool List Reals Lra String Permutation.
From Flocq Require Import Core Relative.
Import ListNotations.
From Verif Require Import Base BasisnamesModel InteractModel InteractSpec InteractProofs OneFieldModel OneFieldSpec MatCacheModel MatCacheSpec MatCacheProofs MatCacheProofs2.
Set Implicit Arguments.
Local Open Scope R_scope.

Section F.
Variables w3j w6j : Z -> Z -> Z -> Z -> Z -> Z -> R.
Variable radial : method -> string -> Z -> Z -> Z -> Z -> Z -> Z -> Z -> res num.
Variable ord : list okey -> list okey.
Hypothesis ord_perm : forall l, Permutation (ord l) l.
Notation calc := (calc w3j w6j radial).
(** ** a value that cannot be determined *)
Lemma calc_object : forall o o' k, meth o = meth o' -> species o = species o' -> calc o k = calc o' k.
Proof. intros o o' k E F. unfold MatCacheModel.calc. rewrite E, F. reflexivity. Qed.
Lemma store_bad : forall k o, (forall x, calc o k <> Ok (Num x)) -> forall ks m db, In k ks -> forall t, snd (store w3j w6j radial o m db ks) <> Ok t.
Proof.
  intros k o B. induction ks as [|a ks IH]; intros m db I t; [destruct I|]. cbn [store]. destruct (okey_dec a k) as [E|N].
  - subst a. destruct (calc o k) as [[x| |]| |] eqn:C; cbn [snd]; try discriminate. exfalso. apply (B x). reflexivity.
  - destruct (calc o a) as [[x| |]| |]; cbn [snd]; try discriminate. destruct (find_row db (owner_of o a) a); cbn [snd]; [discriminate|]. apply IH. destruct I; [contradiction|assumption].
Qed.
Lemma store_keeps : forall o k ks m db t, ~ In k ks -> snd (store w3j w6j radial o m db ks) = Ok t -> lookup (fst (store w3j w6j radial o m db ks)) k = lookup m k.
Proof.
  intros o k. induction ks as [|a ks IH]; intros m db t N; cbn [store]; [reflexivity|]. destruct (calc o a) as [[x| |]| |]; cbn [fst snd]; try discriminate. destruct (find_row db (owner_of o a) a); cbn [fst snd]; [discriminate|].
  intros E. rewrite (IH _ _ t) by (auto; intros I; apply N; right; assumption). rewrite lookup_assign. destruct (okey_dec a k) as [E'|_]; [exfalso; apply N; left; assumption|reflexivity].
Qed.
Lemma store_nodup : forall o ks m db, NoDup (map fst m) -> NoDup (map fst (fst (store w3j w6j radial o m db ks))).
Proof.
  intros o. induction ks as [|a ks IH]; intros m db N; cbn [store]; [exact N|]. destruct (calc o a) as [[x| |]| |]; cbn [fst]; try (apply nodup_assign); auto. destruct (find_row db (owner_of o a) a); cbn [fst]; [|apply IH]; apply nodup_assign; assumption.
Qed.
Lemma stages_bad : forall k o, (forall x, calc o k <> Ok (Num x)) -> forall fs m db, NoDup (map fst m) -> lookup m k = Some Max -> (exists f, In f fs /\ f k = true) ->
  forall t, snd (store_stages w3j w6j radial ord o m db fs) <> Ok t.
Proof.
  intros k o B. induction fs as [|f fs IH]; intros m db ND L (g & I & Hg) t; [destruct I|]. cbn [store_stages].
  pose proof (@store_nodup o (pending ord m f) m db ND) as ND1. pose proof (@store_keeps o k (pending ord m f) m db) as KP. pose proof (@store_bad k o B (pending ord m f) m db) as BD.
  destruct (store w3j w6j radial o m db (pending ord m f)) as [m1 [db1| |]] eqn:E; cbn [fst snd] in *; try discriminate.
  destruct (in_dec okey_dec k (pending ord m f)) as [J|J]; [exfalso; apply (BD J db1); reflexivity|]. apply IH; [assumption|rewrite (KP db1 J eq_refl); assumption|].
  destruct I as [Ef|I]; [exfalso; apply J; subst g; apply (proj2 (@pending_spec ord ord_perm (meth o) (species o) m f k ND)); auto|]. exists g. auto.
Qed.
Lemma store_ub : forall o, (forall k, calc o k <> UB) -> forall ks m db, snd (store w3j w6j radial o m db ks) <> UB.
Proof.
  intros o H. induction ks as [|a ks IH]; intros m db; cbn [store snd]; [discriminate|]. specialize (H a). destruct (calc o a) as [[x| |]| |]; cbn [snd]; try discriminate; [|congruence]. destruct (find_row db (owner_of o a) a); cbn [snd]; [discriminate|apply IH].
Qed.
Lemma stages_ub : forall o, (forall k, calc o k <> UB) -> forall fs m db, snd (store_stages w3j w6j radial ord o m db fs) <> UB.
Proof.
  intros o H. induction fs as [|f fs IH]; intros m db; cbn [store_stages snd]; [discriminate|]. pose proof (@store_ub o H (pending ord m f) m db) as U.
  destruct (store w3j w6j radial o m db (pending ord m f)) as [m1 [db1| |]]; cbn [snd] in *; [apply IH|discriminate|contradiction].
Qed.
Lemma calc_not_ub : forall o k, (forall m sp k n l j n' l' j', radial m sp k n l j n' l' j' <> UB) -> calc o k <> UB.
Proof. intros o k H. unfold MatCacheModel.calc. destruct k; try discriminate. destruct (meth o); [apply H..|discriminate]. Qed.
(** a fresh object that needs a value it cannot determine and that is not in the file throws *)
Lemma precalculate_bad : forall a names db db' o k, mem o = [] -> (forall m sp k n l j n' l' j', radial m sp k n l j n' l' j' <> UB) ->
  In k (all_keys a names) -> find_row db (owner_of o k) k = None -> (forall x, calc o k <> Ok (Num x)) ->
  snd (precalculate w3j w6j radial ord a names db db' o) = Throw.
Proof.
  intros a names db db' o k E U I F B. unfold precalculate. rewrite E. destruct (note [] [] (all_keys a names)) as [m1 tmp] eqn:E1. cbn [fst snd].
  destruct (@note_spec (meth o) (species o) (all_keys a names) [] [] m1 tmp (NoDup_nil _) E1) as (ND1 & L1 & T1).
  destruct (@load_spec (meth o) (species o) tmp m1 db o eq_refl eq_refl ND1) as [ND2 L2].
  { intros k' I'. apply T1 in I'. destruct I' as [[]|[I' L]]. unfold dom. rewrite L1. cbn [lookup]. destruct (in_dec okey_dec k' (all_keys a names)); [discriminate|contradiction]. }
  assert (L : lookup (load o db m1 tmp) k = Some Max).
  { rewrite L2. replace (find_row db _ k) with (@None R). rewrite L1. cbn [lookup]. destruct (in_dec okey_dec k (all_keys a names)); [reflexivity|contradiction]. }
  pose proof (@stages_bad k o B (stages a) (load o db m1 tmp) db' ND2 L (@keys_staged a names k I)) as NB.
  pose proof (@stages_ub o (fun k => @calc_not_ub o k U) (stages a) (load o db m1 tmp) db') as NU.
  destruct (store_stages w3j w6j radial ord o (load o db m1 tmp) db' (stages a)) as [m3 [t| |]]; cbn [snd] in *; [exfalso; apply (NB t); reflexivity|reflexivity|contradiction].
Qed.
End F.

Section S.
Variables w3j w6j : Z -> Z -> Z -> Z -> Z -> Z -> R.
Variable radial : method -> string -> Z -> Z -> Z -> Z -> Z -> Z -> Z -> res num.
Variable Rad : method -> string -> Z -> Z * Z * Z -> Z * Z * Z -> R.
Variable ord : list okey -> list okey.
Hypothesis ord_perm : forall l, Permutation (ord l) l.
Hypothesis RE : radial_exact radial Rad.
Variable me : method.
Variable sp : string.
Hypothesis me_ok : me <> Error.
Notation good := (good w3j w6j radial Rad me sp).
Let own k : owner := match k with KR _ _ _ _ _ _ _ => Some (me, sp) | _ => None end.
(** keys of a list of requests *)
Definition keys_of (rs : list request) (names : list one) (k : okey) : Prop := exists a, In a rs /\ In k (all_keys a names).
(** a session on a file [db] of an object whose values are all in the file: afterwards all values are in the file; those found there
    have six digits, the others are exact *)
Lemma session_spec : forall rs names db m, settled m -> Forall doublet names -> Forall (row_ok w3j w6j Rad) db -> (forall k, dom m k -> find_row db (own k) k <> None) ->
  exists m' t, session w3j w6j radial ord rs names db (Object me sp m) = (Object me sp m', t, Ok tt) /\ settled m' /\ Forall (row_ok w3j w6j Rad) t /\
    (forall k, dom m k \/ keys_of rs names k -> dom m' k /\ find_row t (own k) k <> None) /\
    (forall k v, find_row db (own k) k = Some v -> find_row t (own k) k = Some v) /\
    (forall k, dom m k -> lookup m' k = lookup m k) /\
    (forall k, ~ dom m k -> keys_of rs names k -> exists x, good k x /\ lookup m' k = Some (Num (match find_row db (own k) k with Some _ => fmt x | None => x end))).
Proof.
  induction rs as [|a rs IH]; intros names db m S D OK DOM.
  - exists m, db. cbn [session]. split; [reflexivity|]. split; [assumption|]. split; [assumption|]. split; [intros k [H|(a & [] & _)]; auto|]. split; [auto|]. split; [auto|]. intros k _ (a & [] & _).
  - destruct (@precalculate_gen w3j w6j radial Rad ord ord_perm me sp a names db db m S) as (E1 & E2 & _ & A & B); [intros k Hk; apply (@good_keys w3j w6j radial Rad RE me sp me_ok a names); assumption|assumption|].
    destruct (B eq_refl) as [t1 Et]. destruct (A t1 Et) as (S1 & D1 & O1 & N1 & F1 & K1 & W1 & X1). clear A B. cbn [session].
    change (forall k v, find_row db (own k) k = Some v -> find_row t1 (own k) k = Some v) in K1.
    change (forall k, ~ In k (all_keys a names) -> find_row t1 (own k) k = find_row db (own k) k) in X1.
    change (forall k x, ~ dom m k -> In k (all_keys a names) -> find_row db (own k) k = None -> good k x -> find_row t1 (own k) k = Some (fmt x) /\ find_row db (own k) k = None) in W1.
    destruct (precalculate w3j w6j radial ord a names db db (Object me sp m)) as [o1 r1] eqn:EP. cbn [fst snd] in *. subst r1. destruct o1 as [me1 sp1 m1]. cbn [meth species mem] in *. subst me1 sp1.
    assert (GK : forall k, In k (all_keys a names) -> exists x, good k x) by (intros k Hk; apply (@good_keys w3j w6j radial Rad RE me sp me_ok a names); assumption).
    assert (DOM1 : forall k, dom m1 k -> find_row t1 (own k) k <> None).
    { intros k Hk. apply D1 in Hk. destruct (find_row db (own k) k) as [v|] eqn:F; [rewrite (K1 k v F); discriminate|]. destruct Hk as [Hk|Hk]; [exfalso; apply (DOM k Hk F)|].
      destruct (lookup m k) as [w|] eqn:L; [exfalso; apply (DOM k); [unfold dom; rewrite L; discriminate|assumption]|]. destruct (GK k Hk) as [x Gx]. assert (ND : ~ dom m k) by (unfold dom; rewrite L; auto). destruct (W1 k x ND Hk F Gx) as [W _]. rewrite W. discriminate. }
    destruct (IH names t1 m1 S1 D (F1 OK) DOM1) as (m' & t & Es & S' & Ft & Kt & Mt & Ot & Nt). exists m', t. split; [exact Es|]. split; [assumption|]. split; [assumption|]. split; [|split; [|split]].
    + intros k [Hk|(b & [Eb|Ib] & Hk)].
      * apply Kt. left. apply D1. auto.
      * subst b. apply Kt. left. apply D1. auto.
      * apply Kt. right. exists b. auto.
    + intros k v F. apply Mt. apply K1. assumption.
    + intros k Hk. rewrite Ot by (apply D1; auto). apply O1. assumption.
    + intros k ND (b & Ib & Hk). destruct (lookup m1 k) as [w|] eqn:L1.
      * assert (DK : dom m1 k) by (unfold dom; rewrite L1; discriminate). rewrite Ot by assumption. apply D1 in DK. destruct DK as [DK|DK]; [contradiction|]. apply N1; assumption.
      * assert (DK : ~ dom m1 k) by (unfold dom; rewrite L1; auto). assert (NA : ~ In k (all_keys a names)) by (intros X; apply DK; apply D1; auto). destruct Ib as [Eb|Ib]; [congruence|].
        destruct (Nt k DK) as (x & Gx & Lx); [exists b; auto|]. exists x. split; [assumption|]. rewrite Lx. f_equal. f_equal.
        destruct (find_row db (own k) k) as [v|] eqn:F; [rewrite (K1 k v F); reflexivity|]. destruct (find_row t1 (own k) k) as [v|] eqn:F'; [|reflexivity]. rewrite X1 in F' by assumption. congruence.
Qed.
End S.
