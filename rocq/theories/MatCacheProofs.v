(** Proofs about MatCacheModel: memory, file, one precalculation. *)
From Coq Require Import ZArith Lia Bool List Reals Lra String Permutation.
From Flocq Require Import Core Relative.
Import ListNotations.
From Verif Require Import Base BasisnamesModel InteractModel InteractSpec InteractProofs OneFieldModel OneFieldSpec MatCacheModel MatCacheSpec.
Set Implicit Arguments.
Local Open Scope R_scope.

(** ** memory *)
Lemma lookup_assign : forall m k v k', lookup (assign m k v) k' = if okey_dec k k' then Some v else lookup m k'.
Proof.
  induction m as [|[a w] m IH]; intros k v k'; cbn [assign lookup].
  - reflexivity.
  - destruct (okey_dec a k) as [E|N]; cbn [lookup].
    + subst a. destruct (okey_dec k k'); reflexivity.
    + rewrite IH. destruct (okey_dec a k') as [E|N']; [|reflexivity]. subst a. destruct (okey_dec k k') as [E|_]; [congruence|reflexivity].
Qed.
Lemma keys_assign : forall m k v, map fst (assign m k v) = map fst m \/ (lookup m k = None /\ map fst (assign m k v) = map fst m ++ [k]).
Proof.
  induction m as [|[a w] m IH]; intros k v; cbn [assign lookup map fst].
  - right. auto.
  - destruct (okey_dec a k) as [E|N]; cbn [map fst]; [left; congruence|]. destruct (IH k v) as [E|[L E]]; [left; congruence|right; rewrite E; auto].
Qed.
Lemma lookup_in : forall m k, lookup m k = None <-> ~ In k (map fst m).
Proof.
  induction m as [|[a w] m IH]; intros k; cbn [lookup map fst In]; [intuition|]. destruct (okey_dec a k) as [E|N]; [split; [discriminate|intros H; exfalso; apply H; auto]|].
  rewrite IH. intuition.
Qed.
Lemma nodup_assign : forall m k v, NoDup (map fst m) -> NoDup (map fst (assign m k v)).
Proof.
  intros m k v H. destruct (keys_assign m k v) as [->|[L ->]]; [assumption|]. apply lookup_in in L. apply Permutation_NoDup with (k :: map fst m).
  - apply Permutation_cons_append.
  - constructor; assumption.
Qed.
Lemma lookup_pair : forall m k v, NoDup (map fst m) -> (In (k, v) m <-> lookup m k = Some v).
Proof.
  induction m as [|[a w] m IH]; intros k v ND; cbn [lookup In]; [intuition discriminate|]. inversion ND as [|? ? NI ND']; subst. destruct (okey_dec a k) as [E|N].
  - subst a. split; [intros [E|I]; [congruence|]|intros E; left; congruence]. exfalso. apply NI. apply in_map_iff. exists (k, v). auto.
  - rewrite <- IH by assumption. intuition congruence.
Qed.
Definition dom (m : memory) (k : okey) : Prop := lookup m k <> None.

Section One.
Variables w3j w6j : Z -> Z -> Z -> Z -> Z -> Z -> R.
Variable radial : method -> string -> Z -> Z -> Z -> Z -> Z -> Z -> Z -> res num.
Variable Rad : method -> string -> Z -> Z * Z * Z -> Z * Z * Z -> R.
Variable ord : list okey -> list okey.
Hypothesis ord_perm : forall l, Permutation (ord l) l.
Hypothesis RE : radial_exact radial Rad.
Variable me : method.
Variable sp : string.
Hypothesis me_ok : me <> Error.
Let ob m := Object me sp m.
Let own k : owner := match k with KR _ _ _ _ _ _ _ => Some (me, sp) | _ => None end.
Notation calc := (calc w3j w6j radial).
Notation row_ok := (row_ok w3j w6j Rad).

(** correct value of a key *)
Definition good (k : okey) (x : R) : Prop := row_ok (own k, k, fmt x) /\ forall m, calc (ob m) k = Ok (Num x).
Definition fine (k : okey) (v : num) : Prop := exists x y, good k x /\ v = Num y /\ six_digits x y.

Lemma find_row_in : forall t o k v, find_row t o k = Some v -> In (o, k, v) t.
Proof.
  induction t as [|[[o' k'] v'] t IH]; intros o k v; cbn [find_row]; [discriminate|]. destruct (owner_dec o' o) as [Eo|]; [destruct (okey_dec k' k) as [Ek|]|].
  - intros E. left. congruence.
  - intros E. right. auto.
  - intros E. right. auto.
Qed.
Lemma row_ok_value : forall k v x, row_ok (own k, k, v) -> good k x -> v = fmt x.
Proof.
  intros k v x H G. destruct G as [G _]. remember (fmt x) as y. clear Heqy x.
  inversion H as [m1 sp1 k1 s1 t1 n1|k1 s1 t1|k1 s1 t1|k1 s1 t1|k1 s1 t1]; subst.
  all: inversion G as [m2 sp2 k2 s2 t2 n2|k2 s2 t2|k2 s2 t2|k2 s2 t2|k2 s2 t2]; subst; f_equal.
  all: repeat match goal with X : Z.of_nat _ = Z.of_nat _ |- _ => apply Nat2Z.inj in X; subst end; unfold own in *; repeat match goal with X : Some _ = Some _ |- _ => injection X as ? ?; subst end.
  all: unfold f_radial, nlj, f_angular, f_orbital, f_spin, f_reduced; repeat match goal with X : _ ?a = _ ?b |- _ => rewrite X; clear X end; congruence.
Qed.
Lemma owner_ob : forall m k, owner_of (ob m) k = own k. Proof. intros m [| | | |]; reflexivity. Qed.

(** ** keys of doublets have correct values *)
Lemma pow_even : forall e, Z.Even e -> pow_m1 e = Num (sign (e / 2)).
Proof. intros e H. unfold pow_m1. apply Z.even_spec in H. rewrite H. reflexivity. Qed.
Lemma good_radial : forall k s t, good (key_radial (Z.of_nat k) s t) (f_radial (Rad me sp) k s t).
Proof.
  intros k s t. unfold key_radial. set (a := One 0 _ _ _ _). set (b := One 0 _ _ _ _). cbv zeta.
  assert (E : order a b = (a, b) \/ order a b = (b, a)) by (unfold order; match goal with |- context [if ?c then _ else _] => destruct c end; auto).
  destruct RE as [RV RS]. split.
  - destruct E as [->| ->]; cbn [fst snd own]; [apply (@rad_ok w3j w6j Rad me sp k a b me_ok)|].
    replace (f_radial (Rad me sp) k s t) with (f_radial (Rad me sp) k b a) by apply RS. apply (@rad_ok w3j w6j Rad me sp k b a me_ok).
  - intros m. destruct E as [->| ->]; cbn [fst snd]; unfold MatCacheModel.calc; cbn [meth ob species]; destruct me; try congruence; rewrite RV; unfold f_radial, nlj; cbn; try reflexivity; rewrite RS; reflexivity.
Qed.
Lemma good_angular : forall k s t, doublet s -> doublet t -> good (key_angular (Z.of_nat k) s t) (f_angular w3j k s t).
Proof.
  intros k s t (_ & _ & [a A] & [b B]) _. split; [apply ang_ok|]. intros m. unfold key_angular, MatCacheModel.calc. rewrite pow_even by (exists (a - b)%Z; lia). reflexivity.
Qed.
Lemma good_s : forall k s t, doublet s -> doublet t -> good (key_s (Z.of_nat k) s t) (f_orbital w6j k s t).
Proof.
  intros k s t (Ls & Js & [a A] & _) (Lt & Jt & [b B] & _). split; [apply orb_ok|]. intros m. unfold key_s, MatCacheModel.calc. do 2 f_equal. unfold f_orbital. cbv zeta.
  match goal with |- (if ?c then _ else _) = Num (if ?d then _ else _) => replace d with c; [destruct c; [|reflexivity]|] end.
  - rewrite pow_even by (exists (l_ s + 1 + b + Z.of_nat k)%Z; lia). cbn [times]. do 3 f_equal. replace (2 * l_ s + 1 + jj t + 2 * Z.of_nat k)%Z with ((l_ s + Z.of_nat k) * 2 + (1 + jj t))%Z by ring.
    rewrite Z.div_add_l by lia. f_equal. ring.
  - apply eq_true_iff_eq. rewrite !andb_true_iff, !Z.leb_le, !Z.eqb_eq. lia.
Qed.
Lemma good_l : forall k s t, doublet s -> doublet t -> good (key_l (Z.of_nat k) s t) (f_spin w6j k s t).
Proof.
  intros k s t (Ls & Js & [a A] & _) (Lt & Jt & [b B] & _). split; [apply spin_ok|]. intros m. unfold key_l, MatCacheModel.calc. do 2 f_equal. unfold f_spin.
  rewrite pow_even by (exists (l_ s + 1 + a + Z.of_nat k)%Z; lia). cbn [times]. do 3 f_equal. replace (2 * l_ s + 1 + jj s + 2 * Z.of_nat k)%Z with ((l_ s + Z.of_nat k) * 2 + (1 + jj s))%Z by ring.
  rewrite Z.div_add_l by lia. f_equal. ring.
Qed.
Lemma good_m : forall k s t, good (key_m (Z.of_nat k) s t) (f_reduced w3j k s t).
Proof.
  intros k s t. split; [apply red_ok|]. intros m. unfold key_m, MatCacheModel.calc. rewrite pow_even by (exists (l_ s); lia). cbn [times]. replace (2 * l_ s / 2)%Z with (l_ s) by (rewrite Z.mul_comm, Z.div_mul; lia). reflexivity.
Qed.
Lemma in_keys : forall a names k, In k (all_keys a names) <-> exists r c, In r names /\ In c names /\ wanted_pair a r c = true /\ In k (pair_keys a r c).
Proof.
  intros a names k. unfold all_keys. rewrite in_flat_map. split.
  - intros (c & Hc & H). apply in_flat_map in H. destruct H as (r & Hr & H). destruct (wanted_pair a r c) eqn:W; [|destruct H]. exists r, c. auto.
  - intros (r & c & Hr & Hc & W & H). exists c. split; [assumption|]. apply in_flat_map. exists r. rewrite W. auto.
Qed.
Lemma good_keys : forall a names k, Forall doublet names -> In k (all_keys a names) -> exists x, good k x.
Proof.
  intros a names k D H. apply in_keys in H. destruct H as (r & c & Hr & Hc & _ & I). rewrite Forall_forall in D. pose proof (D _ Hr) as Dr. pose proof (D _ Hc) as Dc.
  unfold pair_keys in I. destruct I as [<-|I]; [eexists; apply good_radial|].
  destruct (mode a); [destruct I as [<-|[<-|[<-|[]]]]|destruct I as [<-|[<-|[<-|[]]]]|destruct I]; eexists; first [apply good_angular; assumption|apply good_s; assumption|apply good_l; assumption|apply good_m].
Qed.

(** ** one precalculation *)
Lemma note_spec : forall ks m tmp m' tmp', NoDup (map fst m) -> note m tmp ks = (m', tmp') ->
  NoDup (map fst m') /\ (forall k, lookup m' k = match lookup m k with Some v => Some v | None => if in_dec okey_dec k ks then Some Max else None end) /\
  (forall k, In k tmp' <-> In k tmp \/ (In k ks /\ lookup m k = None)).
Proof.
  induction ks as [|a ks IH]; intros m tmp m' tmp' ND; cbn [note].
  - intros E. injection E as <- <-. split; [assumption|]. split; [intros k; destruct (lookup m k); reflexivity|]. cbn. intuition.
  - destruct (lookup m a) as [v|] eqn:L; intros E.
    + destruct (IH _ _ _ _ ND E) as (A & B & C). split; [assumption|]. split.
      * intros k. rewrite B. destruct (lookup m k) eqn:Lk; [reflexivity|]. destruct (in_dec okey_dec k ks), (in_dec okey_dec k (a :: ks)); try reflexivity; exfalso; cbn in *; intuition congruence.
      * intros k. rewrite C. cbn. intuition. subst. congruence.
    + assert (ND1 := @nodup_assign m a Max ND). destruct (IH _ _ _ _ ND1 E) as (A & B & C). split; [assumption|]. split.
      * intros k. rewrite B, lookup_assign. destruct (okey_dec a k) as [Ek|Nk].
        -- subst k. rewrite L. destruct (in_dec okey_dec a (a :: ks)) as [|N]; [reflexivity|exfalso; apply N; left; reflexivity].
        -- destruct (lookup m k); [reflexivity|]. destruct (in_dec okey_dec k ks), (in_dec okey_dec k (a :: ks)); try reflexivity; exfalso; cbn in *; intuition congruence.
      * intros k. rewrite C, in_app_iff, lookup_assign. cbn. destruct (okey_dec a k) as [Ek|Nk]; [subst; intuition|intuition congruence].
Qed.
Lemma load_spec : forall tmp m db o, meth o = me -> species o = sp -> NoDup (map fst m) -> (forall k, In k tmp -> dom m k) ->
  NoDup (map fst (load o db m tmp)) /\
  (forall k, lookup (load o db m tmp) k = match find_row db (own k) k with Some v => if in_dec okey_dec k tmp then Some (Num v) else lookup m k | None => lookup m k end).
Proof.
  induction tmp as [|a tmp IH]; intros m db o Em Es ND D; cbn [load].
  - split; [assumption|]. intros k. destruct (find_row db (own k) k); reflexivity.
  - assert (OW : owner_of o a = own a) by (clear - Em Es; destruct o as [me' sp' m0], a; cbn in *; subst; reflexivity). rewrite OW.
    set (m1 := match find_row db (own a) a with Some v => assign m a (Num v) | None => m end).
    assert (ND1 : NoDup (map fst m1)) by (unfold m1; destruct (find_row db (own a) a); [apply nodup_assign|]; assumption).
    assert (D1 : forall k, In k tmp -> dom m1 k).
    { intros k I. unfold m1, dom. destruct (find_row db (own a) a); [rewrite lookup_assign; destruct (okey_dec a k); [discriminate|]|]; apply D; right; assumption. }
    destruct (IH m1 db o Em Es ND1 D1) as [A B]. split; [assumption|]. intros k. rewrite B. unfold m1. destruct (find_row db (own k) k) as [v|] eqn:F.
    + destruct (in_dec okey_dec k tmp) as [I|N], (in_dec okey_dec k (a :: tmp)) as [I'|N']; try reflexivity; try (exfalso; cbn in *; intuition congruence).
      * destruct I' as [E|I']; [|contradiction]. subst a. rewrite F, lookup_assign. destruct (okey_dec k k); [reflexivity|congruence].
      * destruct (find_row db (own a) a); [|reflexivity]. rewrite lookup_assign. destruct (okey_dec a k) as [E|_]; [exfalso; apply N'; left; assumption|reflexivity].
    + destruct (find_row db (own a) a) as [v|] eqn:F'; [|reflexivity]. rewrite lookup_assign. destruct (okey_dec a k) as [E|_]; [congruence|reflexivity].
Qed.
(** the rows of db with those of new, a list of keys with their values *)
Lemma find_row_cons : forall db o k v o' k', find_row ((o, k, v) :: db) o' k' = if owner_dec o o' then if okey_dec k k' then Some v else find_row db o' k' else find_row db o' k'.
Proof. reflexivity. Qed.
Lemma store_spec : forall ks m db o, meth o = me -> species o = sp -> NoDup (map fst m) -> NoDup ks -> (forall k, In k ks -> dom m k) ->
  (forall k, In k ks -> exists x, good k x) ->
  let r := store w3j w6j radial o m db ks in
  (snd r <> UB) /\
  (forall db', snd r = Ok db' ->
    NoDup (map fst (fst r)) /\ (forall k, ~ In k ks -> lookup (fst r) k = lookup m k) /\ (forall k, In k ks -> exists x, good k x /\ lookup (fst r) k = Some (Num x)) /\
    (Forall row_ok db -> Forall row_ok db') /\
    (forall k, ~ In k ks -> find_row db' (own k) k = find_row db (own k) k) /\ (forall k x, In k ks -> good k x -> find_row db' (own k) k = Some (fmt x)) /\
    (forall k, In k ks -> find_row db (own k) k = None)) /\
  ((forall k, In k ks -> find_row db (own k) k = None) -> exists db', snd r = Ok db').
Proof.
  induction ks as [|a ks IH]; intros m db o Em Es ND NDk D G r; assert (Er := eq_refl r); unfold r in Er at 2; clearbody r; cbn [store] in Er.
  - subst r. cbn [fst snd]. split; [discriminate|]. split; [|intros _; eauto]. intros db' E. injection E as <-. split; [assumption|]. split; [auto|]. split; [intros k []|]. split; [auto|]. split; [auto|]. split; [intros k x []|intros k []].
  - destruct (G a (or_introl eq_refl)) as [x Gx]. assert (Ca : calc o a = Ok (Num x)) by (clear - Em Es Gx; destruct Gx as [_ C]; specialize (C (mem o)); destruct o; cbn in *; subst; exact C).
    rewrite Ca in Er. cbv zeta in Er. assert (OW : owner_of o a = own a) by (clear - Em Es; destruct o as [me' sp' m0], a; cbn in *; subst; reflexivity). rewrite OW in Er.
    apply NoDup_cons_iff in NDk. destruct NDk as [NI ND']. destruct (find_row db (own a) a) as [v|] eqn:F; rewrite ?F in Er.
    + subst r. cbn [fst snd]. split; [discriminate|]. split; [discriminate|]. intros H. rewrite H in F by (left; reflexivity). discriminate F.
    + assert (ND1 := @nodup_assign m a (Num x) ND).
      destruct (IH (assign m a (Num x)) ((own a, a, fmt x) :: db) o Em Es ND1 ND') as (U & A & B).
      { intros k I. unfold dom. rewrite lookup_assign. destruct (okey_dec a k); [discriminate|]. apply D. right. assumption. }
      { intros k I. apply G. right. assumption. }
      assert (FR : forall k, a <> k -> find_row ((own a, a, fmt x) :: db) (own k) k = find_row db (own k) k).
      { intros k N. rewrite find_row_cons. destruct (owner_dec (own a) (own k)); [destruct (okey_dec a k); [contradiction|]|]; reflexivity. }
      split; [rewrite Er; exact U|]. split.
      * intros db' E. rewrite Er in E. destruct (A db' E) as (A1 & A2 & A3 & A4 & A5 & A6 & A7). rewrite Er. split; [assumption|]. split; [|split; [|split; [|split; [|split]]]].
        -- intros k N. assert (a <> k) by (intros ->; apply N; left; reflexivity). assert (~ In k ks) by (intros I; apply N; right; assumption). rewrite A2 by assumption. rewrite lookup_assign. destruct (okey_dec a k); [contradiction|reflexivity].
        -- intros k [Ek|I]; [subst k|apply A3; assumption]. exists x. split; [assumption|]. rewrite A2 by assumption. rewrite lookup_assign. destruct (okey_dec a a); [reflexivity|congruence].
        -- intros O. apply A4. constructor; [apply Gx|assumption].
        -- intros k N. rewrite A5 by (intros I; apply N; right; assumption). apply FR. intros ->. apply N. left. reflexivity.
        -- intros k y [Ek|I] Gy; [subst k|apply A6; assumption]. rewrite A5 by assumption. rewrite find_row_cons. destruct (owner_dec (own a) (own a)); [|congruence]. destruct (okey_dec a a); [|congruence]. f_equal.
           assert (x = y) by (destruct Gx as [_ C1], Gy as [_ C2]; specialize (C1 []); specialize (C2 []); congruence). congruence.
        -- intros k [Ek|I]; [congruence|]. specialize (A7 k I). rewrite FR in A7; [assumption|]. intros ->. contradiction.
      * intros H. rewrite Er. apply B. intros k I. rewrite FR by (intros ->; contradiction). apply H. right. assumption.
Qed.
Lemma pending_spec : forall m f k, NoDup (map fst m) -> NoDup (pending ord m f) /\ (In k (pending ord m f) <-> lookup m k = Some Max /\ f k = true).
Proof.
  intros m f k ND. unfold pending. split.
  - apply Permutation_NoDup with (map fst (filter (fun kv => f (fst kv) && is_max (snd kv)) m)); [apply Permutation_sym, ord_perm|].
    revert ND. generalize (fun kv : okey * num => f (fst kv) && is_max (snd kv)). intros g. induction m as [|a m IH]; cbn; intros ND; [constructor|]. inversion ND as [|? ? NI ND']; subst.
    destruct (g a); cbn; [constructor|]; auto. intros I. apply NI. apply in_map_iff in I. destruct I as (b & <- & I). apply filter_In in I. apply in_map_iff. exists b. tauto.
  - transitivity (In k (map fst (filter (fun kv => f (fst kv) && is_max (snd kv)) m))).
    { split; apply Permutation_in; [|apply Permutation_sym]; apply ord_perm. }
    rewrite in_map_iff. split.
    + intros ([k' v] & E & I). cbn in E. subst k'. apply filter_In in I. destruct I as [I H]. cbn in H. apply andb_true_iff in H. destruct H as [Hf Hv]. destruct v; try discriminate Hv. split; [|assumption]. apply lookup_pair; assumption.
    + intros [L Hf]. exists (k, Max). split; [reflexivity|]. apply filter_In. split; [apply lookup_pair; assumption|]. cbn. rewrite Hf. reflexivity.
Qed.
Lemma stages_spec : forall fs m db o, meth o = me -> species o = sp -> NoDup (map fst m) -> (forall k, lookup m k = Some Max -> exists x, good k x) ->
  let r := store_stages w3j w6j radial ord o m db fs in
  snd r <> UB /\
  (forall db', snd r = Ok db' ->
    NoDup (map fst (fst r)) /\
    (forall k, lookup m k <> Some Max -> lookup (fst r) k = lookup m k) /\
    (forall k, lookup m k = Some Max -> (exists f, In f fs /\ f k = true) -> exists x, good k x /\ lookup (fst r) k = Some (Num x)) /\
    (Forall row_ok db -> Forall row_ok db') /\
    (forall k v, find_row db (own k) k = Some v -> find_row db' (own k) k = Some v) /\
    (forall k x, lookup m k = Some Max -> (exists f, In f fs /\ f k = true) -> good k x -> find_row db' (own k) k = Some (fmt x) /\ find_row db (own k) k = None) /\
    (forall k, lookup m k <> Some Max -> find_row db' (own k) k = find_row db (own k) k)) /\
  ((forall k, lookup m k = Some Max -> find_row db (own k) k = None) -> exists db', snd r = Ok db').
Proof.
  induction fs as [|f fs IH]; intros m db o Em Es ND G r; assert (Er := eq_refl r); unfold r in Er at 2; clearbody r; cbn [store_stages] in Er.
  - subst r. cbn [fst snd]. split; [discriminate|]. split; [|intros _; eauto]. intros db' E. injection E as <-. split; [assumption|]. split; [auto|]. split; [intros k _ (f & [] & _)|]. split; [auto|]. split; [auto|]. split; [intros k x _ (f & [] & _)|auto].
  - destruct (@store_spec (pending ord m f) m db o Em Es ND) as (U & A & B).
    { apply pending_spec; [exact (KR 0 0 0 0 0 0 0)|assumption]. }
    { intros k I. apply (@pending_spec m f k ND) in I. destruct I as [L _]. unfold dom. rewrite L. discriminate. }
    { intros k I. apply (@pending_spec m f k ND) in I. apply G. tauto. }
    destruct (store w3j w6j radial o m db (pending ord m f)) as [m1 [db1| |]] eqn:E1; rewrite ?E1 in Er; cbn [fst snd] in *.
    + destruct (A db1 eq_refl) as (A1 & A2 & A3 & A4 & A5 & A6 & A7). clear A.
      assert (MAX : forall k, lookup m1 k = Some Max -> lookup m k = Some Max /\ ~ In k (pending ord m f)).
      { intros k L. destruct (in_dec okey_dec k (pending ord m f)) as [I|N]; [destruct (A3 k I) as (x & _ & E); congruence|]. rewrite <- A2 by assumption. auto. }
      destruct (IH m1 db1 o Em Es A1) as (U1 & C & D). { intros k L. apply G. apply MAX. assumption. }
      split; [rewrite Er; exact U1|]. split.
      * intros db' E. rewrite Er in E. destruct (C db' E) as (C1 & C2 & C3 & C4 & C5 & C6 & C7). rewrite Er. split; [assumption|]. split; [|split; [|split; [|split; [|split]]]].
        -- intros k N. assert (NP : ~ In k (pending ord m f)) by (intros I; apply (@pending_spec m f k ND) in I; tauto). rewrite C2; rewrite A2 by assumption; [reflexivity|assumption].
        -- intros k L (g & [Eg|Ig] & Hg).
           ++ subst g. assert (I : In k (pending ord m f)) by (apply (@pending_spec m f k ND); auto). destruct (A3 k I) as (x & Gx & Lx). exists x. split; [assumption|]. rewrite C2; rewrite Lx; [reflexivity|discriminate].
           ++ destruct (in_dec okey_dec k (pending ord m f)) as [I|N].
              ** destruct (A3 k I) as (x & Gx & Lx). exists x. split; [assumption|]. rewrite C2; rewrite Lx; [reflexivity|discriminate].
              ** apply C3; [rewrite A2; assumption|exists g; auto].
        -- auto.
        -- intros k v F. apply C5. destruct (in_dec okey_dec k (pending ord m f)) as [I|N]; [rewrite A7 in F by assumption; discriminate F|]. rewrite A5 by assumption. assumption.
        -- intros k x L (g & [Eg|Ig] & Hg) Gx.
           ++ subst g. assert (I : In k (pending ord m f)) by (apply (@pending_spec m f k ND); auto). split; [apply C5; apply A6; assumption|apply A7; assumption].
           ++ destruct (in_dec okey_dec k (pending ord m f)) as [I|N]; [split; [apply C5; apply A6; assumption|apply A7; assumption]|].
              rewrite <- (A5 k N). apply C6; [rewrite A2; assumption|exists g; auto|assumption].
        -- intros k N. assert (NP : ~ In k (pending ord m f)) by (intros I; apply (@pending_spec m f k ND) in I; tauto). rewrite C7 by (rewrite A2; assumption). apply A5. assumption.
      * intros H. rewrite Er. apply D. intros k L. apply MAX in L. destruct L as [L N]. rewrite A5 by assumption. apply H. assumption.
    + subst r. cbn [fst snd]. split; [discriminate|]. split; [discriminate|]. intros H. destruct B as [db' Eb]; [|discriminate Eb]. intros k I. apply H. apply (@pending_spec m f k ND) in I. tauto.
    + exfalso. apply U. reflexivity.
Qed.
Lemma keys_staged : forall a names k, In k (all_keys a names) -> exists f, In f (stages a) /\ f k = true.
Proof.
  intros a names k H. apply in_keys in H. destruct H as (r & c & _ & _ & _ & I). unfold pair_keys in I. unfold stages. destruct I as [<-|I].
  - destruct (mode a); eexists; (split; [left; reflexivity|]); cbn; unfold key_radial; apply Z.eqb_refl.
  - destruct (mode a); [destruct I as [<-|[<-|[<-|[]]]]|destruct I as [<-|[<-|[<-|[]]]]|destruct I].
    all: match goal with |- context [key_angular] => eexists; split; [right; left; reflexivity|] | |- context [key_s] => eexists; split; [right; right; left; reflexivity|] | _ => eexists; split; [right; right; right; left; reflexivity|] end; cbn; apply Z.eqb_refl.
Qed.
(** no unset value is left *)
Definition settled (m : memory) : Prop := NoDup (map fst m) /\ forall k, lookup m k <> Some Max.
Lemma precalculate_gen : forall a names db db' m, settled m -> (forall k, In k (all_keys a names) -> exists x, good k x) -> Forall row_ok db ->
  let r := precalculate w3j w6j radial ord a names db db' (ob m) in
  meth (fst r) = me /\ species (fst r) = sp /\ snd r <> UB /\
  (forall t, snd r = Ok t -> settled (mem (fst r)) /\ (forall k, dom m k \/ In k (all_keys a names) <-> dom (mem (fst r)) k) /\ 
     (forall k, dom m k -> lookup (mem (fst r)) k = lookup m k) /\
     (forall k, ~ dom m k -> In k (all_keys a names) -> exists x, good k x /\ lookup (mem (fst r)) k = Some (Num (match find_row db (own k) k with Some _ => fmt x | None => x end))) /\
     (Forall row_ok db' -> Forall row_ok t) /\ (forall k v, find_row db' (own k) k = Some v -> find_row t (own k) k = Some v) /\
     (forall k x, ~ dom m k -> In k (all_keys a names) -> find_row db (own k) k = None -> good k x -> find_row t (own k) k = Some (fmt x) /\ find_row db' (own k) k = None) /\
     (forall k, ~ In k (all_keys a names) -> find_row t (own k) k = find_row db' (own k) k)) /\
  (db' = db -> exists t, snd r = Ok t).
Proof.
  intros a names db db' m [ND IM] DB OK r. unfold precalculate in r. cbn [mem ob meth species] in r. destruct (note m [] (all_keys a names)) as [m1 tmp] eqn:E1.
  destruct (@note_spec _ _ _ _ _ ND E1) as (ND1 & L1 & T1). set (m2 := load (ob m) db m1 tmp) in *.
  destruct (@load_spec tmp m1 db (ob m) eq_refl eq_refl ND1) as [ND2 L2].
  { intros k I. apply T1 in I. destruct I as [[]|[I L]]. unfold dom. rewrite L1, L. destruct (in_dec okey_dec k (all_keys a names)); [discriminate|contradiction]. }
  fold m2 in ND2, L2.
  assert (MX : forall k, lookup m2 k = Some Max <-> (lookup m k = None /\ In k (all_keys a names) /\ find_row db (own k) k = None)).
  { intros k. rewrite L2, L1. destruct (lookup m k) as [v|] eqn:L.
    - assert (v <> Max) by (intros ->; exact (IM _ L)). destruct (find_row db (own k) k); [destruct (in_dec okey_dec k tmp)|]; split; intros Q; try congruence; destruct Q as (Q & _); congruence.
    - destruct (find_row db (own k) k) as [v|] eqn:F.
      + destruct (in_dec okey_dec k tmp) as [I|N]; [split; [discriminate|intros (_ & _ & Q); discriminate Q]|]. destruct (in_dec okey_dec k (all_keys a names)); split; try discriminate; try (intros (_ & _ & Q); discriminate Q).
        intros _. exfalso. apply N. apply T1. right. auto.
      + destruct (in_dec okey_dec k (all_keys a names)); split; intros Q; try tauto; try discriminate Q. }
  destruct (@stages_spec (stages a) m2 db' (ob m) eq_refl eq_refl ND2) as (U & A & B).
  { intros k L. apply MX in L. apply DB; tauto. }
  unfold r. destruct (store_stages w3j w6j radial ord (ob m) m2 db' (stages a)) as [m3 res] eqn:E3. cbn [fst snd meth species mem] in *. split; [reflexivity|]. split; [reflexivity|]. split; [exact U|]. split.
  - intros t Et. destruct (A t Et) as (A1 & A2 & A3 & A4 & A5 & A6 & A7).
    assert (OLD : forall k, dom m k -> lookup m3 k = lookup m k).
    { intros k D. destruct (lookup m k) as [v|] eqn:L; [|contradiction]. rewrite A2 by (rewrite MX; intros (Q & _); congruence). rewrite L2, L1, L. destruct (find_row db (own k) k); [|reflexivity]. destruct (in_dec okey_dec k tmp) as [I|_]; [|reflexivity]. apply T1 in I. destruct I as [[]|[_ Q]]; congruence. }
    assert (NEW : forall k, ~ dom m k -> In k (all_keys a names) -> exists x, good k x /\ lookup m3 k = Some (Num (match find_row db (own k) k with Some _ => fmt x | None => x end))).
    { intros k D I. assert (L : lookup m k = None) by (unfold dom in D; destruct (lookup m k); [exfalso; apply D; discriminate|reflexivity]). destruct (find_row db (own k) k) as [v|] eqn:F.
      - destruct (DB k I) as [x Gx]. exists x. split; [assumption|]. rewrite A2 by (rewrite MX; intros (_ & _ & Q); congruence). rewrite L2, F. destruct (in_dec okey_dec k tmp) as [_|N]; [|exfalso; apply N; apply T1; auto].
        do 2 f_equal. apply row_ok_value with k; [|assumption]. rewrite Forall_forall in OK. apply OK. apply find_row_in. assumption.
      - apply A3; [apply MX; auto|]. apply (@keys_staged a names). assumption. }
    split; [split; [exact A1|]|split; [|split; [|split; [|split; [|split; [|split]]]]]]; auto.
    + intros k L. destruct (lookup m k) as [w|] eqn:Lm.
      * rewrite OLD in L by (unfold dom; rewrite Lm; discriminate). apply (IM k). congruence.
      * assert (ND' : ~ dom m k) by (unfold dom; rewrite Lm; auto). destruct (in_dec okey_dec k (all_keys a names)) as [I|N].
        -- destruct (NEW k ND' I) as (x & Gx & Lx). rewrite L in Lx. discriminate Lx.
        -- rewrite A2 in L by (rewrite MX; tauto). apply MX in L. tauto.
    + intros k. split.
      * intros [D|I]; unfold dom.
        -- rewrite OLD by assumption. exact D.
        -- destruct (lookup m k) eqn:Lm; [rewrite OLD; [rewrite Lm; discriminate|unfold dom; rewrite Lm; discriminate]|]. destruct (NEW k) as (x & _ & ->); [unfold dom; rewrite Lm; auto|assumption|discriminate].
      * intros D. destruct (lookup m k) as [w|] eqn:Lm; [left; unfold dom; rewrite Lm; discriminate|]. destruct (in_dec okey_dec k (all_keys a names)) as [I|N]; [right; assumption|]. exfalso. apply D.
        rewrite A2 by (rewrite MX; tauto). rewrite L2, L1, Lm. destruct (in_dec okey_dec k (all_keys a names)); [contradiction|]. destruct (find_row db (own k) k); [|reflexivity]. destruct (in_dec okey_dec k tmp) as [I|_]; [|reflexivity]. apply T1 in I. destruct I as [[]|[I _]]; contradiction.
    + intros k x D I F Gx. apply A6; [apply MX; split; [|auto]|apply (@keys_staged a names); assumption|assumption]. unfold dom in D. destruct (lookup m k); [exfalso; apply D; discriminate|reflexivity].
    + intros k N. apply A7. rewrite MX. tauto.
  - intros ->. apply B. intros k L. apply MX in L. tauto.
Qed.

(** the invariant of an object: known keys have correct values *)
Definition inv (m : memory) : Prop := NoDup (map fst m) /\ forall k v, lookup m k = Some v -> fine k v.
Lemma inv_settled : forall m, inv m -> settled m.
Proof. intros m [N I]. split; [assumption|]. intros k L. destruct (I _ _ L) as (x & y & _ & E & _). discriminate E. Qed.
Lemma precalculate_spec : forall a names db db' m, inv m -> Forall doublet names -> Forall row_ok db ->
  let r := precalculate w3j w6j radial ord a names db db' (ob m) in
  meth (fst r) = me /\ species (fst r) = sp /\ snd r <> UB /\
  (forall t, snd r = Ok t -> inv (mem (fst r)) /\ (forall k, dom m k \/ In k (all_keys a names) -> dom (mem (fst r)) k)) /\
  (db' = db -> exists t, snd r = Ok t).
Proof.
  intros a names db db' m I DB OK r. destruct (@precalculate_gen a names db db' m (inv_settled I)) as (E1 & E2 & U & A & B); [intros; apply (@good_keys a names); assumption|assumption|].
  fold r in E1, E2, U, A, B. do 3 (split; [assumption|]). split; [|exact B]. intros t Et. destruct (A t Et) as (S & D & O & N & _). split; [split; [apply S|]|intros k Hk; apply D; assumption].
  intros k v L. destruct (lookup m k) as [w|] eqn:Lm.
  - rewrite O in L by (unfold dom; rewrite Lm; discriminate). apply I. congruence.
  - assert (ND : ~ dom m k) by (unfold dom; rewrite Lm; auto). assert (DK : dom (mem (fst r)) k) by (unfold dom; rewrite L; discriminate). apply D in DK. destruct DK as [DK|I']; [contradiction|].
    destruct (N k ND I') as (x & Gx & Lx). rewrite L in Lx. injection Lx as ->. exists x. eexists. split; [exact Gx|]. split; [reflexivity|]. destruct (find_row db (own k) k); [right|left]; reflexivity.
Qed.
(** ** queries *)
Lemma read_known : forall k m, dom m k -> exists v, lookup m k = Some v /\ read k m = (v, m).
Proof. intros k m D. unfold read, dom in *. destruct (lookup m k); [eauto|contradiction]. Qed.
End One.
