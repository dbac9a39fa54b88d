(** Proofs about MatCacheModel: runs on a file that contains all values. *)
From Coq Require Import ZArith Lia Bool List Reals Lra String Permutation.
From Flocq Require Import Core.
Import ListNotations.
From Verif Require Import Base BasisnamesModel InteractModel InteractSpec InteractProofs OneFieldModel OneFieldSpec MatCacheModel MatCacheSpec MatCacheProofs MatCacheProofs2 MatCacheProofs3.
Set Implicit Arguments.
Local Open Scope R_scope.

Section C.
Variables w3j w6j : Z -> Z -> Z -> Z -> Z -> Z -> R.
Variable radial : method -> string -> Z -> Z -> Z -> Z -> Z -> Z -> Z -> res num.
Variable ord : list okey -> list okey.
Hypothesis ord_perm : forall l, Permutation (ord l) l.
Variable me : method.
Variable sp : string.
Let own k : owner := match k with KR _ _ _ _ _ _ _ => Some (me, sp) | _ => None end.

Lemma stages_none : forall o fs m db, settled m -> store_stages w3j w6j radial ord o m db fs = (m, Ok db).
Proof.
  intros o. induction fs as [|f fs IH]; intros m db S; cbn [store_stages]; [reflexivity|].
  assert (E : pending ord m f = []).
  { destruct (pending ord m f) as [|k ks] eqn:E; [reflexivity|]. exfalso. destruct S as [ND NM]. apply (NM k). apply (proj2 (@pending_spec ord ord_perm me sp m f k ND)). rewrite E. left. reflexivity. }
  rewrite E. cbn [store]. apply IH. assumption.
Qed.
(** all values of the memory come from the file *)
Definition from_file (db : table) (m : memory) : Prop := NoDup (map fst m) /\ forall k v, lookup m k = Some v -> exists y, v = Num y /\ find_row db (own k) k = Some y.
Lemma precalculate_complete : forall a names db m, from_file db m -> (forall k, In k (all_keys a names) -> find_row db (own k) k <> None) ->
  exists m', precalculate w3j w6j radial ord a names db db (Object me sp m) = (Object me sp m', Ok db) /\ from_file db m' /\ (forall k, dom m k \/ In k (all_keys a names) -> dom m' k).
Proof.
  intros a names db m [ND V] F. unfold precalculate. cbn [mem meth species]. destruct (note m [] (all_keys a names)) as [m1 tmp] eqn:E1.
  destruct (@note_spec me sp (all_keys a names) m [] m1 tmp ND E1) as (ND1 & L1 & T1).
  destruct (@load_spec me sp tmp m1 db (Object me sp m) eq_refl eq_refl ND1) as [ND2 L2].
  { intros k I. apply T1 in I. destruct I as [[]|[I L]]. unfold dom. rewrite L1, L. destruct (in_dec okey_dec k (all_keys a names)); [discriminate|contradiction]. }
  change (forall k, lookup (load (Object me sp m) db m1 tmp) k = match find_row db (own k) k with Some v => if in_dec okey_dec k tmp then Some (Num v) else lookup m1 k | None => lookup m1 k end) in L2.
  assert (V2 : forall k v, lookup (load (Object me sp m) db m1 tmp) k = Some v -> exists y, v = Num y /\ find_row db (own k) k = Some y).
  { intros k v. rewrite L2, L1. destruct (find_row db (own k) k) as [y|] eqn:Fk.
    - destruct (in_dec okey_dec k tmp) as [I|I]; [intros E; injection E as <-; eauto|]. destruct (lookup m k) as [w|] eqn:L.
      + intros E. injection E as <-. destruct (V k w L) as (z & -> & Fz). exists z. split; [reflexivity|congruence].
      + destruct (in_dec okey_dec k (all_keys a names)) as [J|J]; [|discriminate]. exfalso. apply I. apply T1. auto.
    - destruct (lookup m k) as [w|] eqn:L; [intros E; destruct (V k w L) as (z & -> & Fz); congruence|]. destruct (in_dec okey_dec k (all_keys a names)) as [J|J]; [exfalso; apply (F k J Fk)|discriminate]. }
  rewrite stages_none. 2: { split; [assumption|]. intros k L. destruct (V2 k Max L) as (y & E & _). discriminate E. }
  eexists. split; [reflexivity|]. split; [split; assumption|]. intros k H. unfold dom. rewrite L2.
  assert (D1 : lookup m1 k <> None). { rewrite L1. destruct (lookup m k) as [w|] eqn:L; [discriminate|]. destruct H as [H|H]; [exfalso; apply H; assumption|]. destruct (in_dec okey_dec k (all_keys a names)); [discriminate|contradiction]. }
  destruct (find_row db (own k) k); [|assumption]. destruct (in_dec okey_dec k tmp); [discriminate|assumption].
Qed.
Lemma session_complete : forall rs names db m, from_file db m -> (forall k, keys_of rs names k -> find_row db (own k) k <> None) ->
  exists m', session w3j w6j radial ord rs names db (Object me sp m) = (Object me sp m', db, Ok tt) /\ from_file db m' /\ (forall k, dom m k \/ keys_of rs names k -> dom m' k).
Proof.
  induction rs as [|a rs IH]; intros names db m FM F; cbn [session].
  - exists m. split; [reflexivity|]. split; [assumption|]. intros k [H|(a & [] & _)]. assumption.
  - destruct (@precalculate_complete a names db m FM) as (m1 & E & FM1 & D1); [intros k Hk; apply F; exists a; split; [left; reflexivity|assumption]|]. rewrite E.
    destruct (IH names db m1 FM1) as (m' & E' & FM' & D'); [intros k (b & Ib & Hk); apply F; exists b; split; [right|]; assumption|]. exists m'. split; [assumption|]. split; [assumption|].
    intros k [H|(b & [Eb|Ib] & Hk)]; apply D'; [left; apply D1; auto|left; apply D1; right; subst b; assumption|right; exists b; auto].
Qed.
End C.

(** the answer from the values in memory *)
Lemma get_values : forall cMag gL gS cDia a x s t m f, covers s t a x -> (forall k, In k (pair_keys a s t) -> lookup m k = Some (Num (f k))) ->
  get cMag gL gS cDia x s t m = (Num match x with
    | QMultipole k => f (key_radial (Z.of_nat k) s t) * f (key_angular (Z.of_nat k) s t) * f (key_s (Z.of_nat k) s t) * f (key_m (Z.of_nat k) s t)
    | QDiamagnetism k => cDia * f (key_radial (Z.of_nat 2) s t) * f (key_angular (Z.of_nat k) s t) * f (key_s (Z.of_nat k) s t) * f (key_m (Z.of_nat k) s t)
    | QMagnetic => cMag * f (key_radial (Z.of_nat 0) s t) * f (key_angular (Z.of_nat 1) s t) * (gL * f (key_s (Z.of_nat 1) s t) * sqrt (IZR (l_ s * (l_ s + 1) * (2 * l_ s + 1))) + gS * f (key_l (Z.of_nat 1) s t) * sqrt (3 / 2))
    | QRadial k => f (key_radial (Z.of_nat k) s t)
    end, m).
Proof.
  intros cMag gL gS cDia a x s t m f C H.
  assert (L : forall k, In k (pair_keys a s t) -> read k m = (Num (f k), m)) by (intros k Hk; unfold read; rewrite (H k Hk); reflexivity).
  destruct C as [k A|q E A|q E A|k q E A|k]; unfold pair_keys in L; cbn [precalculateMultipole precalculateElectricMomentum precalculateMagneticMomentum precalculateDiamagnetism precalculateRadial kappa kappar mode] in L.
  - unfold get, getMultipole. cbv zeta. rewrite !L by (cbn [In]; tauto). reflexivity.
  - unfold get, getMultipole. cbv zeta. rewrite !L by (cbn [In]; tauto). reflexivity.
  - unfold get, getMagneticMomentum. change (Z.of_nat 1) with 1%Z in *. change (Z.of_nat 0) with 0%Z in *.
    rewrite (L (key_radial 0 s t)), (L (key_angular 1 s t)), (L (key_s 1 s t)), (L (key_l 1 s t)) by (cbn [In]; tauto). cbn [op2].
    replace (1 / 2 * (1 / 2 + 1) * (2 * (1 / 2) + 1)) with (3 / 2) by field. reflexivity.
  - unfold get, getDiamagnetism. cbv zeta. change (Z.of_nat 2) with 2%Z in *. rewrite !L by (cbn [In]; tauto). reflexivity.
  - unfold get, getRadial. rewrite L by (cbn [In]; tauto). reflexivity.
Qed.

Section R.
Variables w3j w6j : Z -> Z -> Z -> Z -> Z -> Z -> R.
Variable radial : method -> string -> Z -> Z -> Z -> Z -> Z -> Z -> Z -> res num.
Variable Rad : method -> string -> Z -> Z * Z * Z -> Z * Z * Z -> R.
Hypothesis RE : radial_exact radial Rad.
Variable me : method.
Variable sp : string.
Hypothesis me_ok : me <> Error.
Let own k : owner := match k with KR _ _ _ _ _ _ _ => Some (me, sp) | _ => None end.
Variables cMag gL gS cDia : R.
Lemma covered_keys : forall a names s t x k, listed s names -> listed t names -> covers s t a x -> In k (pair_keys a s t) -> In k (all_keys a names).
Proof.
  intros a names s t x k Ls Lt C Hk. apply in_keys. destruct Ls as (s' & Is & As & Bs & Cs & Es), Lt as (t' & It & At & Bt & Ct & Et).
  destruct (@like_keys a s t s' t' As Bs Cs Es At Bt Ct Et) as [P W]. exists s', t'. rewrite P, W. repeat split; auto. apply covers_wanted in C. assumption.
Qed.
Lemma get_from_file : forall db m a names x s t, from_file me sp db m -> file_ok w3j w6j Rad db -> Forall doublet names -> (forall k, In k (all_keys a names) -> dom m k) ->
  listed s names -> listed t names -> covers s t a x -> fst (get cMag gL gS cDia x s t m) = Num (rounded w3j w6j (Rad me sp) cMag gL gS cDia x s t).
Proof.
  intros db m a names x s t [_ V] OK D K Ls Lt C.
  assert (Ds : doublet s) by exact (like_doublet D Ls). assert (Dt : doublet t) by exact (like_doublet D Lt).
  assert (L : forall k, In k (pair_keys a s t) -> exists y, lookup m k = Some (Num y) /\ forall z, good w3j w6j radial Rad me sp k z -> y = fmt z).
  { intros k Hk. pose proof (K k (@covered_keys a names s t x k Ls Lt C Hk)) as Dk. destruct (lookup m k) as [v|] eqn:E; [|exfalso; apply Dk; assumption]. destruct (V k v E) as (y & -> & F). exists y. split; [reflexivity|].
    intros z G. apply (@row_ok_value w3j w6j radial Rad me sp k y z); [|assumption]. apply find_row_in in F. unfold file_ok in OK. rewrite Forall_forall in OK. apply OK. exact F. }
  pose (f := fun k => match lookup m k with Some (Num y) => y | _ => 0 end).
  rewrite (@get_values cMag gL gS cDia a x s t m f C) by (intros k Hk; destruct (L k Hk) as (y & E & _); unfold f; rewrite E; reflexivity). cbn [fst]. f_equal.
  assert (G : forall k z, In k (pair_keys a s t) -> good w3j w6j radial Rad me sp k z -> f k = fmt z) by (intros k z Hk Gk; destruct (L k Hk) as (y & E & Y); unfold f; rewrite E; auto).
  assert (GR := fun k I => G _ _ I (@good_radial w3j w6j radial Rad RE me sp me_ok k s t)). assert (GA := fun k I => G _ _ I (@good_angular w3j w6j radial Rad me sp k s t Ds Dt)).
  assert (GS := fun k I => G _ _ I (@good_s w3j w6j radial Rad me sp k s t Ds Dt)). assert (GL := fun k I => G _ _ I (@good_l w3j w6j radial Rad me sp k s t Ds Dt)). assert (GM := fun k I => G _ _ I (@good_m w3j w6j radial Rad me sp k s t)).
  clear - GR GA GS GL GM C. unfold rounded. destruct C as [k A|q E A|q E A|k q E A|k]; unfold pair_keys in *; cbn [precalculateMultipole precalculateElectricMomentum precalculateMagneticMomentum precalculateDiamagnetism precalculateRadial kappa kappar mode] in *.
  - rewrite GR, GA, GS, GM by (cbn [In]; tauto). reflexivity.
  - rewrite GR, GA, GS, GM by (cbn [In]; tauto). reflexivity.
  - rewrite GR, GA, GS, GL by (cbn [In]; tauto). reflexivity.
  - rewrite GR, GA, GS, GM by (cbn [In]; tauto). reflexivity.
  - rewrite GR by (cbn [In]; tauto). reflexivity.
Qed.
Lemma find_row_incl : forall (t t' : table) o k, incl t t' -> find_row t o k <> None -> find_row t' o k <> None.
Proof.
  intros t t' o k I H. destruct (find_row t o k) as [v|] eqn:E; [|contradiction]. apply find_row_in in E. apply I in E. clear - E. induction t' as [|[[o' k'] v'] t' IH]; [destruct E|]. cbn [find_row].
  destruct E as [E|E]; [injection E as -> -> ->; destruct (owner_dec o o); [|contradiction]; destruct (okey_dec k k); [discriminate|contradiction]|].
  destruct (owner_dec o' o); [destruct (okey_dec k' k); [discriminate|]|]; auto.
Qed.
End R.
