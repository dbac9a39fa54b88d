(** Loading what was saved. *)
From Verif Require Import Base ArchiveModel ArchiveProofs PickleModel.
From Coq Require Import ZArith NArith Lia Bool String Ascii List.
Import ListNotations.
Set Implicit Arguments.
Local Open Scope Z_scope.

Ltac law := repeat first
  [ apply lawful_pair | apply lawful_list | apply lawful_arr | apply lawful_sparse | exact lawful_int | exact lawful_double
  | exact lawful_float | exact lawful_size | exact lawful_bool | exact lawful_string | apply lawful_uint | assumption ].

Lemma lawful_cache : lawful ccache_saved.
Proof. unfold ccache_saved, cradial, cangular, ccommutes, cmultipole. law. Qed.
Lemma lawful_stateone : lawful cstateone.
Proof. unfold cstateone. apply lawful_map; [now intros []|]. law. Qed.
Lemma lawful_statetwo : lawful cstatetwo.
Proof. unfold cstatetwo. apply lawful_map; [now intros []|]. apply lawful_pair; [|law]. apply lawful_arr, lawful_stateone. Qed.
Lemma lawful_base : forall St K (cs : codec St) (ck : codec K), lawful cs -> lawful ck -> lawful (cbase cs ck).
Proof. intros. unfold cbase. apply lawful_map; [now intros []|]. law. Qed.
Lemma lawful_one : forall K (ck : codec K), lawful ck -> lawful (cone_saved ck).
Proof. intros. unfold cone_saved. law. Qed.
Lemma lawful_two : forall K (ck : codec K), lawful ck -> lawful (ctwo_saved ck).
Proof. intros. unfold ctwo_saved. law. Qed.
Lemma lawful_species : lawful (carr 2 cstring).
Proof. law. Qed.

(** The members are values of their C++ types. *)
Definition valid_cache (c : mecache) : Prop := okc ccache_saved (cache_tuple c).
Definition valid_one {K} (ck : codec K) (s : sysone K) : Prop :=
  okc (cbase cstateone ck) (o_base s) /\ okc (cone_saved ck) (one_tuple s).
Definition valid_two {K} (ck : codec K) (s : systwo K) : Prop :=
  okc (cbase cstatetwo ck) (w_base s) /\ okc (carr 2 cstring) (w_species s) /\
  valid_one ck (w_one1 s) /\ valid_one ck (w_one2 s) /\ okc (ctwo_saved ck) (two_tuple s).
Definition openable (opens : string -> bool) (c : mecache) : Prop := dbname c = ""%string \/ opens (dbname c) = true.

Definition with_defectdb (d : string) (c : mecache) : mecache :=
  MECache (method c) (dbname c) d (c_radial c) (c_angular c) (c_commutes_s c) (c_commutes_l c) (c_multipole c)
          (m_radial c) (m_angular c) (m_commutes_s c) (m_commutes_l c) (m_multipole c).
(** The target's values of the members that are not saved. *)
Definition keep_one {K} (t s : sysone K) : sysone K :=
  SysOne (set_base (o_base t) (o_base s)) (o_species s) (o_efield s) (o_bfield s) (o_diamagnetism s) (o_reflection s) (o_rotation s)
         (o_esph s) (o_bsph s) (o_dia s) (o_int_e s) (o_int_b s) (o_int_d s)
         (o_charge t) (o_ordermax t) (o_distance t) (o_int_m t).
Definition keep_two {K} (t s : systwo K) : systwo K :=
  SysTwo (set_base (w_base t) (w_base s)) (w_species s) (keep_one (w_one1 t) (w_one1 s)) (keep_one (w_one2 t) (w_one2 s))
         (w_distance s) (w_x s) (w_y s) (w_z s) (w_surface s) (w_ordermax s) (w_permutation s) (w_inversion s) (w_reflection s)
         (w_rotation s) (w_angle s) (w_dd s) (w_dq s) (w_qd s) (w_int_angle s) (w_int_m s) (w_int_dd s) (w_int_dq s) (w_int_qd s)
         (w_gt t) (w_leroy t) (w_basisvectors t).

Section Laws.
Variables (K : Type) (ck : codec K).
Hypothesis Lk : lawful ck.
Variable opens : string -> bool.

Lemma load_save_cache : forall t c rest, valid_cache c -> openable opens c ->
  load_cache opens t (save_cache c ++ rest) = Ok (with_defectdb (defectdb t) c, rest).
Proof.
  intros t c rest V O. unfold load_cache, save_cache. rewrite step_read by (exact lawful_cache || exact V).
  unfold cache_tuple. cbv beta iota.
  assert (E : String.eqb (dbname c) "" || opens (dbname c) = true).
  { destruct O as [->| ->]; [reflexivity|apply orb_true_r]. }
  rewrite E. reflexivity.
Qed.

Lemma load_save_one : forall t tc c s rest, valid_cache c -> openable opens c -> valid_one ck s ->
  load_one ck opens tc t (save_one ck c s ++ rest) = Ok (with_defectdb (defectdb tc) c, keep_one t s, rest).
Proof.
  intros t tc c s rest Vc O [V1 V2]. unfold load_one, save_one. rewrite <- !app_assoc.
  rewrite load_save_cache by assumption. cbn [bind].
  rewrite step_read by (assumption || apply lawful_base; assumption || exact lawful_stateone).
  rewrite step_read by (assumption || apply lawful_one; assumption). reflexivity.
Qed.

Lemma load_save_two : forall t tc c c1 c2 s rest, valid_cache c -> valid_cache c1 -> valid_cache c2 ->
  openable opens c -> openable opens c1 -> openable opens c2 -> valid_two ck s ->
  load_two ck opens tc t (save_two ck c c1 c2 s ++ rest) = Ok (with_defectdb (defectdb tc) c2, keep_two t s, rest).
Proof.
  intros t tc c c1 c2 s rest Vc V1 V2 O O1 O2 (W1 & W2 & W3 & W4 & W5). unfold load_two, save_two. rewrite <- !app_assoc.
  rewrite load_save_cache by assumption. cbn [bind].
  rewrite step_read by (assumption || apply lawful_base; assumption || exact lawful_statetwo).
  rewrite step_read by (assumption || exact lawful_species).
  rewrite load_save_one by assumption. cbn [bind].
  rewrite load_save_one by assumption. cbn [bind].
  rewrite step_read by (assumption || apply lawful_two; assumption). reflexivity.
Qed.

(** Truncation *)
Lemma load_cache_cut : forall t c p q, valid_cache c -> save_cache c = p ++ q -> q <> [] -> load_cache opens t p = Throw.
Proof.
  intros t c p q V E Hq. unfold load_cache, save_cache in *.
  rewrite (proj2 (lawful_cache V) _ _ E Hq). reflexivity.
Qed.

Lemma load_cache_step_cut : forall B t c (k : mecache * bytes -> res B) y p q, valid_cache c -> openable opens c ->
  save_cache c ++ y = p ++ q -> q <> [] ->
  (forall p', y = p' ++ q -> k (with_defectdb (defectdb t) c, p') = Throw) -> bind (load_cache opens t p) k = Throw.
Proof.
  intros B t c k y p q V O E Hq Hk. destruct (@cut_app _ _ _ _ E Hq) as [[p' [-> H']]|[q' [H' Hq']]].
  - rewrite load_save_cache by assumption. exact (Hk p' H').
  - rewrite (@load_cache_cut t c p q' V H' Hq'). reflexivity.
Qed.

Lemma load_one_cut : forall t tc c s p q, valid_cache c -> openable opens c -> valid_one ck s ->
  save_one ck c s = p ++ q -> q <> [] -> load_one ck opens tc t p = Throw.
Proof.
  intros t tc c s p q Vc O [V1 V2] E Hq. unfold load_one, save_one in *.
  refine (@load_cache_step_cut _ _ _ _ _ _ _ Vc O E Hq _). clear E p. intros p E. cbv beta iota.
  refine (@step_cut _ _ _ _ _ _ _ _ (lawful_base lawful_stateone Lk) V1 E Hq _). clear E p. intros p E. cbv beta iota.
  rewrite (proj2 (lawful_one Lk V2) _ _ E Hq). reflexivity.
Qed.

Lemma load_one_step_cut : forall B t tc c s (k : mecache * sysone K * bytes -> res B) y p q,
  valid_cache c -> openable opens c -> valid_one ck s ->
  save_one ck c s ++ y = p ++ q -> q <> [] ->
  (forall p', y = p' ++ q -> k (with_defectdb (defectdb tc) c, keep_one t s, p') = Throw) ->
  bind (load_one ck opens tc t p) k = Throw.
Proof.
  intros B t tc c s k y p q V O Vs E Hq Hk. destruct (@cut_app _ _ _ _ E Hq) as [[p' [-> H']]|[q' [H' Hq']]].
  - rewrite load_save_one by assumption. exact (Hk p' H').
  - rewrite (@load_one_cut t tc c s p q' V O Vs H' Hq'). reflexivity.
Qed.

Lemma load_two_cut : forall t tc c c1 c2 s p q, valid_cache c -> valid_cache c1 -> valid_cache c2 ->
  openable opens c -> openable opens c1 -> openable opens c2 -> valid_two ck s ->
  save_two ck c c1 c2 s = p ++ q -> q <> [] -> load_two ck opens tc t p = Throw.
Proof.
  intros t tc c c1 c2 s p q Vc V1 V2 O O1 O2 (W1 & W2 & W3 & W4 & W5) E Hq. unfold load_two, save_two in *.
  refine (@load_cache_step_cut _ _ _ _ _ _ _ Vc O E Hq _). clear E p. intros p E. cbv beta iota.
  refine (@step_cut _ _ _ _ _ _ _ _ (lawful_base lawful_statetwo Lk) W1 E Hq _). clear E p. intros p E. cbv beta iota.
  refine (@step_cut _ _ _ _ _ _ _ _ lawful_species W2 E Hq _). clear E p. intros p E. cbv beta iota.
  refine (@load_one_step_cut _ _ _ _ _ _ _ _ _ V1 O1 W3 E Hq _). clear E p. intros p E. cbv beta iota.
  refine (@load_one_step_cut _ _ _ _ _ _ _ _ _ V2 O2 W4 E Hq _). clear E p. intros p E. cbv beta iota.
  rewrite (proj2 (lawful_two Lk W5) _ _ E Hq). reflexivity.
Qed.
End Laws.

Lemma set_base_new : forall St K ms (b : sysbase St K), set_base (newBase ms) b = b.
Proof. intros St K ms []. reflexivity. Qed.
