(** C38: pickled systems; C71: damaged pickles. *)
From Verif Require Import Base ArchiveModel ArchiveProofs PickleModel PickleProofs PickleDemo.
From Coq Require Import ZArith NArith Lia Bool String Ascii List.
Import ListNotations.
Set Implicit Arguments.
Local Open Scope Z_scope.
Local Open Scope string_scope.
Local Open Scope list_scope.

(** ** What is kept *)
(** All members but the parameters of the ion and the operators built from them. *)
Definition same_but_ion {K} (s s' : sysone K) : Prop :=
  o_base s' = o_base s /\ o_species s' = o_species s /\ o_efield s' = o_efield s /\ o_bfield s' = o_bfield s /\
  o_diamagnetism s' = o_diamagnetism s /\ o_reflection s' = o_reflection s /\ o_rotation s' = o_rotation s /\
  o_esph s' = o_esph s /\ o_bsph s' = o_bsph s /\ o_dia s' = o_dia s /\
  o_int_e s' = o_int_e s /\ o_int_b s' = o_int_b s /\ o_int_d s' = o_int_d s.
(** No ion. *)
Definition no_ion {K} (s : sysone K) : Prop := o_charge s = 0 /\ o_ordermax s = 0 /\ o_distance s = bits_max /\ o_int_m s = [].
(** All members but those of the Green tensor switch, the Le Roy radius and the selection of pairs; the one-atom systems as above. *)
Definition same_two {K} (s s' : systwo K) : Prop :=
  w_base s' = w_base s /\ w_species s' = w_species s /\ same_but_ion (w_one1 s) (w_one1 s') /\ same_but_ion (w_one2 s) (w_one2 s') /\
  w_distance s' = w_distance s /\ w_x s' = w_x s /\ w_y s' = w_y s /\ w_z s' = w_z s /\ w_surface s' = w_surface s /\
  w_ordermax s' = w_ordermax s /\ w_permutation s' = w_permutation s /\ w_inversion s' = w_inversion s /\
  w_reflection s' = w_reflection s /\ w_rotation s' = w_rotation s /\ w_angle s' = w_angle s /\ w_dd s' = w_dd s /\
  w_dq s' = w_dq s /\ w_qd s' = w_qd s /\ w_int_angle s' = w_int_angle s /\ w_int_m s' = w_int_m s /\ w_int_dd s' = w_int_dd s /\
  w_int_dq s' = w_int_dq s /\ w_int_qd s' = w_int_qd s.
Definition plain_two {K} (s : systwo K) : Prop :=
  w_gt s = false /\ w_leroy s = bits_max /\ w_basisvectors s = [] /\ no_ion (w_one1 s) /\ no_ion (w_one2 s).

Lemma keep_one_new : forall K sp (s : sysone K), same_but_ion s (keep_one (newOne sp) s) /\ no_ion (keep_one (newOne sp) s).
Proof.
  intros K sp s. unfold same_but_ion, no_ion, keep_one, newOne. cbn [o_base o_species o_efield o_bfield o_diamagnetism o_reflection
    o_rotation o_esph o_bsph o_dia o_int_e o_int_b o_int_d o_charge o_ordermax o_distance o_int_m].
  rewrite set_base_new. repeat split.
Qed.
Lemma keep_one_id : forall K sp (s : sysone K), no_ion s -> keep_one (newOne sp) s = s.
Proof.
  intros K sp [] (H1 & H2 & H3 & H4). cbn in *. subst. unfold keep_one, newOne. cbn. now rewrite set_base_new.
Qed.

Section Generic.
Variables (K : Type) (ck : codec K).
Hypothesis Lk : lawful ck.

Lemma one_generic : forall opens c s, valid_cache c -> openable opens c -> valid_one ck s ->
  exists bs s', getstate_one ck (Alive c) s = Ok bs /\ setstate_one ck opens bs = Ok (Gone, s') /\
    same_but_ion s s' /\ no_ion s' /\ (no_ion s -> s' = s).
Proof.
  intros opens c s Vc O V. exists (save_one ck c s), (keep_one (newOne "") s).
  split; [reflexivity|]. split.
  - unfold setstate_one. rewrite <- (app_nil_r (save_one ck c s)). rewrite load_save_one by assumption. reflexivity.
  - destruct (@keep_one_new K "" s) as [H1 H2]. split; [exact H1|]. split; [exact H2|]. apply keep_one_id.
Qed.

Lemma two_generic : forall opens c c1 c2 s, valid_cache c -> valid_cache c1 -> valid_cache c2 ->
  openable opens c -> openable opens c1 -> openable opens c2 -> valid_two ck s ->
  exists bs s', getstate_two ck (Alive c) (Alive c1) (Alive c2) s = Ok bs /\ setstate_two ck opens bs = Ok (Gone, s') /\
    same_two s s' /\ plain_two s' /\ (plain_two s -> s' = s).
Proof.
  intros opens c c1 c2 s Vc V1 V2 O O1 O2 V.
  exists (save_two ck c c1 c2 s), (keep_two (newTwo (newOne "") (newOne "")) s).
  split; [reflexivity|]. split.
  - unfold setstate_two. rewrite <- (app_nil_r (save_two ck c c1 c2 s)). rewrite load_save_two by assumption. reflexivity.
  - destruct (@keep_one_new K "" (w_one1 s)) as [H1 H2]. destruct (@keep_one_new K "" (w_one2 s)) as [H3 H4].
    unfold same_two, plain_two, keep_two, newTwo.
    cbn [w_base w_species w_one1 w_one2 w_distance w_x w_y w_z w_surface w_ordermax w_permutation w_inversion w_reflection w_rotation
      w_angle w_dd w_dq w_qd w_int_angle w_int_m w_int_dd w_int_dq w_int_qd w_gt w_leroy w_basisvectors].
    rewrite set_base_new.
    split; [repeat (split; [first [reflexivity|assumption]|]); reflexivity|].
    split; [exact (conj eq_refl (conj eq_refl (conj eq_refl (conj H2 H4))))|].
    intros (G & L & B & N1 & N2). destruct s. cbn in *. subst. rewrite !keep_one_id by assumption. reflexivity.
Qed.
End Generic.

(** Pickling a one-atom system and loading it gives a system with the same members; the parameters of the ion are those of a new
    system, so that a system without ion is the same after loading.  Missing: systems with an ion (C38_ion_refuted), and the pointer
    to the cache (C38_dangling_refuted). *)
Theorem C38_one_real_partial : forall opens c s, valid_cache c -> openable opens c -> valid_one cdouble s ->
  exists bs s', getstate_one cdouble (Alive c) s = Ok bs /\ setstate_one cdouble opens bs = Ok (Gone, s') /\
    same_but_ion s s' /\ no_ion s' /\ (no_ion s -> s' = s).
Proof. exact (@one_generic _ _ lawful_double). Qed.
Theorem C38_one_complex_partial : forall opens c s, valid_cache c -> openable opens c -> valid_one ccomplex s ->
  exists bs s', getstate_one ccomplex (Alive c) s = Ok bs /\ setstate_one ccomplex opens bs = Ok (Gone, s') /\
    same_but_ion s s' /\ no_ion s' /\ (no_ion s -> s' = s).
Proof. exact (@one_generic _ _ lawful_complex). Qed.
(** The same for two-atom systems. *)
Theorem C38_two_real_partial : forall opens c c1 c2 s, valid_cache c -> valid_cache c1 -> valid_cache c2 ->
  openable opens c -> openable opens c1 -> openable opens c2 -> valid_two cdouble s ->
  exists bs s', getstate_two cdouble (Alive c) (Alive c1) (Alive c2) s = Ok bs /\ setstate_two cdouble opens bs = Ok (Gone, s') /\
    same_two s s' /\ plain_two s' /\ (plain_two s -> s' = s).
Proof. exact (@two_generic _ _ lawful_double). Qed.
Theorem C38_two_complex_partial : forall opens c c1 c2 s, valid_cache c -> valid_cache c1 -> valid_cache c2 ->
  openable opens c -> openable opens c1 -> openable opens c2 -> valid_two ccomplex s ->
  exists bs s', getstate_two ccomplex (Alive c) (Alive c1) (Alive c2) s = Ok bs /\ setstate_two ccomplex opens bs = Ok (Gone, s') /\
    same_two s s' /\ plain_two s' /\ (plain_two s -> s' = s).
Proof. exact (@two_generic _ _ lawful_complex). Qed.

(** The cache as an archive member: all entries come back, the path of the defect database does not. *)
Theorem C38_cache_partial : forall opens c target rest, valid_cache c -> openable opens c ->
  exists c', load_cache opens target (save_cache c ++ rest) = Ok (c', rest) /\
    method c' = method c /\ dbname c' = dbname c /\ c_radial c' = c_radial c /\ c_angular c' = c_angular c /\
    c_commutes_s c' = c_commutes_s c /\ c_commutes_l c' = c_commutes_l c /\ c_multipole c' = c_multipole c /\
    m_radial c' = m_radial c /\ m_angular c' = m_angular c /\ m_commutes_s c' = m_commutes_s c /\
    m_commutes_l c' = m_commutes_l c /\ m_multipole c' = m_multipole c /\ defectdb c' = defectdb target.
Proof.
  intros opens c t rest V O. exists (with_defectdb (defectdb t) c). split; [exact (@load_save_cache opens t c rest V O)|].
  repeat (split; [reflexivity|]). reflexivity.
Qed.

(** The hypotheses are met by systems with states, a Hamiltonian and fields. *)
Example C38_nonvacuous :
  valid_cache (demo_cache 1 "") /\ openable (fun _ => false) (demo_cache 1 "") /\ valid_one cdouble (demo_one 1 0 0 bits_max []) /\
  no_ion (demo_one 1 0 0 bits_max []) /\ List.length (b_states (o_base (demo_one 1 0 0 bits_max []))) = 2%nat /\
  valid_two cdouble (demo_two false (newOne "Rb") (newOne "Rb")).
Proof.
  split; [apply demo_cache_valid; okay|]. split; [now left|]. split; [apply demo_one_valid; okay|]. split; [now repeat split|].
  split; [reflexivity|]. apply demo_two_valid; apply new_one_valid; okay.
Qed.

(** ** What is lost *)
(** A system with an ion of charge 1 and multipole order 2: after loading there is no interaction with the ion any more. *)
Theorem C38_ion_refuted : exists c (s : sysone Z), valid_cache c /\ valid_one cdouble s /\ ion_orders s = [1; 2]%nat /\
  exists bs s', getstate_one cdouble (Alive c) s = Ok bs /\ setstate_one cdouble (fun _ => true) bs = Ok (Gone, s') /\ ion_orders s' = [].
Proof.
  exists (demo_cache 1 ""), (demo_one 1 1 2 b10 []).
  assert (V : valid_one cdouble (demo_one 1 1 2 b10 [])) by (apply demo_one_valid; okay).
  assert (Vc : valid_cache (demo_cache 1 "")) by (apply demo_cache_valid; okay).
  split; [exact Vc|]. split; [exact V|]. split; [reflexivity|].
  destruct (@C38_one_real_partial (fun _ => true) _ _ Vc (or_introl eq_refl) V) as (bs & s' & H1 & H2 & _ & (N & _) & _).
  exists bs, s'. split; [exact H1|]. split; [exact H2|]. unfold ion_orders. now rewrite N.
Qed.
(** A pair system with the Green tensor approach switched on: it is switched off after loading. *)
Theorem C38_greentensor_refuted : exists c (s : systwo Z), valid_cache c /\ valid_two cdouble s /\ w_gt s = true /\
  exists bs s', getstate_two cdouble (Alive c) (Alive c) (Alive c) s = Ok bs /\
    setstate_two cdouble (fun _ => true) bs = Ok (Gone, s') /\ w_gt s' = false.
Proof.
  exists (demo_cache 1 ""), (demo_two true (newOne "Rb") (newOne "Rb")).
  assert (V : valid_two cdouble (demo_two true (newOne "Rb") (newOne "Rb"))) by (apply demo_two_valid; apply new_one_valid; okay).
  assert (Vc : valid_cache (demo_cache 1 "")) by (apply demo_cache_valid; okay).
  split; [exact Vc|]. split; [exact V|]. split; [reflexivity|].
  pose proof (or_introl eq_refl : openable (fun _ => true) (demo_cache 1 "")) as O.
  destruct (@C38_two_real_partial (fun _ => true) _ _ _ _ Vc Vc Vc O O O V) as (bs & s' & H1 & H2 & _ & (N & _) & _).
  exists bs, s'. split; [exact H1|]. split; [exact H2|]. exact N.
Qed.
(** A cache with its own defect database: after loading the built-in one is used. *)
Theorem C38_defectdb_refuted : exists c, valid_cache c /\ defectdb c = "my.db" /\
  exists c', load_cache (fun _ => true) newCache (save_cache c) = Ok (c', []) /\ defectdb c' = "".
Proof.
  exists (demo_cache 1 "my.db"). assert (Vc : valid_cache (demo_cache 1 "my.db")) by (apply demo_cache_valid; okay).
  split; [exact Vc|]. split; [reflexivity|].
  destruct (@C38_cache_partial (fun _ => true) _ newCache [] Vc (or_introl eq_refl)) as (c' & H & E).
  exists c'. rewrite app_nil_r in H. split; [exact H|]. destruct E as (_ & _ & _ & _ & _ & _ & _ & _ & _ & _ & _ & _ & E). exact E.
Qed.
(** A pair system that shares no cache with its one-atom systems: after loading they share the last one, so that matrix elements are
    computed with another method (here WHITTAKER = 1 instead of NUMEROV = 0). *)
Theorem C38_caches_refuted : exists c c2 (s : systwo Z), valid_cache c /\ valid_cache c2 /\ valid_two cdouble s /\ method c = 0 /\
  exists c' s', load_two cdouble (fun _ => true) newCache (newTwo (newOne "") (newOne "")) (save_two cdouble c c c2 s) = Ok (c', s', []) /\
    method c' = 1.
Proof.
  exists (demo_cache 0 ""), (demo_cache 1 ""), (demo_two false (newOne "Rb") (newOne "Rb")).
  assert (V : valid_two cdouble (demo_two false (newOne "Rb") (newOne "Rb"))) by (apply demo_two_valid; apply new_one_valid; okay).
  assert (Vc : valid_cache (demo_cache 0 "")) by (apply demo_cache_valid; okay).
  assert (Vc2 : valid_cache (demo_cache 1 "")) by (apply demo_cache_valid; okay).
  split; [exact Vc|]. split; [exact Vc2|]. split; [exact V|]. split; [reflexivity|].
  eexists. eexists. split.
  - rewrite <- (app_nil_r (save_two _ _ _ _ _)).
    refine (@load_save_two _ _ lawful_double _ _ _ _ _ _ _ _ Vc Vc Vc2 _ _ _ V); now left.
  - reflexivity.
Qed.
(** In Python every loaded system refers to a cache that no longer exists: pickling it again is undefined, for every system, ... *)
Theorem C38_dangling_refuted : forall opens c (s : sysone Z), valid_cache c -> openable opens c -> valid_one cdouble s ->
  exists bs s', getstate_one cdouble (Alive c) s = Ok bs /\ setstate_one cdouble opens bs = Ok (Gone, s') /\
    getstate_one cdouble Gone s' = UB.
Proof.
  intros opens c s Vc O V. destruct (@C38_one_real_partial opens c s Vc O V) as (bs & s' & H1 & H2 & _).
  exists bs, s'. split; [exact H1|]. split; [exact H2|]. reflexivity.
Qed.
(** ... and so is checking the distance of a loaded pair system against the Le Roy radius, even if the saved one knew it already. *)
Theorem C38_leroy_refuted : exists c (s : systwo Z), valid_cache c /\ valid_two cdouble s /\ checkDistance_reads Gone s = Ok tt /\
  exists bs s', getstate_two cdouble (Alive c) (Alive c) (Alive c) s = Ok bs /\
    setstate_two cdouble (fun _ => true) bs = Ok (Gone, s') /\ checkDistance_reads Gone s' = UB.
Proof.
  exists (demo_cache 1 ""), (demo_two false (newOne "Rb") (newOne "Rb")).
  assert (V : valid_two cdouble (demo_two false (newOne "Rb") (newOne "Rb"))) by (apply demo_two_valid; apply new_one_valid; okay).
  assert (Vc : valid_cache (demo_cache 1 "")) by (apply demo_cache_valid; okay).
  split; [exact Vc|]. split; [exact V|]. split; [reflexivity|].
  pose proof (or_introl eq_refl : openable (fun _ => true) (demo_cache 1 "")) as O.
  destruct (@C38_two_real_partial (fun _ => true) _ _ _ _ Vc Vc Vc O O O V) as (bs & s' & H1 & H2 & H3 & (N1 & N2 & _) & _).
  exists bs, s'. split; [exact H1|]. split; [exact H2|]. unfold checkDistance_reads.
  destruct H3 as (E1 & _ & _ & _ & E2 & _). rewrite E1, E2, N2. reflexivity.
Qed.

(** ** C71: damaged pickles *)
(** A pickle that has been cut off is refused with an exception, wherever it was cut. *)
Theorem C71_truncated_one : forall opens c s p q, valid_cache c -> openable opens c ->
  (valid_one cdouble s -> getstate_one cdouble (Alive c) s = Ok (p ++ q) -> q <> [] -> setstate_one cdouble opens p = Throw).
Proof.
  intros opens c s p q Vc O V E Hq. injection E as E. unfold setstate_one.
  rewrite (@load_one_cut _ _ lawful_double opens (newOne "") newCache c s p q Vc O V E Hq). reflexivity.
Qed.
Theorem C71_truncated_one_complex : forall opens c s p q, valid_cache c -> openable opens c ->
  (valid_one ccomplex s -> getstate_one ccomplex (Alive c) s = Ok (p ++ q) -> q <> [] -> setstate_one ccomplex opens p = Throw).
Proof.
  intros opens c s p q Vc O V E Hq. injection E as E. unfold setstate_one.
  rewrite (@load_one_cut _ _ lawful_complex opens (newOne "") newCache c s p q Vc O V E Hq). reflexivity.
Qed.
Theorem C71_truncated_two : forall opens c c1 c2 s p q, valid_cache c -> valid_cache c1 -> valid_cache c2 ->
  openable opens c -> openable opens c1 -> openable opens c2 -> valid_two cdouble s ->
  getstate_two cdouble (Alive c) (Alive c1) (Alive c2) s = Ok (p ++ q) -> q <> [] -> setstate_two cdouble opens p = Throw.
Proof.
  intros opens c c1 c2 s p q Vc V1 V2 O O1 O2 V E Hq. injection E as E. unfold setstate_two.
  rewrite (@load_two_cut _ _ lawful_double opens (newTwo (newOne "") (newOne "")) newCache c c1 c2 s p q Vc V1 V2 O O1 O2 V E Hq).
  reflexivity.
Qed.
Theorem C71_truncated_two_complex : forall opens c c1 c2 s p q, valid_cache c -> valid_cache c1 -> valid_cache c2 ->
  openable opens c -> openable opens c1 -> openable opens c2 -> valid_two ccomplex s ->
  getstate_two ccomplex (Alive c) (Alive c1) (Alive c2) s = Ok (p ++ q) -> q <> [] -> setstate_two ccomplex opens p = Throw.
Proof.
  intros opens c c1 c2 s p q Vc V1 V2 O O1 O2 V E Hq. injection E as E. unfold setstate_two.
  rewrite (@load_two_cut _ _ lawful_complex opens (newTwo (newOne "") (newOne "")) newCache c c1 c2 s p q Vc V1 V2 O O1 O2 V E Hq).
  reflexivity.
Qed.
(** The bytes that come after the object are ignored. *)
Theorem C71_trailing : forall opens c s junk, valid_cache c -> openable opens c -> valid_one cdouble s ->
  setstate_one cdouble opens (save_one cdouble c s ++ junk) = setstate_one cdouble opens (save_one cdouble c s).
Proof.
  intros opens c s junk Vc O V. unfold setstate_one.
  rewrite (@load_save_one _ _ lawful_double opens (newOne "") newCache c s junk Vc O V).
  rewrite <- (app_nil_r (save_one cdouble c s)).
  rewrite (@load_save_one _ _ lawful_double opens (newOne "") newCache c s [] Vc O V). reflexivity.
Qed.
Example C71_nonvacuous : valid_cache (demo_cache 1 "") /\ valid_one cdouble (demo_one 1 0 0 bits_max []) /\
  exists p q, getstate_one cdouble (Alive (demo_cache 1 "")) (demo_one 1 0 0 bits_max []) = Ok (p ++ q) /\ q <> [] /\ p <> [].
Proof.
  split; [apply demo_cache_valid; okay|]. split; [apply demo_one_valid; okay|].
  exists (firstn 500 (save_one cdouble (demo_cache 1 "") (demo_one 1 0 0 bits_max []))),
         (skipn 500 (save_one cdouble (demo_cache 1 "") (demo_one 1 0 0 bits_max []))).
  rewrite firstn_skipn. split; [reflexivity|]. split; vm_compute; discriminate.
Qed.
(** Whatever the bytes: in every matrix of a loaded system the three arrays have the lengths that the numbers of columns and
    entries ask for (so that going through the stored entries stays inside the arrays as far as the lengths decide it).
    Missing: the indices in the arrays, see the next theorem. *)
Definition sized {K} (m : sparse K) : Prop :=
  List.length (idx m) = List.length (val m) /\ -1 <= outer m /\ Z.of_nat (List.length (ptr m)) = outer m + 1.
Definition sized_base {St K} (b : sysbase St K) : Prop := sized (bv b) /\ sized (ham b) /\ sized (bv_up b) /\ sized (ham_up b).
Definition sized_one {K} (s : sysone K) : Prop := sized_base (o_base s) /\
  Forall (fun e => sized (snd e)) (o_int_e s) /\ Forall (fun e => sized (snd e)) (o_int_b s) /\ Forall (fun e => sized (snd e)) (o_int_d s).
Definition sized_two {K} (s : systwo K) : Prop := sized_base (w_base s) /\ sized_one (w_one1 s) /\ sized_one (w_one2 s) /\
  Forall (fun e => sized (snd e)) (w_int_angle s) /\ Forall (fun e => sized (snd e)) (w_int_m s) /\ Forall (fun e => sized (snd e)) (w_int_dd s) /\
  Forall (fun e => sized (snd e)) (w_int_dq s) /\ Forall (fun e => sized (snd e)) (w_int_qd s).

Definition gives {A} (c : codec A) (P : A -> Prop) : Prop := forall bs x r, dec c bs = Ok (x, r) -> P x.
Lemma gives_any : forall A (c : codec A), gives c (fun _ => True).
Proof. intros A c bs x r _. exact I. Qed.
Lemma gives_pair : forall A B (a : codec A) (b : codec B) P Q, gives a P -> gives b Q -> gives (cpair a b) (fun x => P (fst x) /\ Q (snd x)).
Proof.
  intros A B a b P Q Ha Hb bs [x y] r H. cbn [cpair dec] in H. destruct (dec a bs) as [[x' r']| |] eqn:E1; try discriminate. cbn [bind] in H.
  destruct (dec b r') as [[y' r'']| |] eqn:E2; try discriminate. cbn [bind] in H. injection H as -> -> ->. cbn. split; [eapply Ha|eapply Hb]; eassumption.
Qed.
Lemma gives_dec_n : forall A (c : codec A) P, gives c P -> forall n bs xs r, dec_n c n bs = Ok (xs, r) -> List.length xs = n /\ Forall P xs.
Proof.
  intros A c P Hc. induction n as [|n IH]; intros bs xs r H; cbn [dec_n] in H; [injection H as <- <-; split; constructor|].
  destruct (dec c bs) as [[x r1]| |] eqn:E; try discriminate. cbn [bind] in H. destruct (dec_n c n r1) as [[ys r2]| |] eqn:E2; try discriminate.
  cbn [bind] in H. injection H as <- <-. destruct (IH _ _ _ E2) as [L F]. split; [cbn; congruence|]. constructor; [eapply Hc; eassumption|exact F].
Qed.
Lemma gives_list : forall A (c : codec A) P, gives c P -> gives (clist c) (Forall P).
Proof.
  intros A c P Hc bs xs r H. cbn [clist dec] in H. destruct (dec csize bs) as [[n r1]| |]; try discriminate. cbn [bind] in H.
  exact (proj2 (gives_dec_n Hc _ _ H)).
Qed.
Lemma finalize_length : forall nnz p, List.length (finalize nnz p) = List.length p.
Proof.
  intros. unfold finalize. rewrite rev_length. transitivity (List.length (rev p)); [|apply rev_length]. generalize (rev p) as l. induction l as [|x l IH]; cbn; [reflexivity|].
  destruct (x =? 0)%Z; cbn; congruence.
Qed.
Lemma gives_sparse : forall K (c : codec K), gives (csparse c) sized.
Proof.
  intros K c bs m r H. cbn [csparse dec] in H.
  destruct (dec cint bs) as [[i b1]| |]; try discriminate. cbn [bind] in H.
  destruct (dec cint b1) as [[o b2]| |]; try discriminate. cbn [bind] in H.
  destruct (dec cint b2) as [[nnz b3]| |]; try discriminate. cbn [bind] in H.
  destruct (Z.ltb_spec o (-1)); try discriminate.
  destruct (dec csize b3) as [[q1 b4]| |]; try discriminate. cbn [bind] in H.
  destruct (Z.ltb_spec nnz 0); try discriminate.
  destruct (dec_n cint (Z.to_nat nnz) b4) as [[ix b5]| |] eqn:E1; try discriminate. cbn [bind] in H.
  destruct (dec csize b5) as [[q2 b6]| |]; try discriminate. cbn [bind] in H.
  destruct (dec_n cint (Z.to_nat (o + 1)) b6) as [[p b7]| |] eqn:E2; try discriminate. cbn [bind] in H.
  destruct (dec csize b7) as [[q3 b8]| |]; try discriminate. cbn [bind] in H.
  destruct (dec_n c (Z.to_nat nnz) b8) as [[v b9]| |] eqn:E3; try discriminate. cbn [bind] in H. injection H as <- <-.
  apply (gives_dec_n (@gives_any _ _)) in E1 as [L1 _]. apply (gives_dec_n (@gives_any _ _)) in E2 as [L2 _]. apply (gives_dec_n (@gives_any _ _)) in E3 as [L3 _].
  unfold sized. cbn [idx val outer ptr]. rewrite finalize_length. split; [congruence|]. split; lia.
Qed.
Lemma gives_int : forall A K (a : codec A) (c : codec K), gives (clist (cpair a (csparse c))) (Forall (fun e => sized (snd e))).
Proof.
  intros A K a c. apply gives_list. intros bs x r H. exact (proj2 (gives_pair (@gives_any _ a) (@gives_sparse _ c) _ H)).
Qed.
Lemma gives_base : forall St K (cs : codec St) (ck : codec K), gives (cbase cs ck) sized_base.
Proof.
  intros St K cs ck bs x r H. unfold cbase in H. cbn [cmap dec] in H.
  match type of H with context [dec ?c bs] => set (C := c) in *; assert (G : gives C (fun x =>
    let '(_, (_, (_, (_, (_, (_, (_, (_, (_, (_, (_, (_, (v, (h, (v', h'))))))))))))))) := x in sized v /\ sized h /\ sized v' /\ sized h')) end.
  { intros b y q E.
    eassert (G : gives C _).
    { unfold C. do 12 (eapply gives_pair; [apply gives_any|]). eapply gives_pair; [apply gives_sparse|]. eapply gives_pair; [apply gives_sparse|].
      eapply gives_pair; [apply gives_sparse|apply gives_sparse]. }
    apply G in E. cbn beta in E. repeat match type of y with (_ * _)%type => destruct y as [? y] end. cbn [fst snd] in E. tauto. }
  destruct (dec C bs) as [[y q]| |] eqn:E; try discriminate. apply G in E. cbn [bind] in H.
  destruct y as (y1 & y2 & y3 & y4 & y5 & y6 & y7 & y8 & y9 & y10 & y11 & y12 & y13 & y14 & y15 & y16). injection H as <- _. exact E.
Qed.
Lemma load_one_sized : forall K (ck : codec K) opens c t bs c' s r, load_one ck opens c t bs = Ok (c', s, r) -> sized_one s.
Proof.
  intros K ck opens c t bs c' s r H. unfold load_one in H.
  destruct (load_cache opens c bs) as [[c1 b1]| |]; try discriminate. cbn [bind] in H.
  destruct (dec (cbase cstateone ck) b1) as [[b b2]| |] eqn:E1; try discriminate. cbn [bind] in H.
  destruct (dec (cone_saved ck) b2) as [[y b3]| |] eqn:E2; try discriminate. cbn [bind] in H.
  apply gives_base in E1.
  eassert (G : gives (cone_saved ck) _).
  { unfold cone_saved. do 9 (eapply gives_pair; [apply gives_any|]). eapply gives_pair; [apply gives_int|]. eapply gives_pair; [apply gives_int|apply gives_int]. }
  apply G in E2. destruct y as (y1 & y2 & y3 & y4 & y5 & y6 & y7 & y8 & y9 & y10 & y11 & y12). cbn [fst snd] in E2. injection H as _ <- _.
  split; [exact E1|]. cbn. tauto.
Qed.
(** Whatever the bytes: in every matrix of a loaded system the arrays have the lengths that the numbers of columns and entries ask for.
    Missing: the indices in the arrays (next theorem). *)
Theorem C93_sizes_partial : forall K (ck : codec K) opens bs,
  (forall p s, setstate_one ck opens bs = Ok (p, s) -> sized_one s) /\
  (forall p s, setstate_two ck opens bs = Ok (p, s) -> sized_two s).
Proof.
  intros K ck opens bs. split; intros p s H.
  - unfold setstate_one in H. destruct (load_one ck opens newCache (newOne "") bs) as [[[c s'] r]| |] eqn:E; try discriminate. cbn [bind] in H.
    injection H as _ <-. eapply load_one_sized; eassumption.
  - unfold setstate_two in H. destruct (load_two ck opens newCache _ bs) as [[[c s'] r]| |] eqn:E; try discriminate. cbn [bind] in H.
    injection H as _ <-. unfold load_two in E.
    destruct (load_cache opens newCache bs) as [[c1 b1]| |]; try discriminate. cbn [bind] in E.
    destruct (dec (cbase cstatetwo ck) b1) as [[b b2]| |] eqn:E1; try discriminate. cbn [bind] in E.
    destruct (dec (carr 2 cstring) b2) as [[sp b3]| |]; try discriminate. cbn [bind] in E.
    destruct (load_one ck opens c1 _ b3) as [[[c2 o1] b4]| |] eqn:E3; try discriminate. cbn [bind] in E.
    destruct (load_one ck opens c2 _ b4) as [[[c3 o2] b5]| |] eqn:E4; try discriminate. cbn [bind] in E.
    destruct (dec (ctwo_saved ck) b5) as [[y b6]| |] eqn:E5; try discriminate. cbn [bind] in E.
    apply gives_base in E1. apply load_one_sized in E3. apply load_one_sized in E4.
    eassert (G : gives (ctwo_saved ck) _).
    { unfold ctwo_saved. do 14 (eapply gives_pair; [apply gives_any|]). do 4 (eapply gives_pair; [apply gives_int|]). apply gives_int. }
    apply G in E5. destruct y as (y1 & y2 & y3 & y4 & y5 & y6 & y7 & y8 & y9 & y10 & y11 & y12 & y13 & y14 & y15 & y16 & y17 & y18 & y19).
    cbn [fst snd] in E5. injection E as _ <- _. split; [exact E1|]. cbn. tauto.
Qed.

(** One changed byte: the Hamiltonian of the loaded system has an entry in row 201 of 2. *)
Fixpoint differences (a b : bytes) : nat :=
  match a, b with
  | x :: a', y :: b' => ((if (x =? y)%Z then 0 else 1) + differences a' b')%nat
  | [], [] => 0%nat
  | _, _ => 1%nat
  end.
Theorem C93_damaged_refuted : exists c (s : sysone Z) bs, valid_cache c /\ valid_one cdouble s /\
  differences (save_one cdouble c s) bs = 1%nat /\
  exists s', setstate_one cdouble (fun _ => true) bs = Ok (Gone, s') /\
    inner (ham (o_base s')) = 2 /\ In 200 (idx (ham (o_base s'))).
Proof.
  exists (demo_cache 1 ""), (demo_one 1 0 0 bits_max []), (save_one cdouble (demo_cache 1 "") (demo_one 200 0 0 bits_max [])).
  assert (V : valid_one cdouble (demo_one 200 0 0 bits_max [])) by (apply demo_one_valid; okay).
  assert (Vc : valid_cache (demo_cache 1 "")) by (apply demo_cache_valid; okay).
  split; [exact Vc|]. split; [apply demo_one_valid; okay|]. split; [vm_compute; reflexivity|].
  destruct (@C38_one_real_partial (fun _ => true) _ _ Vc (or_introl eq_refl) V) as (bs & s' & H1 & H2 & _ & _ & E).
  injection H1 as <-. exists s'. split; [exact H2|]. rewrite E by (now repeat split). split; [reflexivity|].
  cbn [o_base ham idx demo_one demo_base full2 In]. auto.
Qed.
(** Anything but bytes: an uninitialised buffer is read. *)
Theorem C85_nonbytes_refuted : forall opens, setstate_py_one cdouble opens PyOther = UB.
Proof. reflexivity. Qed.

Print Assumptions C38_one_real_partial. Print Assumptions C38_one_complex_partial. Print Assumptions C38_two_real_partial.
Print Assumptions C38_two_complex_partial. Print Assumptions C38_cache_partial. Print Assumptions C38_ion_refuted.
Print Assumptions C38_greentensor_refuted. Print Assumptions C38_defectdb_refuted. Print Assumptions C38_caches_refuted.
Print Assumptions C38_dangling_refuted. Print Assumptions C38_leroy_refuted. Print Assumptions C71_truncated_one.
Print Assumptions C71_truncated_one_complex. Print Assumptions C71_truncated_two. Print Assumptions C71_truncated_two_complex.
Print Assumptions C71_trailing. Print Assumptions C93_damaged_refuted. Print Assumptions C93_sizes_partial. Print Assumptions C85_nonbytes_refuted.
