(** C81, C82: matrix elements of the command line program and their cache file (MatrixElements.cpp). *)
From Coq Require Import ZArith Lia Bool List Reals Lra String Permutation.
From Flocq Require Import Core.
Import ListNotations.
From Verif Require Import Base Racah StateModel MEModel BasisnamesModel InteractModel InteractSpec InteractProofs OneFieldModel OneFieldSpec OneFieldProofs MatCacheModel MatCacheSpec MatCacheProofs MatCacheProofs2 MatCacheProofs3 MatCacheProofs4 MatCacheProofs5.
Set Implicit Arguments.
Local Open Scope R_scope.

(** Spin 1/2: whatever precalculations and queries an object has seen, with whatever other processes have written into the file before and
    in between, a query for which the precalculation has been called is answered with the product of the factors, each exact or rounded
    to six digits; never with 0 for a missing value or with the mark of an unset value. If nobody writes between reading and writing,
    no precalculation fails. *)
Theorem C81_value : forall w3j w6j radial Rad ord me sp cMag gL gS cDia h,
  (forall l, Permutation (ord l) l) -> radial_exact radial Rad -> me <> Error ->
  prepared [] h -> doublets h -> files_ok (file_ok w3j w6j Rad) h ->
  let answers := snd (run w3j w6j radial ord cMag gL gS cDia (Object me sp []) h) in
  answers <> UB /\
  (forall vs, answers = Ok vs -> Forall2 (fun v '(x, s, t) => exists y, v = Num y /\ answer w3j w6j (Rad me sp) cMag gL gS cDia x s t y) vs (queries h)) /\
  (alone h -> exists vs, answers = Ok vs).
Proof.
  intros w3j w6j radial Rad ord me sp cMag gL gS cDia h OP RE ME P D F. apply run_spec with (Rad := Rad) (done := []); auto.
  - split; [constructor|discriminate].
  - intros a names [].
Qed.

(** The options of the configuration: with missingCalc the radial elements are those of the model potentials, whatever missingWhittaker
    says; without it and with missingWhittaker they are those of the Coulomb approximation. *)
Corollary C81_options : forall w3j w6j radial Rad ord missingCalc missingWhittaker sp cMag gL gS cDia h,
  (forall l, Permutation (ord l) l) -> radial_exact radial Rad -> missingCalc = true \/ missingWhittaker = true ->
  prepared [] h -> doublets h -> files_ok (file_ok w3j w6j Rad) h ->
  let answers := snd (run w3j w6j radial ord cMag gL gS cDia (Object (method_of missingCalc missingWhittaker) sp []) h) in
  let R := Rad (if missingCalc then Modelpotentials else Whittaker) sp in
  (forall vs, answers = Ok vs -> Forall2 (fun v '(x, s, t) => exists y, v = Num y /\ answer w3j w6j R cMag gL gS cDia x s t y) vs (queries h)) /\
  (alone h -> exists vs, answers = Ok vs).
Proof.
  intros w3j w6j radial Rad ord c w sp cMag gL gS cDia h OP RE O P D F answers R.
  assert (ME : method_of c w <> Error) by (destruct c, w; try discriminate; destruct O; discriminate).
  destruct (@C81_value w3j w6j radial Rad ord _ sp cMag gL gS cDia h OP RE ME P D F) as (_ & A & B). split; [|exact B].
  intros vs H. specialize (A vs H). replace R with (Rad (method_of c w) sp); [exact A|]. unfold R. destruct c, w; try reflexivity. destruct O; discriminate.
Qed.

(** The rounding changes the result by at most 2.1e-5 of its value (5e-6 for radial elements). *)
Theorem C81_error : forall w3j w6j Rad cMag gL gS cDia x s t y,
  answer w3j w6j Rad cMag gL gS cDia x s t y ->
  match x with
  | QMultipole _ | QDiamagnetism _ => let e := exact w3j w6j Rad cMag gL gS cDia x s t in Rabs (y - e) <= 21 / 1000000 * Rabs e
  | QMagnetic =>
      let e := cMag * f_radial Rad 0 s t * f_angular w3j 1 s t in
      let p := gL * f_orbital w6j 1 s t * sqrt (IZR (l_ s * (l_ s + 1) * (2 * l_ s + 1))) in let q := gS * f_spin w6j 1 s t * sqrt (3 / 2) in
      exact w3j w6j Rad cMag gL gS cDia x s t = e * p + e * q /\ Rabs (y - exact w3j w6j Rad cMag gL gS cDia x s t) <= 21 / 1000000 * (Rabs (e * p) + Rabs (e * q))
  | QRadial _ => let e := exact w3j w6j Rad cMag gL gS cDia x s t in Rabs (y - e) <= 5 / 1000000 * Rabs e
  end.
Proof.
  intros w3j w6j Rad cMag gL gS cDia x s t y A. destruct x as [k|k| |k]; cbn [answer] in A; cbv zeta.
  - destruct A as (a & b & c & d & A & B & C & D & ->). unfold exact. pose proof (@four_errors 1 _ _ _ _ _ _ _ _ A B C D) as H. rewrite !Rmult_1_l in H. exact H.
  - destruct A as (a & b & c & d & A & B & C & D & ->). unfold exact. apply (@four_errors cDia); assumption.
  - destruct A as (a & b & c & d & A & B & C & D & ->). unfold exact. set (u := sqrt (IZR _)). set (v := sqrt (3 / 2)). split; [ring|].
    pose proof (@four_errors (cMag * gL) _ _ _ _ _ _ _ _ A B C (or_introl eq_refl : six_digits u u)) as P.
    pose proof (@four_errors (cMag * gS) _ _ _ _ _ _ _ _ A B D (or_introl eq_refl : six_digits v v)) as Q.
    eapply Rle_trans; [|rewrite Rmult_plus_distr_l; apply Rplus_le_compat].
    + eapply Rle_trans; [|apply Rabs_triang]. right. f_equal. instantiate (1 := cMag * gS * a * b * d * v - cMag * gS * f_radial Rad 0 s t * f_angular w3j 1 s t * f_spin w6j 1 s t * v).
      instantiate (1 := cMag * gL * a * b * c * u - cMag * gL * f_radial Rad 0 s t * f_angular w3j 1 s t * f_orbital w6j 1 s t * u). ring.
    + eapply Rle_trans; [exact P|]. right. do 2 f_equal. ring.
    + eapply Rle_trans; [exact Q|]. right. do 2 f_equal. ring.
  - destruct (six_error A) as (e & -> & H). unfold exact. replace (f_radial Rad k s t * (1 + e) - f_radial Rad k s t) with (e * f_radial Rad k s t) by ring. rewrite Rabs_mult. apply Rmult_le_compat_r; [apply Rabs_pos|exact H].
Qed.

(** The file stays correct: a successful precalculation adds correct rows with six digits and keeps those that are there. *)
Theorem C81_file : forall w3j w6j radial Rad ord me sp a names db db' t o,
  (forall l, Permutation (ord l) l) -> radial_exact radial Rad -> me <> Error -> Forall doublet names ->
  file_ok w3j w6j Rad db -> file_ok w3j w6j Rad db' ->
  precalculate w3j w6j radial ord a names db db' (Object me sp []) = (o, Ok t) ->
  file_ok w3j w6j Rad t /\ (forall own k v, In (own, k, v) db' -> In (own, k, v) t).
Proof.
  intros w3j w6j radial Rad ord me sp a names db db' t o OP RE ME D F F' E.
  destruct (@precalculate_gen w3j w6j radial Rad ord OP me sp a names db db' [] (conj (NoDup_nil _) (fun k (H : None = Some Max) => ltac:(discriminate H)))) as (_ & _ & _ & A & _); [intros k Hk; apply (@good_keys w3j w6j radial Rad RE me sp ME a names); assumption|assumption|].
  rewrite E in A. cbn [fst snd] in A. destruct (A t eq_refl) as (_ & _ & _ & _ & X & _). split; [apply X; assumption|].
  unfold precalculate in E. destruct (note _ _ _) as [m1 tmp]. cbn [mem] in E. destruct (store_stages _ _ _ _ _ _ _ _) as [m' r] eqn:S. injection E as _ E. subst r.
  clear - S. revert S. generalize (load (Object me sp []) db m1 tmp). generalize (stages a). revert db' m' t. intros db' m' t fs. revert db' m' t. induction fs as [|f fs IH]; intros db' m' t m S; cbn [store_stages] in S; [injection S as <- <-; auto|].
  destruct (store w3j w6j radial (Object me sp []) m db' (pending ord m f)) as [m2 [d2| |]] eqn:S2; try discriminate S.
  intros own k v I. apply (IH _ _ _ _ S). revert S2 I. generalize (pending ord m f). clear. intros l. revert m db'. induction l as [|a l IH]; intros m' db' S2 I; cbn [store] in S2; [injection S2 as <- <-; assumption|].
  destruct (calc w3j w6j radial (Object me sp []) a) as [[x| |]| |]; try discriminate S2. destruct (find_row db' _ a); [discriminate S2|]. apply (IH _ _ S2). right. assumption.
Qed.

(** The atom in fields and the pair of atoms ask only for what they have precalculated: the queries for the entries of all matrices of
    C80 come after the precalculation (so that C81_value applies), and so do those of C79. *)
Theorem C81_program : forall fl names (files : request -> table * table) gets,
  Forall (fun g => exists x row col, g = Get (slot_query x) row col /\ In row names /\ In col names /\ has x (chain x fl row col) = true) gets ->
  prepared [] (map (fun a => Pre a names (fst (files a)) (snd (files a))) (field_requests fl) ++ gets).
Proof.
  intros fl names files gets G.
  assert (P : forall rs done, (forall a, In a (field_requests fl) -> In (a, names) done \/ In a rs) -> prepared done (map (fun a => Pre a names (fst (files a)) (snd (files a))) rs ++ gets)).
  { induction rs as [|a rs IH]; intros done H; cbn [map app].
    - induction G as [|g gets (x & row & col & -> & Ir & Ic & C) _ IHg]; cbn [prepared]; [exact I|]. split; [|exact IHg]. destruct (@field_covered fl x row col C) as (a & Ia & Ca). exists a, names. destruct (H a Ia) as [D|[]].
      split; [assumption|]. split; [exists row; auto|]. split; [exists col; auto|]. assumption.
    - cbn [prepared]. apply IH. intros b Ib. destruct (H b Ib) as [D|[<-|D]]; [left; right; assumption|left; left; reflexivity|right; assumption]. }
  apply P. auto.
Qed.
Theorem C81_pairs : forall order names (files : request -> table * table) gets,
  Forall (fun g => exists n k s t, g = Get (QMultipole k) s t /\ listed s names /\ listed t names /\ sel_multipole s t k = true /\
    (2 <= n)%nat /\ (Z.of_nat n + 1 <= order)%Z /\ (1 <= k)%nat /\ (k <= n - 1)%nat) gets ->
  prepared [] (map (fun a => Pre a names (fst (files a)) (snd (files a))) (pair_requests order) ++ gets).
Proof.
  intros order names files gets G.
  assert (P : forall rs done, (forall a, In a (pair_requests order) -> In (a, names) done \/ In a rs) -> prepared done (map (fun a => Pre a names (fst (files a)) (snd (files a))) rs ++ gets)).
  { induction rs as [|a rs IH]; intros done H; cbn [map app].
    - induction G as [|g gets (n & k & s & t & -> & Ls & Lt & S & H1 & H2 & H3 & H4) _ IHg]; cbn [prepared]; [exact I|]. split; [|exact IHg]. destruct (@pair_covered order n k s s t t H1 H2 H3 H4) as [X _]. destruct (X S) as (a & Ia & Ca). exists a, names. destruct (H a Ia) as [D|[]]. auto.
    - cbn [prepared]. apply IH. intros b Ib. destruct (H b Ib) as [D|[<-|D]]; [left; right; assumption|left; left; reflexivity|right; assumption]. }
  apply P. auto.
Qed.

(** For spin 1/2 states the factors are those of the library (C14). *)
Theorem C81_library : forall w3j w6j k s t, doublet s -> doublet t ->
  f_angular w3j k s t = angular_val 1%R Rmult Ropp w3j (Z.of_nat k) (jj s) (jj t) (mm s) (mm t) /\
  f_orbital w6j k s t = comS_val 0%R 1%R Rmult Ropp w6j (fun z => sqrt (IZR z)) 1 (Z.of_nat k) (l_ s) (l_ t) (jj s) (jj t) /\
  f_reduced w3j k s t = mul_val 1%R Rmult Ropp w3j (fun z => sqrt (IZR z)) (Z.of_nat k) (l_ s) (l_ t) /\
  (k = 1%nat -> l_ s = l_ t -> (Z.abs (jj s - 2 * l_ s) = 1 -> Z.abs (jj t - 2 * l_ t) = 1 ->
     f_spin w6j k s t = comL_val 0%R 1%R Rmult Ropp w6j (fun z => sqrt (IZR z)) 1 (Z.of_nat k) (l_ s) (l_ t) (jj s) (jj t))%Z).
Proof.
  intros w3j w6j k s t (Ls & Js & [a A] & [b B]) (Lt & Jt & [c C] & [d D]).
  assert (SG : forall e, sgn 1%R Ropp e = sign e) by (intros e; unfold sgn, sign; destruct (Z.even e); lra).
  assert (TR : forall e, Z.Even e -> trunc2 e = (e / 2)%Z) by (intros e [x ->]; unfold trunc2; rewrite Z.mul_comm, Z.quot_mul, Z.div_mul; lia).
  split; [|split; [|split]].
  - unfold f_angular, angular_val. rewrite (SG (trunc2 (jj s - mm s))), (TR (jj s - mm s)%Z) by (exists (a - b)%Z; lia). reflexivity.
  - unfold f_orbital, comS_val, triS. match goal with |- (if ?c then _ else _) = (if ?d then _ else _) => replace d with c; [destruct c; [|reflexivity]|] end.
    + rewrite (SG (trunc2 (2 * l_ s + 1 + jj t + 2 * Z.of_nat k))), TR by (exists (l_ s + 1 + c + Z.of_nat k)%Z; lia). do 3 f_equal. replace (2 * l_ s + 1 + jj t + 2 * Z.of_nat k)%Z with ((l_ s + Z.of_nat k) * 2 + (1 + jj t))%Z by ring. rewrite Z.div_add_l by lia. ring.
    + apply eq_true_iff_eq. rewrite !andb_true_iff, !Z.leb_le, !Z.eqb_eq. lia.
  - unfold f_reduced, mul_val. rewrite (SG (l_ s)). reflexivity.
  - intros -> EL H1 H2. unfold f_spin, comL_val, triL. match goal with |- _ = (if ?d then _ else _) => replace d with true end.
    + rewrite (SG (trunc2 (2 * l_ s + 1 + jj s + 2 * Z.of_nat 1))), TR by (exists (l_ s + 1 + a + 1)%Z; lia). do 3 f_equal. replace (2 * l_ s + 1 + jj s + 2 * Z.of_nat 1)%Z with ((l_ s + Z.of_nat 1) * 2 + (1 + jj s))%Z by ring. rewrite Z.div_add_l by lia. ring.
    + symmetry. rewrite !andb_true_iff, !Z.leb_le. lia.
Qed.

(** ** examples *)
Definition xs : one := One 0 60 0 1 1.
Definition xp : one := One 1 60 1 1 1.
Definition one_ : method -> string -> Z -> Z -> Z -> Z -> Z -> Z -> Z -> res num := fun _ _ _ _ _ _ _ _ _ => Ok (Num 1).
Definition One_ : method -> string -> Z -> Z * Z * Z -> Z * Z * Z -> R := fun _ _ _ _ _ => 1.
Definition id_ (l : list okey) : list okey := l.
Lemma id_perm : forall l, Permutation (id_ l) l. Proof. intros l. apply Permutation_refl. Qed.
Lemma one_exact : radial_exact one_ One_. Proof. split; reflexivity. Qed.
Lemma sp_doublets : Forall doublet [xs; xp].
Proof. repeat constructor; cbn; try lia; exists 0%Z; lia. Qed.
Lemma sp_allowed : allowed xs xp 1.
Proof. unfold allowed. cbn. repeat split; try lia. exists 1%Z. reflexivity. Qed.
Lemma fresh_settled : settled []. Proof. split; [constructor|discriminate]. Qed.
Lemma fresh_dom : forall k, ~ dom [] k. Proof. intros k H. apply H. reflexivity. Qed.
Definition sp_history : list call := [Pre (precalculateMultipole 1) [xs; xp] [] []; Get (QMultipole 1) xs xp].
Example C81_hyp : prepared [] sp_history /\ doublets sp_history /\ files_ok (file_ok W3j W6j One_) sp_history /\ alone sp_history.
Proof.
  split; [|split; [|split]].
  - cbn [prepared sp_history]. split; [|exact I]. exists (precalculateMultipole 1), [xs; xp]. split; [left; reflexivity|]. split; [exists xs; cbn; auto|]. split; [exists xp; cbn; auto|]. apply cov_multipole. exact sp_allowed.
  - intros a names db db' [E|[E|[]]]; [|discriminate E]. injection E as <- <- <- <-. exact sp_doublets.
  - intros a names db db' [E|[E|[]]]; [|discriminate E]. injection E as <- <- <- <-. split; constructor.
  - intros a names db db' [E|[E|[]]]; [|discriminate E]. injection E as <- <- <- <-. reflexivity.
Qed.
Lemma sp_square : let e := exact W3j W6j (One_ Modelpotentials "Rb") 1 1 1 1 (QMultipole 1) xs xp in e * e = / 9.
Proof.
  cbv zeta. unfold exact. change (f_radial (One_ Modelpotentials "Rb") 1 xs xp) with 1. change (f_angular W3j 1 xs xp) with (1 * W3j 1 2 1 (-1) 0 1).
  change (f_orbital W6j 1 xs xp) with (1 * sqrt (IZR 4) * W6j 0 1 1 1 2 2). change (f_reduced W3j 1 xs xp) with (1 * sqrt (IZR 3) * W3j 0 2 2 0 0 0).
  match goal with |- ?u = _ => replace u with ((W3j 1 2 1 (-1) 0 1 * W3j 1 2 1 (-1) 0 1) * (sqrt 4 * sqrt 4) * (W6j 0 1 1 1 2 2 * W6j 0 1 1 1 2 2) * (sqrt 3 * sqrt 3) * (W3j 0 2 2 0 0 0 * W3j 0 2 2 0 0 0)) by ring end.
  rewrite w3j_sq1, w3j_sq2, w6j_sq, !sqrt_sqrt by lra. lra.
Qed.

(** A query before the precalculation is answered with 0, and so is the same query after the precalculation; the element is +-1/3. *)
Definition sp_keys : list okey := [key_radial 1 xs xp; key_angular 1 xs xp; key_s 1 xs xp; key_m 1 xs xp].
Lemma early_get : get 1 1 1 1 (QMultipole 1) xs xp [] = (Num (0 * 0 * 0 * 0), map (fun k => (k, Num 0)) sp_keys).
Proof. reflexivity. Qed.
Lemma late_get : forall m f, (forall k, In k sp_keys -> lookup m k = Some (Num (f k))) ->
  get 1 1 1 1 (QMultipole 1) xs xp m = (Num (f (key_radial 1 xs xp) * f (key_angular 1 xs xp) * f (key_s 1 xs xp) * f (key_m 1 xs xp)), m).
Proof.
  intros m f H. assert (L : forall k, In k sp_keys -> read k m = (Num (f k), m)) by (intros k Hk; unfold read; rewrite (H k Hk); reflexivity).
  unfold get, getMultipole. cbv zeta. change (Z.of_nat 1) with 1%Z. rewrite (L (key_radial 1 xs xp)), (L (key_angular 1 xs xp)), (L (key_s 1 xs xp)), (L (key_m 1 xs xp)) by (unfold sp_keys; cbn [In]; tauto). reflexivity.
Qed.
Theorem C92_early_refuted : 
  exists o, run W3j W6j one_ id_ 1 1 1 1 (Object Modelpotentials "Rb" [])
    [Get (QMultipole 1) xs xp; Pre (precalculateMultipole 1) [xs; xp] [] []; Get (QMultipole 1) xs xp] = (o, Ok [Num 0; Num 0]) /\
  exact W3j W6j (One_ Modelpotentials "Rb") 1 1 1 1 (QMultipole 1) xs xp <> 0.
Proof.
  cbn [run mem meth species]. rewrite early_get. set (m := map (fun k => (k, Num 0)) sp_keys).
  assert (S : settled m).
  { split; [|intros k; unfold m; cbn [lookup map sp_keys]; repeat match goal with |- context [if ?c then _ else _] => destruct c; [discriminate|] end; discriminate].
    unfold m. cbn [map fst sp_keys]. repeat constructor; cbn [In]; intros H; repeat destruct H as [H|H]; try discriminate H; exact H. }
  destruct (@precalculate_gen W3j W6j one_ One_ id_ id_perm Modelpotentials "Rb" (precalculateMultipole 1) [xs; xp] [] [] m S) as (E1 & E2 & _ & A & B).
  { intros k Hk. apply (@good_keys W3j W6j one_ One_ one_exact Modelpotentials "Rb" ltac:(discriminate) (precalculateMultipole 1) [xs; xp] k sp_doublets Hk). } { constructor. }
  destruct (B eq_refl) as [t Et]. destruct (A t Et) as (_ & _ & O & _). destruct (precalculate _ _ _ _ _ _ _ _ _) as [o r] eqn:EP. cbn [fst snd] in *. subst r.
  rewrite (@late_get (mem o) (fun _ => 0)).
  - eexists. split; [repeat f_equal; ring|]. intros H. pose proof sp_square as Q. cbv zeta in Q. rewrite H in Q. lra.
  - intros k Hk. assert (Q : lookup m k = Some (Num 0)) by (destruct Hk as [<-|[<-|[<-|[<-|[]]]]]; reflexivity). rewrite O by (unfold dom; rewrite Q; discriminate). exact Q.
Qed.

(** ** reproducibility *)
(** A run that nobody disturbs succeeds, and afterwards the file contains all it needs: every later run with the same options on a file
    that still contains these rows (whatever else has been added) succeeds, writes nothing and gives exactly the product of the factors
    rounded to six digits, so that all later runs agree. *)
Theorem C82_later_runs : forall w3j w6j radial Rad ord me sp cMag gL gS cDia rs names db,
  (forall l, Permutation (ord l) l) -> radial_exact radial Rad -> me <> Error -> Forall doublet names -> file_ok w3j w6j Rad db ->
  exists o t, session w3j w6j radial ord rs names db (Object me sp []) = (o, t, Ok tt) /\ file_ok w3j w6j Rad t /\
  forall ord' db', (forall l, Permutation (ord' l) l) -> file_ok w3j w6j Rad db' -> incl t db' ->
  exists o', session w3j w6j radial ord' rs names db' (Object me sp []) = (o', db', Ok tt) /\
  forall a x s u, In a rs -> listed s names -> listed u names -> covers s u a x ->
    fst (get cMag gL gS cDia x s u (mem o')) = Num (rounded w3j w6j (Rad me sp) cMag gL gS cDia x s u).
Proof.
  intros w3j w6j radial Rad ord me sp cMag gL gS cDia rs names db OP RE ME D F.
  destruct (@session_spec w3j w6j radial Rad ord OP RE me sp ME rs names db [] fresh_settled D F) as (m' & t & E & S & Ft & K & _); [intros k Hk; exfalso; apply (fresh_dom Hk)|].
  exists (Object me sp m'), t. split; [exact E|]. split; [exact Ft|]. intros ord' db' OP' F' I.
  destruct (@session_complete w3j w6j radial ord' OP' me sp rs names db' []) as (m2 & E2 & FF & D2).
  - split; [constructor|discriminate].
  - intros k Hk. apply (@find_row_incl t db'); [assumption|]. apply (K k (or_intror Hk)).
  - exists (Object me sp m2). split; [exact E2|]. intros a x s u Ia Ls Lu C. cbn [mem].
    apply (@get_from_file w3j w6j radial Rad RE me sp ME cMag gL gS cDia db' m2 a names x s u FF F' D); auto. intros k Hk. apply D2. right. exists a. auto.
Qed.

(** A run that throws has finished some of its precalculations: the file is then what a run of only these leaves, nothing they have
    written is lost. *)
Theorem C82_failed_run : forall w3j w6j radial ord rs names db o o' t,
  session w3j w6j radial ord rs names db o = (o', t, Throw) ->
  exists finished a rest o1, rs = finished ++ a :: rest /\ session w3j w6j radial ord finished names db o = (o1, t, Ok tt) /\
    snd (precalculate w3j w6j radial ord a names t t o1) = Throw.
Proof.
  intros w3j w6j radial ord. induction rs as [|a rs IH]; intros names db o o' t H; cbn [session] in H; [discriminate H|].
  destruct (precalculate w3j w6j radial ord a names db db o) as [o2 [db2| |]] eqn:E.
  - destruct (IH _ _ _ _ _ H) as (f & b & r & o1 & -> & Hf & Hb). exists (a :: f), b, r, o1. split; [reflexivity|]. split; [|exact Hb]. cbn [session]. rewrite E. exact Hf.
  - injection H as _ <-. exists [], a, rs, o. split; [reflexivity|]. split; [reflexivity|]. rewrite E. reflexivity.
  - discriminate H.
Qed.

(** A run on an empty file gives a different value than every run after it. *)
Theorem C82_first_run_refuted : exists o1 t o2,
  session W3j W6j one_ id_ [precalculateMultipole 1] [xs; xp] [] (Object Modelpotentials "Rb" []) = (o1, t, Ok tt) /\
  session W3j W6j one_ id_ [precalculateMultipole 1] [xs; xp] t (Object Modelpotentials "Rb" []) = (o2, t, Ok tt) /\
  fst (get 1 1 1 1 (QMultipole 1) xs xp (mem o1)) <> fst (get 1 1 1 1 (QMultipole 1) xs xp (mem o2)).
Proof.
  assert (ME : Modelpotentials <> Error) by discriminate.
  destruct (@session_spec W3j W6j one_ One_ id_ id_perm one_exact Modelpotentials "Rb" ME [precalculateMultipole 1] [xs; xp] [] [] fresh_settled sp_doublets (Forall_nil _)) as (m1 & t & E & S & Ft & K & _ & _ & N); [intros k Hk; exfalso; apply (fresh_dom Hk)|].
  destruct (@session_complete W3j W6j one_ id_ id_perm Modelpotentials "Rb" [precalculateMultipole 1] [xs; xp] t []) as (m2 & E2 & FF & D2); [split; [constructor|discriminate]|intros k Hk; apply (K k (or_intror Hk))|].
  exists (Object Modelpotentials "Rb" m1), t, (Object Modelpotentials "Rb" m2). split; [exact E|]. split; [exact E2|]. cbn [mem].
  assert (Ls : listed xs [xs; xp]) by (exists xs; cbn; auto). assert (Lp : listed xp [xs; xp]) by (exists xp; cbn; auto). assert (C := @cov_multipole xs xp 1%nat sp_allowed).
  assert (G2 := @get_from_file W3j W6j one_ One_ one_exact Modelpotentials "Rb" ME 1 1 1 1 t m2 (precalculateMultipole 1) [xs; xp] (QMultipole 1) xs xp FF Ft sp_doublets (fun k Hk => D2 k (or_intror (ex_intro _ _ (conj (or_introl eq_refl) Hk)))) Ls Lp C).
  rewrite G2. clear G2.
  assert (L : forall k x, In k (pair_keys (precalculateMultipole 1) xs xp) -> good W3j W6j one_ One_ Modelpotentials "Rb" k x -> lookup m1 k = Some (Num x)).
  { intros k x Hk [_ G]. destruct (N k) as (x' & [_ G'] & Lx).
    - apply fresh_dom.
    - exists (precalculateMultipole 1). split; [left; reflexivity|]. apply (@covered_keys (precalculateMultipole 1) [xs; xp] xs xp (QMultipole 1) k Ls Lp C Hk).
    - cbn [find_row] in Lx. rewrite Lx. specialize (G []). specialize (G' []). congruence. }
  pose (f := fun k => match lookup m1 k with Some (Num y) => y | _ => 0 end).
  pose proof sp_doublets as SD. inversion SD as [|? ? Ds SD']; subst. inversion SD' as [|? ? Dp _]; subst.
  assert (LR := L _ _ (or_introl eq_refl) (@good_radial W3j W6j one_ One_ one_exact Modelpotentials "Rb" ME 1 xs xp)).
  assert (LA := L _ _ (or_intror (or_introl eq_refl)) (@good_angular W3j W6j one_ One_ Modelpotentials "Rb" 1 xs xp Ds Dp)).
  assert (LS := L _ _ (or_intror (or_intror (or_introl eq_refl))) (@good_s W3j W6j one_ One_ Modelpotentials "Rb" 1 xs xp Ds Dp)).
  assert (LM := L _ _ (or_intror (or_intror (or_intror (or_introl eq_refl)))) (@good_m W3j W6j one_ One_ Modelpotentials "Rb" 1 xs xp)).
  change (lookup m1 (key_radial 1 xs xp) = Some (Num (f_radial (One_ Modelpotentials "Rb") 1 xs xp))) in LR. change (lookup m1 (key_angular 1 xs xp) = Some (Num (f_angular W3j 1 xs xp))) in LA.
  change (lookup m1 (key_s 1 xs xp) = Some (Num (f_orbital W6j 1 xs xp))) in LS. change (lookup m1 (key_m 1 xs xp) = Some (Num (f_reduced W3j 1 xs xp))) in LM.
  rewrite (@late_get m1 f).
  2: { intros k Hk. unfold f. destruct Hk as [<-|[<-|[<-|[<-|[]]]]]; [rewrite LR|rewrite LA|rewrite LS|rewrite LM]; reflexivity. }
  cbn [fst]. unfold f. rewrite LR, LA, LS, LM. clear - C. pose proof sp_square as Q. cbv zeta in Q. unfold exact in Q. unfold rounded.
  intros H. injection H as H. rewrite H in Q. apply ninth_not_decimal. rewrite <- Q. repeat match goal with |- decimal (_ * _) => apply decimal_mult end; apply fmt_decimal.
Qed.

(** Two runs that read the empty file before one of them has written: the other one throws, although each of them alone succeeds. *)
Theorem C82_two_processes_refuted : exists o t o',
  precalculate W3j W6j one_ id_ (precalculateMultipole 1) [xs; xp] [] [] (Object Modelpotentials "Rb" []) = (o, Ok t) /\
  precalculate W3j W6j one_ id_ (precalculateMultipole 1) [xs; xp] [] t (Object Modelpotentials "Rb" []) = (o', Throw).
Proof.
  assert (ME : Modelpotentials <> Error) by discriminate.
  assert (GK : forall k, In k (all_keys (precalculateMultipole 1) [xs; xp]) -> exists x, good W3j W6j one_ One_ Modelpotentials "Rb" k x) by (intros k Hk; apply (@good_keys W3j W6j one_ One_ one_exact Modelpotentials "Rb" ME _ _ k sp_doublets Hk)).
  destruct (@precalculate_gen W3j W6j one_ One_ id_ id_perm Modelpotentials "Rb" (precalculateMultipole 1) [xs; xp] [] [] [] fresh_settled GK (Forall_nil _)) as (_ & _ & _ & A & B). destruct (B eq_refl) as [t Et].
  destruct (@precalculate_gen W3j W6j one_ One_ id_ id_perm Modelpotentials "Rb" (precalculateMultipole 1) [xs; xp] [] t [] fresh_settled GK (Forall_nil _)) as (_ & _ & U & A' & _).
  destruct (A t Et) as (_ & _ & _ & _ & _ & _ & W & _). clear A B.
  destruct (precalculate W3j W6j one_ id_ (precalculateMultipole 1) [xs; xp] [] [] (Object Modelpotentials "Rb" [])) as [o r]. cbn [fst snd] in *. subst r.
  destruct (precalculate W3j W6j one_ id_ (precalculateMultipole 1) [xs; xp] [] t (Object Modelpotentials "Rb" [])) as [o' r'] eqn:EP. cbn [fst snd] in *. exists o, t, o'. split; [reflexivity|]. rewrite EP. f_equal. clear EP.
  destruct r' as [t'| |]; [exfalso|reflexivity|congruence]. destruct (A' t' eq_refl) as (_ & _ & _ & _ & _ & _ & W' & _).
  set (k := key_m (Z.of_nat 1) xs xp). assert (Ik : In k (all_keys (precalculateMultipole 1) [xs; xp])).
  { apply (@covered_keys (precalculateMultipole 1) [xs; xp] xs xp (QMultipole 1)); [exists xs; cbn; auto|exists xp; cbn; auto|apply cov_multipole; exact sp_allowed|right; right; right; left; reflexivity]. }
  assert (Gk := @good_m W3j W6j one_ One_ Modelpotentials "Rb" 1 xs xp). destruct (W k _ (fresh_dom (k := k)) Ik eq_refl Gk) as [F _]. destruct (W' k _ (fresh_dom (k := k)) Ik eq_refl Gk) as [_ F']. congruence.
Qed.

(** With both ways of calculating missing elements switched off the program throws whatever is in the file: a value that an earlier
    run has written there is not used. *)
Theorem C82_switched_off_refuted : forall w3j w6j radial Rad ord sp a names db db' s t,
  (forall l, Permutation (ord l) l) -> radial_exact radial Rad -> file_ok w3j w6j Rad db ->
  In s names -> In t names -> wanted_pair a s t = true ->
  snd (precalculate w3j w6j radial ord a names db db' (Object (method_of false false) sp [])) = Throw.
Proof.
  intros w3j w6j radial Rad ord sp a names db db' s t OP RE F Is It W.
  apply (@precalculate_bad w3j w6j radial ord OP a names db db' (Object (method_of false false) sp []) (key_radial (Z.of_nat (kappar a)) s t) eq_refl).
  - intros m sp' k n l j n' l' j'. destruct RE as [RV _]. rewrite RV. discriminate.
  - apply in_keys. exists s, t. repeat split; auto. left. reflexivity.
  - destruct (find_row db _ _) as [v|] eqn:E; [exfalso|reflexivity]. apply find_row_in in E. unfold file_ok in F. rewrite Forall_forall in F. specialize (F _ E). unfold key_radial in F. cbv zeta in F. cbn [owner_of meth species method_of] in F. inversion F. congruence.
  - intros x. unfold key_radial. cbv zeta. unfold calc. cbn [meth method_of]. discriminate.
Qed.

(** ** the hypotheses are met *)
Example C82_hyp : exists o t, session W3j W6j one_ id_ [precalculateMultipole 1] [xs; xp] [] (Object Modelpotentials "Rb" []) = (o, t, Ok tt) /\ file_ok W3j W6j One_ t /\ t <> [] /\
  snd (precalculate W3j W6j one_ id_ (precalculateMultipole 1) [xs; xp] t t (Object (method_of false false) "Rb" [])) = Throw.
Proof.
  assert (ME : Modelpotentials <> Error) by discriminate.
  destruct (@session_spec W3j W6j one_ One_ id_ id_perm one_exact Modelpotentials "Rb" ME [precalculateMultipole 1] [xs; xp] [] [] fresh_settled sp_doublets (Forall_nil _)) as (m1 & t & E & S & Ft & K & _); [intros k Hk; exfalso; apply (fresh_dom Hk)|].
  exists (Object Modelpotentials "Rb" m1), t. split; [exact E|]. split; [exact Ft|]. split.
  - intros ->. destruct (K (key_m (Z.of_nat 1) xs xp)) as [_ X]; [|apply X; reflexivity]. right. exists (precalculateMultipole 1). split; [left; reflexivity|].
    apply (@covered_keys (precalculateMultipole 1) [xs; xp] xs xp (QMultipole 1)); [exists xs; cbn; auto|exists xp; cbn; auto|apply cov_multipole; exact sp_allowed|right; right; right; left; reflexivity].
  - apply (@C82_switched_off_refuted W3j W6j one_ One_ id_ "Rb" (precalculateMultipole 1) [xs; xp] t t xs xp id_perm one_exact Ft); [left; reflexivity|right; left; reflexivity|reflexivity].
Qed.

Example C82_failed_nonvacuous : exists o t, session W3j W6j one_ id_ [precalculateMultipole 1] [xs; xp] [] (Object (method_of false false) "Rb" []) = (o, t, Throw).
Proof.
  pose proof (@C82_switched_off_refuted W3j W6j one_ One_ id_ "Rb" (precalculateMultipole 1) [xs; xp] [] [] xs xp id_perm one_exact (Forall_nil _) (or_introl eq_refl) (or_intror (or_introl eq_refl)) eq_refl) as H.
  cbn [session]. destruct (precalculate W3j W6j one_ id_ (precalculateMultipole 1) [xs; xp] [] [] (Object (method_of false false) "Rb" [])) as [o r]. cbn [snd] in H. subst r. eauto.
Qed.

Print Assumptions C81_value.
Print Assumptions C81_error. Print Assumptions C81_options. Print Assumptions C82_failed_run.
Print Assumptions C81_file.
Print Assumptions C81_program.
Print Assumptions C81_pairs.
Print Assumptions C81_library.
Print Assumptions C92_early_refuted.
Print Assumptions C82_later_runs.
Print Assumptions C82_first_run_refuted.
Print Assumptions C82_two_processes_refuted.
Print Assumptions C82_switched_off_refuted.
