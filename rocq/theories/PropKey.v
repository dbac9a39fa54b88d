(** C105: the key of a stored matrix determines the calculation. *)
From Coq Require Import ZArith Lia Bool String Ascii List QArith Qabs.
Import ListNotations.
From Verif Require Import Base SerModel SparseModel SparseProofs SparseProofs2 ConfModel ConfDemo ConfProofs NumModel NumProofs NumProofs2
  FileCacheModel FileCacheProofs FileCacheProofs2 FileCacheProofs3 PropFile BasisnamesModel KeyModel KeySpec KeyProofs.
Set Implicit Arguments.
Local Open Scope string_scope.

(** C105: two one-atom matrices with the same key are the same calculation: species, start states, ranges of the quantum numbers, method, energy
    window and diamagnetism are equal, the fields agree to five digits. *)
Theorem C105_one : forall c w f c' w' f' k p p', one_step c w f = Ok (k, p) -> one_step c' w' f' = Ok (k, p') ->
  Forall small (p_start p) -> Forall small (p_start p') -> doubles f -> doubles f' -> same_problem p p'.
Proof. exact one_same. Qed.

(** C105: the same for the matrices of a pair, where also restrictions, order of the multipole expansion and symmetry are equal, and the distance
    agrees to five digits. *)
Theorem C105_two : forall c same f r s c' same' f' r' s' k q q', two_step c same f r s = Ok (k, q) -> two_step c' same' f' r' s' = Ok (k, q') ->
  Forall small (p_start (q_one1 q) ++ p_start (q_one2 q)) -> Forall small (p_start (q_one1 q') ++ p_start (q_one2 q')) ->
  doubles f -> doubles f' -> KeySpec.is_double r -> KeySpec.is_double r' -> sym_ints s -> sym_ints s' -> same_pair q q'.
Proof. exact two_same. Qed.

(** C105: the atoms of a pair are the ones the configuration describes: the pair is built from the start states of the one-atom matrices. *)
Theorem C105_pair_atoms : forall c same f r s k q, two_step c same f r s = Ok (k, q) ->
  Forall small (p_start (q_one1 q) ++ p_start (q_one2 q)) ->
  fst (q_species q) = p_species (q_one1 q) /\ snd (q_species q) = p_species (q_one2 q) /\ q_method q = p_method (q_one1 q) /\
  p_start (q_one1 q) = (if same then [fst (q_initial q); snd (q_initial q)] else [fst (q_initial q)]) /\
  p_start (q_one2 q) = (if same then [fst (q_initial q); snd (q_initial q)] else [snd (q_initial q)]).
Proof.
  intros c same f r s k q H S. apply Forall_app in S as [S1 S2]. destruct (@two_spec _ _ _ _ _ _ _ H S1 S2) as ([] & _ & _ & _ & Sh & _).
  rewrite Sh in *. tauto.
Qed.

(** *** Histories of the cache: any number of runs with any configurations *)
Definition ask_one := (conf * which * fields)%type.
Definition step_one (r : ask_one) : res (conf * problem) := one_step (fst (fst r)) (snd (fst r)) (snd r).
Definition key_one (r : ask_one) : conf := match step_one r with Ok (k, _) => k | _ => [] end.
Definition matrix_one (calc : problem -> matrix) (r : ask_one) : matrix := match step_one r with Ok (_, p) => calc p | _ => (demo_a, demo_a) end.
(** The program can start with [r], and the matrix can be stored. *)
Definition valid_one cx base calc (r : ask_one) : Prop := exists k p, step_one r = Ok (k, p) /\ Forall small (p_start p) /\ doubles (snd r) /\
  storable_matrix cx base (calc p).

Definition ask_two := (conf * bool * fields * Q * symmetry)%type.
Definition step_two (r : ask_two) : res (conf * pair_problem) := match r with (c, same, f, d, s) => two_step c same f d s end.
Definition key_two (r : ask_two) : conf := match step_two r with Ok (k, _) => k | _ => [] end.
Definition matrix_two (calc : pair_problem -> matrix) (r : ask_two) : matrix := match step_two r with Ok (_, p) => calc p | _ => (demo_a, demo_a) end.
Definition valid_two cx base calc (r : ask_two) : Prop := exists k q, step_two r = Ok (k, q) /\ Forall small (p_start (q_one1 q) ++ p_start (q_one2 q)) /\
  match r with (_, _, f, d, s) => doubles f /\ KeySpec.is_double d /\ sym_ints s end /\ storable_matrix cx base (calc q).

(** C105: after any history of runs (with any configurations, killed at any point), a one-atom calculation ends with the matrix of the calculation
    asked for, up to the rounding of the fields.  Missing: what C51 misses (matrices that cannot be stored, several threads, see C53) and exact fields (C52). *)
Theorem C105_cache_one_partial : forall cx fconv base jprint jparse calc es es2 r,
  (0 <= base)%Z -> boost_json jprint jparse ->
  let h := (es ++ Restart [r] :: es2)%list in
  good key_one h -> (forall q, In q (params h) -> valid_one cx base calc q) ->
  no_restart es2 -> (enough key_one (matrix_one calc) (file_of cx) (jtext jprint) r <= runs_of 0 es2)%nat ->
  exists t k p p', nth_error (team (cache cx fconv base jprint jparse key_one (matrix_one calc) true h)) 0 = Some t /\ par t = r /\
    step_one r = Ok (k, p) /\ at_ t = Done (calc p') /\ same_problem p p'.
Proof.
  intros cx fconv base jprint jparse calc es es2 r B J h G V N R.
  assert (F : forall q, In q (params h) -> fine cx base key_one (matrix_one calc) q).
  { intros q Hq. destruct (V q Hq) as (k & p & E & _ & _ & St). unfold fine, key_one, matrix_one. rewrite E. split; [exact St|].
    split; [|exact (one_plain _ _ _ E)]. apply sorted_make. apply one_spec in E. tauto. }
  destruct (@C51_one_partial cx fconv base jprint jparse _ key_one (matrix_one calc) es es2 r B J G F N R) as (t & q & T & Pt & D & Hq & E).
  assert (Hr : In r (params h)) by (unfold h, params; rewrite map_app, concat_app; apply in_app_iff; right; left; reflexivity).
  destruct (V r Hr) as (k & p & Er & Sr & Dr & _). destruct (V q Hq) as (k' & p' & Eq & Sq & Dq & _).
  exists t, k, p, p'. unfold key_one in E. unfold matrix_one in D. rewrite Eq in E, D. rewrite Er in E. subst k'.
  split; [exact T|]. split; [exact Pt|]. split; [exact Er|]. split; [exact D|]. exact (@one_same _ _ _ _ _ _ _ _ _ Er Eq Sr Sq Dr Dq).
Qed.
(** C105: the same for pairs, with any number of threads.  Missing: matrices that cannot be stored (C51), exact distances (C52). *)
Theorem C105_cache_two_partial : forall cx fconv base jprint jparse calc es rs es2 i r,
  (0 <= base)%Z -> boost_json jprint jparse ->
  let h := (es ++ Restart rs :: es2)%list in
  good key_two h -> (forall q, In q (params h) -> valid_two cx base calc q) ->
  no_restart es2 -> nth_error rs i = Some r -> (enough key_two (matrix_two calc) (file_of cx) (jtext jprint) r <= runs_of i es2)%nat ->
  exists t k q q', nth_error (team (cache cx fconv base jprint jparse key_two (matrix_two calc) false h)) i = Some t /\ par t = r /\
    step_two r = Ok (k, q) /\ at_ t = Done (calc q') /\ same_pair q q'.
Proof.
  intros cx fconv base jprint jparse calc es rs es2 i r B J h G V N Hi R.
  assert (F : forall q, In q (params h) -> fine cx base key_two (matrix_two calc) q).
  { intros [[[[c same] f] d] s] Hq. destruct (V _ Hq) as (k & p & E & _ & _ & St). unfold fine, key_two, matrix_two. rewrite E. split; [exact St|].
    destruct (@two_plain _ _ _ _ _ _ _ E) as [P S]. split; [apply sorted_make; exact S|exact P]. }
  destruct (@C51_two_partial cx fconv base jprint jparse _ key_two (matrix_two calc) es rs es2 i r B J G F N Hi R) as (t & q & T & Pt & D & Hq & E).
  assert (Hr : In r (params h)) by (unfold h, params; rewrite map_app, concat_app; apply in_app_iff; right; apply in_app_iff; left; exact (nth_error_In _ _ Hi)).
  destruct (V r Hr) as (k & p & Er & Sr & Dr & _). destruct (V q Hq) as (k' & p' & Eq & Sq & Dq & _).
  exists t, k, p, p'. unfold key_two in E. unfold matrix_two in D. rewrite Eq in E, D. rewrite Er in E. subst k'.
  split; [exact T|]. split; [exact Pt|]. split; [exact Er|]. split; [exact D|].
  destruct r as [[[[c same] f] d] s], q as [[[[c' same'] f'] d'] s']. destruct Dr as (? & ? & ?), Dq as (? & ? & ?).
  exact (@two_same _ _ _ _ _ _ _ _ _ _ _ _ _ Er Eq Sr Sq ltac:(assumption) ltac:(assumption) ltac:(assumption) ltac:(assumption) ltac:(assumption) ltac:(assumption)).
Qed.

(** C105: atom 1 and atom 2 in the same state, in the same run, have the same key: the matrix is calculated once. *)
Theorem C105_shared : forall c f k p, one_step c First f = Ok (k, p) ->
  (forall a b, In (a, b) [("species1", "species2"); ("n1", "n2"); ("l1", "l2"); ("j1", "j2"); ("m1", "m2")] -> get c a = get c b) ->
  one_step c Second f = Ok (k, p).
Proof.
  intros c f k p H E. unfold one_step, names, names_single, rd_state, rd_int, rd_half, at_const in *.
  rewrite <- (E "species1" "species2"), <- (E "n1" "n2"), <- (E "l1" "l2"), <- (E "j1" "j2"), <- (E "m1" "m2") by (cbn; tauto). exact H.
Qed.

(** *** A concrete configuration *)
Definition demo_conf : conf := fold_left (fun c kv => write c (fst kv) (snd kv))
  [("species1", "Rb"); ("n1", "60"); ("l1", "0"); ("j1", "0.5"); ("m1", "0.5"); ("species2", "Cs"); ("n2", "61"); ("l2", "1"); ("j2", "1.5"); ("m2", "-1.5");
   ("deltaNSingle", "2"); ("deltaLSingle", "-1"); ("deltaJSingle", "1"); ("deltaMSingle", "1"); ("missingCalc", "true"); ("missingWhittaker", "false");
   ("deltaESingle", "30.5"); ("diamagnetism", "true"); ("deltaEPair", "3"); ("deltaNPair", "-1"); ("deltaLPair", "1"); ("deltaJPair", "1"); ("deltaMPair", "1"); ("exponent", "3")] [].
Definition demo_f (x : Q) : fields := Fields 0 0 x 0 0 (5 # 2).
Definition demo_problem (x : Q) : problem := Problem "Rb" [One 0 60 0 1 1] (Deltas 2 (-1) 1 1) Modelpotentials (305 * Qpower 10 (-1)) true (demo_f x).
Example C105_one_nonvacuous : exists k, one_step demo_conf First (demo_f (1000001 # 1)) = Ok (k, demo_problem (1000001 # 1)) /\
  one_step demo_conf First (demo_f (1000002 # 1)) = Ok (k, demo_problem (1000002 # 1)) /\ Forall small (p_start (demo_problem 0)) /\
  doubles (demo_f (1000001 # 1)) /\ doubles (demo_f (1000002 # 1)) /\ get k "Ez" = Some "1e+06" /\ get k "n2" = Some "" /\ get k "j1" = Some "0.5" /\
  one_step (write demo_conf "diamagnetism" "false") First (demo_f (1000001 # 1)) <> Ok (k, demo_problem (1000001 # 1)).
Proof.
  eexists. split; [vm_compute; reflexivity|]. split; [vm_compute; reflexivity|]. split; [repeat constructor; cbn; lia|].
  assert (D : forall m, (Z.abs m < 2 ^ 53)%Z -> KeySpec.is_double (m # 1)) by (intros m H; exists m, 0%Z; split; [unfold KeySpec.dbl; cbn; f_equal; lia|lia]).
  assert (D' : forall m, (Z.abs m < 2 ^ 53)%Z -> doubles (demo_f (m # 1))).
  { intros m H. unfold doubles, demo_f. cbn [f_Ex f_Ey f_Ez f_Bx f_By f_Bz]. repeat constructor; try (apply D; lia). exists 5%Z, (-1)%Z. split; [reflexivity|lia]. }
  split; [apply D'; lia|]. split; [apply D'; lia|]. repeat (split; [vm_compute; reflexivity|]). vm_compute. discriminate.
Qed.
Example C105_two_nonvacuous : exists k q, two_step demo_conf false (demo_f 1) (7 # 2) (Sym (Some (-1)%Z) None None (Some 1%Z)) = Ok (k, q) /\
  Forall small (p_start (q_one1 q) ++ p_start (q_one2 q)) /\ KeySpec.is_double (7 # 2) /\ sym_ints (Sym (Some (-1)%Z) None None (Some 1%Z)) /\
  get k "species2" = Some "Cs" /\ get k "m2" = Some "-1.5" /\ get k "R" = Some "3.5" /\ get k "inversion" = Some "-1" /\ get k "reflection" = Some "" /\
  get k "combined" = Some "0" /\ snd (q_initial q) = One 0 61 1 3 (-3).
Proof.
  do 2 eexists. split; [vm_compute; reflexivity|]. split; [repeat constructor; cbn; lia|]. split; [exists 7%Z, (-1)%Z; split; [reflexivity|lia]|].
  split; [intros x H; cbn in H; unfold is_int; repeat (destruct H as [H|H]; [try discriminate; injection H as <-; lia|]); destruct H|].
  repeat (split; [vm_compute; reflexivity|]). vm_compute. reflexivity.
Qed.
(** Requests of the histories in C105_cache_one_partial; histories as in C51_nonvacuous. *)
Example C105_cache_nonvacuous : forall w, w = First \/ w = Second -> valid_one false 4096 (fun _ => (demo_a, demo_a)) (demo_conf, w, demo_f 1).
Proof.
  assert (St : storable_matrix false 4096 (demo_a, demo_a)) by (apply (@demo_fine []); [exists []; reflexivity|intros k v []]).
  assert (D : doubles (demo_f 1)).
  { unfold doubles, demo_f. cbn [f_Ex f_Ey f_Ez f_Bx f_By f_Bz]. repeat constructor; try (exists 0%Z, 0%Z; split; [reflexivity|lia]); [exists 1%Z, 0%Z|exists 5%Z, (-1)%Z]; (split; [reflexivity|lia]). }
  intros w [-> | ->]; do 2 eexists; (split; [vm_compute; reflexivity|]); (split; [repeat constructor; cbn; lia|]); split; assumption.
Qed.
Print Assumptions C105_one. Print Assumptions C105_two. Print Assumptions C105_pair_atoms. Print Assumptions C105_cache_one_partial.
Print Assumptions C105_cache_two_partial. Print Assumptions C105_shared.
