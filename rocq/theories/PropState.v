(** Properties C01 - C07: states and symmetries. *)
From Verif Require Import Base StateModel StateProofs LookupModel LookupProofs.
From Coq Require Import ZArith NArith Bool Lia String Ascii List.
Local Open Scope Z_scope.
Set Implicit Arguments.
Local Open Scope string_scope.
Local Open Scope list_scope.
Local Open Scope Z_scope.

(** *** C01 *)
(** Two one-atom (two-atom) states are the same iff species and all quantum numbers agree:
    specification [same1] / [same2] (StateProofs.v). *)
Theorem C01_one_atom_order :
  (forall a, lt1 a a = false) /\
  (forall a b c, lt1 a b = true -> lt1 b c = true -> lt1 a c = true) /\
  (forall a b,
     (lt1 a b = true /\ eq1 a b = false /\ lt1 b a = false) \/
     (lt1 a b = false /\ eq1 a b = true /\ lt1 b a = false) \/
     (lt1 a b = false /\ eq1 a b = false /\ lt1 b a = true)) /\
  (forall a b, neq1 a b = negb (eq1 a b)) /\
  (forall a b, le1 a b = lt1 a b || eq1 a b) /\
  (forall a b, eq1 a b = true <->
     species a = species b /\ n a = n b /\ l a = l b /\ j2 a = j2 b /\ m2 a = m2 b).
Proof. exact (conj lt1_irrefl (conj lt1_trans (conj lt1_trichotomy (conj neq1_negb
  (conj (fun _ _ => eq_refl) eq1_iff))))). Qed.
Print Assumptions C01_one_atom_order.

Theorem C01_two_atom_order :
  (forall a, lt2 a a = false) /\
  (forall a b c, lt2 a b = true -> lt2 b c = true -> lt2 a c = true) /\
  (forall a b,
     (lt2 a b = true /\ eq2 a b = false /\ lt2 b a = false) \/
     (lt2 a b = false /\ eq2 a b = true /\ lt2 b a = false) \/
     (lt2 a b = false /\ eq2 a b = false /\ lt2 b a = true)) /\
  (forall a b, neq2 a b = negb (eq2 a b)) /\
  (forall a b, le2 a b = lt2 a b || eq2 a b) /\
  (forall a b, eq2 a b = true <-> same1 (fst1 a) (fst1 b) /\ same1 (snd1 a) (snd1 b)).
Proof. exact (conj lt2_irrefl (conj lt2_trans (conj lt2_trichotomy (conj neq2_negb
  (conj (fun _ _ => eq_refl) eq2_iff))))). Qed.
Print Assumptions C01_two_atom_order.

Example C01_nonvacuous :
  exists a b, mkOne (fun _ => 0%N) (fun _ => 0%N) (fun _ => 0%N) "Rb" 60 0 1 1 = Ok a /\
              mkOne (fun _ => 0%N) (fun _ => 0%N) (fun _ => 0%N) "Rb" 60 1 1 1 = Ok b /\
              lt1 a b = true /\ lt1 b a = false.
Proof. do 2 eexists. repeat split. Qed.

(** *** C02: for every choice of std::hash on strings, ints and floats, states built
    with the public constructors that compare equal have equal hashes. *)
Theorem C02_one_atom_hash : forall hs hi hf a b,
  built1 hs hi hf a -> built1 hs hi hf b -> eq1 a b = true -> hashv a = hashv b.
Proof.
  exact (fun hs hi hf a b Ha Hb E =>
    f_equal hashv (built1_eq_full Ha Hb (proj1 (eq1_iff a b) E))).
Qed.
Print Assumptions C02_one_atom_hash.

Theorem C02_two_atom_hash : forall hs hi hf a b,
  built2 hs hi hf a -> built2 hs hi hf b -> eq2 a b = true -> hashv2 a = hashv2 b.
Proof.
  exact (fun hs hi hf a b Ha Hb E =>
    f_equal hashv2 (built2_eq_full Ha Hb (proj1 (eq2_iff a b) E))).
Qed.
Print Assumptions C02_two_atom_hash.

Example C02_nonvacuous :
  let h := fun z => Z.to_N (z * z + 3) in
  exists a b, built2 (fun s => N.of_nat (String.length s)) h h a /\
              built2 (fun s => N.of_nat (String.length s)) h h b /\ eq2 a b = true /\ hashv2 a <> 0%N.
Proof.
  cbn. eexists. eexists. split; [|split; [|split]].
  - eapply (@b2_num _ _ _ "Rb" "Cs" 60 61 0 1 1 1 1 (-1)). vm_compute. reflexivity.
  - eapply b2_pair.
    + left. exists "Rb", 60, 0, 1, 1. vm_compute. reflexivity.
    + left. exists "Cs", 61, 1, 1, (-1). vm_compute. reflexivity.
  - vm_compute. reflexivity.
  - vm_compute. discriminate.
Qed.

(** *** C03 *)
Theorem C03_one_atom_reflection : forall hs hi hf s,
  built1 hs hi hf s ->
  (n s = 0 -> getReflected hs hi hf s = Throw) /\
  (n s <> 0 -> exists r, getReflected hs hi hf s = Ok r /\
     species r = species s /\ element r = element s /\ n r = n s /\ l r = l s /\ j2 r = j2 s /\
     m2 r = - m2 s /\ s2 r = s2 s /\
     exists t, getReflected hs hi hf r = Ok t /\ eq1 t s = true /\ hashv t = hashv s).
Proof. exact getReflected_full. Qed.
Print Assumptions C03_one_atom_reflection.

Theorem C03_two_atom_reflection : forall hs hi hf s,
  built2 hs hi hf s ->
  (n (fst1 s) = 0 \/ n (snd1 s) = 0 -> getReflected2 hs hi hf s = Throw) /\
  (n (fst1 s) <> 0 -> n (snd1 s) <> 0 -> exists r, getReflected2 hs hi hf s = Ok r /\
     getReflected hs hi hf (fst1 s) = Ok (fst1 r) /\
     getReflected hs hi hf (snd1 s) = Ok (snd1 r) /\
     exists t, getReflected2 hs hi hf r = Ok t /\ eq2 t s = true /\ hashv2 t = hashv2 s).
Proof. exact getReflected2_full. Qed.
Print Assumptions C03_two_atom_reflection.

Example C03_nonvacuous :
  let h := fun z => Z.to_N (z * z + 3) in
  exists s, built1 (fun s => N.of_nat (String.length s)) h h s /\ n s <> 0 /\ m2 s <> 0.
Proof.
  cbn. eexists. split; [|split].
  - left. exists "Sr3", 40, 2, 6, (-4). vm_compute. reflexivity.
  - vm_compute. discriminate.
  - vm_compute. discriminate.
Qed.

(** *** C04 *)
Theorem C04_match_iff : forall a g, match1 a g = true <->
  species a = species g /\ (n g <> ARB -> n a = n g) /\ (l g <> ARB -> l a = l g) /\
  (j2 g <> ARB2 -> j2 a = j2 g) /\ (m2 g <> ARB2 -> m2 a = m2 g).
Proof. exact match1_iff. Qed.
Print Assumptions C04_match_iff.

Theorem C04_match_two_iff : forall a g,
  match2 a g = true <-> match1 (fst1 a) (fst1 g) = true /\ match1 (snd1 a) (snd1 g) = true.
Proof. exact match2_iff. Qed.
Print Assumptions C04_match_two_iff.

Theorem C04_match_exact : forall a g,
  n g <> ARB -> l g <> ARB -> j2 g <> ARB2 -> m2 g <> ARB2 -> match1 a g = eq1 a g.
Proof. exact match1_exact'. Qed.
Print Assumptions C04_match_exact.

(** Replacing any quantum numbers of the pattern with ARB never removes matches. *)
Theorem C04_match_monotone : forall a g g',
  species g' = species g ->
  (n g' = n g \/ n g' = ARB) -> (l g' = l g \/ l g' = ARB) ->
  (j2 g' = j2 g \/ j2 g' = ARB2) -> (m2 g' = m2 g \/ m2 g' = ARB2) ->
  match1 a g = true -> match1 a g' = true.
Proof. exact match1_mono. Qed.
Print Assumptions C04_match_monotone.

Example C04_nonvacuous :
  let a := St1 "Rb" "Rb" 60 1 3 1 1 0 in
  let g := St1 "Rb" "Rb" 60 1 ARB2 ARB2 1 0 in
  let g' := St1 "Rb" "Rb" 60 0 ARB2 ARB2 1 0 in
  match1 a g = true /\ eq1 a g = false /\ match1 a g' = false.
Proof. repeat split. Qed.

(** *** C05 *)
Theorem C05_label_state : forall hs lab, exists s, mkLabel hs lab = Ok s /\
  getLabel s = Ok lab /\ getN s = Throw /\ getL s = Throw /\ getJ2 s = Throw /\
  getM2 s = Throw /\ getS2 s = Throw /\ getSpecies s = Throw /\ getElement s = Throw.
Proof. exact label_state. Qed.
Print Assumptions C05_label_state.

(** The spin and the element follow from the species: trailing digit d means spin (d-1)/2. *)
Theorem C05_number_state : forall hs hi hf sp n0 l0 j0 m0, sp <> EmptyString ->
  (n0 = 0 -> mkOne hs hi hf sp n0 l0 j0 m0 = Throw) /\
  (n0 <> 0 -> exists s, mkOne hs hi hf sp n0 l0 j0 m0 = Ok s /\
     getSpecies s = Ok sp /\ getN s = Ok n0 /\ getL s = Ok l0 /\ getJ2 s = Ok j0 /\
     getM2 s = Ok m0 /\ getLabel s = Throw /\
     exists el sp2, getElement s = Ok el /\ getS2 s = Ok sp2 /\
       ((exists d, (d <= 9)%N /\ sp = (el ++ String (ascii_of_N (48 + d)) EmptyString)%string
                   /\ sp2 = Z.of_N d - 1) \/
        (el = sp /\ sp2 = 1 /\
         forall pre c, sp = (pre ++ String c EmptyString)%string ->
           (N_of_ascii c < 48 \/ 57 < N_of_ascii c)%N))).
Proof. exact number_state. Qed.
Print Assumptions C05_number_state.

(** An empty species name is undefined behaviour (std::string::back on an empty string). *)
Theorem C85_species_refuted : forall hs hi hf,
  exists n0 l0 j0 m0, mkOne hs hi hf EmptyString n0 l0 j0 m0 = UB.
Proof. exact (fun hs hi hf => ex_intro _ 60 (ex_intro _ 0 (ex_intro _ 1 (ex_intro _ 1 eq_refl)))). Qed.
Print Assumptions C85_species_refuted.

Example C05_nonvacuous : exists s, mkOne (fun _ => 0%N) (fun _ => 0%N) (fun _ => 0%N) "Sr3" 50 1 4 (-2) = Ok s
  /\ getElement s = Ok "Sr" /\ getS2 s = Ok 2.
Proof. eexists. repeat split. Qed.

(** *** C06 *)
(** One-atom patterns: the rows used by getOverlap are exactly the stored states matching the pattern. *)
Theorem C06_one_atom_pattern : forall tbl g, uniq eq1 tbl -> forall i,
  In i (rows_one tbl [g]) <-> exists s, In (i, s) tbl /\ match1 s g = true.
Proof. exact rows_one_spec. Qed.
Print Assumptions C06_one_atom_pattern.

(** Pair patterns in which both atoms or no atom carries a wildcard.  Missing: a wildcard on one
    atom only, for which the claim is false ([C06_pair_pattern_refuted]). *)
Theorem C06_pair_pattern_partial : forall tbl g, uniq eq2 tbl ->
  isGeneralized (fst1 g) = isGeneralized (snd1 g) -> forall i,
  In i (rows_two tbl [g]) <-> exists s, In (i, s) tbl /\ match2 s g = true.
Proof. exact rows_two_spec. Qed.
Print Assumptions C06_pair_pattern_partial.

Theorem C06_pair_pattern_refuted :
  ~ (forall tbl g, uniq eq2 tbl -> forall i s, In (i, s) tbl -> match2 s g = true ->
       In i (rows_two tbl [g])).
Proof. exact pair_pattern_refuted. Qed.
Print Assumptions C06_pair_pattern_refuted.

(** getStateIndex: the index of the stored equal state, an exception if there is none. *)
Theorem C06_state_index_one : forall tbl g, uniq eq1 tbl -> isGeneralized g = false ->
  (forall i, index_one tbl g = Ok i <-> exists s, In (i, s) tbl /\ same1 s g) /\
  ((forall i s, In (i, s) tbl -> ~ same1 s g) -> index_one tbl g = Throw).
Proof. exact index_one_spec. Qed.
Print Assumptions C06_state_index_one.

Theorem C06_state_index_two : forall tbl g, uniq eq2 tbl ->
  isGeneralized (fst1 g) = false \/ isGeneralized (snd1 g) = false ->
  (forall i, index_two tbl g = Ok i <-> exists s, In (i, s) tbl /\ same2 s g) /\
  ((forall i s, In (i, s) tbl -> ~ same2 s g) -> index_two tbl g = Throw).
Proof. exact index_two_spec. Qed.
Print Assumptions C06_state_index_two.

Example C06_nonvacuous :
  let a := St1 "Rb" "Rb" 60 1 3 1 1 0 in let b := St1 "Rb" "Rb" 61 1 3 1 1 0 in
  let g := St1 "Rb" "Rb" ARB 1 3 1 1 0 in
  uniq eq1 [(0%nat, a); (1%nat, b)] /\ rows_one [(0%nat, a); (1%nat, b)] [g] = [0%nat; 1%nat].
Proof. cbn. split; [|reflexivity]. apply uniq_of_nodup; vm_compute; reflexivity. Qed.

(** *** C07 *)
Theorem C07_symmetry_order :
  (forall a, sym_lt a a = false) /\
  (forall a b c, sym_lt a b = true -> sym_lt b c = true -> sym_lt a c = true) /\
  (forall a b, sym_lt a b = true \/ a = b \/ sym_lt b a = true).
Proof. exact (conj sym_lt_irrefl (conj sym_lt_trans sym_lt_total)). Qed.
Print Assumptions C07_symmetry_order.

Example C07_nonvacuous : sym_lt (Sym 1 (-1) 2 0) (Sym 1 0 0 0) = true.
Proof. reflexivity. Qed.
