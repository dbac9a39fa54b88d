(** Reading and writing Hamiltonian entries. *)
From Verif Require Import Base Matrix LookupModel SystemModel SystemInv HamProofs.
From Coq Require Import ZArith Lia Bool Arith Setoid Morphisms List.
Import ListNotations.
Set Implicit Arguments.

Section E.
Context {K : StarRing} {State Param Key : Type}.
Variable seqb : State -> State -> bool.
Variable sgen : State -> bool.
Variable keqb : Key -> Key -> bool.
Variable qvalid : ranges -> State -> bool.
Variable v_init : Param -> @request K State -> list (nat * State) * res (mat K * mat K).
Variable v_keys : Param -> list (Key * K).
Variable v_op : Key -> State -> State -> K.
Notation sysT := (@sys K State Param Key).
Notation XbuildHam := (buildHamiltonian seqb keqb qvalid v_init v_keys v_op).
Notation Xget := (getHamiltonianEntry seqb sgen keqb qvalid v_init v_keys v_op).
Notation Xset := (setHamiltonianEntry seqb sgen keqb qvalid v_init v_keys v_op).
Notation Xadd := (addHamiltonianEntry seqb sgen keqb qvalid v_init v_keys v_op).
Notation idx := (stateIndex seqb sgen).
Local Open Scope mat_scope.
Add Ring Ker : (s_ring K).

(** <i|H|j>: the Hamiltonian between the i-th and the j-th state. *)
Definition entry (s : sysT) (i j : nat) : K := at_ (lift (bv s) (ham s)) i j.
(** Hamiltonian up to date. *)
Definition ready (s : sysT) : Prop := settled s /\ required s = false.
(** The basis vectors are a complete orthonormal system of the space of states. *)
Definition complete (s : sysT) : Prop :=
  nr (bv s) = length (states s) /\ nr (ham s) = nc (bv s) /\ nc (ham s) = nc (bv s) /\
  bv s * (bv s)^+ == mid (length (states s)).

Lemma ready_build : forall s, ready s -> XbuildHam s = (s, Ok tt).
Proof.
  intros s [S R]. unfold buildHamiltonian, andThen. rewrite (@settled_build K State Param Key seqb qvalid v_init s S). rewrite R. reflexivity.
Qed.

Lemma ham_entry_eq : forall (B H : mat K) i j, nc H = nc B -> nr H = nc B -> ham_entry B H i j = sconj (at_ (lift B H) i j).
Proof.
  intros B H i j C R. unfold ham_entry, lift. cbn [at_ mmul madj nc nr]. rewrite R, C, !Nat.min_id.
  rewrite bsum_conj. apply bsum_ext. intros k Hk. rewrite s_conj_mul, s_conj_conj. f_equal.
Qed.

Lemma get_entry : forall s a b i j, ready s -> nc (ham s) = nc (bv s) -> nr (ham s) = nc (bv s) ->
  idx (states s) a = Ok i -> idx (states s) b = Ok j -> Xget a b s = (s, Ok (sconj (entry s i j))).
Proof.
  intros s a b i j R C1 C2 Ha Hb. unfold getHamiltonianEntry. rewrite ready_build by auto. rewrite Ha. cbn [bind]. rewrite Hb. cbn [bind].
  rewrite ham_entry_eq by auto. reflexivity.
Qed.

Lemma tmp_at : forall n i j v p q, at_ (@entry_tmp K n i j v) p q =
  sadd (if Nat.eqb i p && Nat.eqb j q then v else s0) (if Nat.eqb i j then s0 else if Nat.eqb j p && Nat.eqb i q then sconj v else s0).
Proof.
  intros. unfold entry_tmp. cbn [mtrip at_ tsum]. destruct (Nat.eqb i j); cbn [tsum]; ring.
Qed.

Lemma bump_entry : forall s i j v p q, complete s -> p < length (states s) -> q < length (states s) ->
  entry (bump i j v s) p q = sadd (entry s p q) (at_ (entry_tmp (length (states s)) i j v) p q).
Proof.
  intros s i j v p q (R & R1 & C1 & P) Hp Hq. unfold entry, bump. cbn [bv ham set_mats].
  set (T := entry_tmp (length (states s)) i j v).
  assert (X : lift (bv s) (ham s + mconj (bv s) T) == lift (bv s) (ham s) + T).
  { rewrite lift_add by (cbn; congruence). rewrite lift_mconj, P.
    rewrite mmul_id_l by reflexivity. rewrite mmul_id_r by reflexivity. reflexivity. }
  destruct X as (X1 & X2 & X3). rewrite X3; [reflexivity| |]; cbn; lia.
Qed.

Lemma bump_complete : forall s i j v, complete s -> complete (bump i j v s).
Proof.
  intros s i j v (R & R1 & C1 & P). unfold complete, bump. cbn [bv ham set_mats states]. split; auto. split; [cbn; rewrite R1; apply Nat.min_id|].
  split; auto. cbn. rewrite C1. apply Nat.min_id.
Qed.

Lemma bump_ready : forall s i j v, complete s -> ready s -> ready (bump i j v s).
Proof.
  intros s i j v (R & R1 & C1 & P) [S Q]. split; [|exact Q].
  destruct S as (A & B & C & D). split; [exact A|]. split; [|split; [exact C|exact D]].
  unfold msize in *. cbn [ham bump set_mats madd nr nc]. cbn. rewrite R1, C1, !Nat.min_id in *. auto.
Qed.

Lemma tmp_herm : forall n i j v, (i = j -> sconj v = v) -> hermitian (@entry_tmp K n i j v).
Proof.
  intros n i j v H. split; [reflexivity|]. split; [reflexivity|]. intros p q Hp Hq. cbn [madj at_]. rewrite !tmp_at.
  destruct (Nat.eqb i j) eqn:E.
  - apply Nat.eqb_eq in E. subst j. rewrite (andb_comm (Nat.eqb i q)). destruct (Nat.eqb i p && Nat.eqb i q).
    + rewrite s_conj_add, H, sconj_0 by auto. ring. + rewrite s_conj_add, sconj_0. ring.
  - rewrite s_conj_add. rewrite (andb_comm (Nat.eqb i q)), (andb_comm (Nat.eqb j q)).
    destruct (Nat.eqb j p && Nat.eqb i q), (Nat.eqb i p && Nat.eqb j q); rewrite ?s_conj_conj, ?sconj_0; ring.
Qed.

Lemma bump_herm : forall (s : sysT) i j v, hermitian (ham s) -> (i = j -> sconj v = v) -> hermitian (ham (bump i j v s)).
Proof. intros s i j v H Hv. cbn [bump ham set_mats]. apply madd_hermitian; auto. apply mconj_hermitian. apply tmp_herm; auto. Qed.

Lemma lift_herm : forall B H : mat K, hermitian H -> hermitian (lift B H).
Proof.
  intros B H E. unfold hermitian, lift in *. rewrite !madj_mul, madj_adj, E, mmul_assoc. reflexivity.
Qed.

Lemma entry_conj : forall (s : sysT) i j, complete s -> hermitian (ham s) -> i < length (states s) -> j < length (states s) ->
  entry s j i = sconj (entry s i j).
Proof.
  intros s i j (R & _) H Hi Hj. destruct (lift_herm (bv s) H) as (_ & _ & X). unfold entry. rewrite <- X; [reflexivity| |]; cbn; lia.
Qed.
End E.
