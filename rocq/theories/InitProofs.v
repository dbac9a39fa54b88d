(** initializeBasis of SystemOne leaves a well-formed table, with and without reflection symmetry. *)
From Verif Require Import Base StateModel StateProofs Matrix LookupModel LookupProofs SystemModel RangeModel SystemProofs.
From Coq Require Import ZArith NArith Lia Bool String Ascii List.
Import ListNotations.
Set Implicit Arguments.
Local Open Scope Z_scope.

Section I.
Context {K : StarRing}.
Variables (hs : string -> N) (hi hf : Z -> N) (rt : K) (iu : option K).
Variable energy : string -> Z -> Z -> Z -> res K.
Variable sp : string.
Variable sref : parity.
Variable srot : option (list Z).
Variable rq : @request K state1.
Notation accK := (@acc K).

Definition aok (a : accK) : Prop := table_ok eq1 (a_tbl a).

Lemma aok_addBasis : forall st v (a : accK), aok a -> aok (addBasisvectors st v a).
Proof.
  intros st v a H. unfold addBasisvectors, aok. destruct (tfind eq1 (a_tbl a) st) eqn:E; auto.
  apply table_snoc; auto.
Qed.

Lemma aok_sym : forall st e sy (a : accK), aok a -> aok (fst (addSymmetrized hs hi hf rt iu st e sy a)).
Proof.
  intros st e sy a H.
  assert (G : forall v x ht i, aok (addBasisvectors x v (Acc (a_tbl a) i (a_bt a) ht))) by (intros; apply aok_addBasis; auto).
  unfold addSymmetrized. destruct sy; [apply G| |];
  (destruct (getM2 st); auto; destruct (_ <? 0); auto; destruct (_ =? 0); [apply G|];
   destruct iu; [|apply G]; destruct (getReflected hs hi hf st); try apply G;
   apply aok_addBasis; apply G).
Qed.

Lemma aok_loop : forall X (f : X -> accK -> accK * res unit) xs a,
  (forall x a, aok a -> aok (fst (f x a))) -> aok a -> aok (fst (loop f xs a)).
Proof.
  intros X f xs. induction xs as [|x xs IH]; intros a Hf H; simpl; auto.
  pose proof (Hf x a H) as H1. destruct (f x a) as [a1 [[]| |]]; auto.
Qed.

Lemma init1_table : forall tbl r, initBasis1 hs hi hf rt iu energy sp sref srot rq = (tbl, r) ->
  table_ok eq1 tbl /\ forall b h, r = Ok (b, h) -> nr b = List.length tbl /\ nr h = nc b /\ nc h = nc b.
Proof.
  intros tbl r E. unfold initBasis1 in E.
  destruct (is_nil (rg_n (rq_rg rq))). { injection E as <- <-. split; [apply table_nil|discriminate]. }
  destruct (spin2 sp) as [s2| |].
  2:{ injection E as <- <-. split; [apply table_nil|discriminate]. }
  2:{ injection E as <- <-. split; [apply table_nil|discriminate]. }
  assert (A1 : aok (fst (loop_n hs hi hf rt iu energy sp sref srot rq s2 (Acc [] 0 [] [])))).
  { apply aok_loop; [|apply table_nil]. intros nn a Ha.
    apply aok_loop; auto. intros ll a' Ha'. destruct (_ || _); auto.
    apply aok_loop; auto. intros jj a2 Ha2. destruct (_ || _); auto.
    destruct (energy sp nn ll jj); auto. destruct (enValid _ _); auto.
    apply aok_loop; auto. intros mm a3 Ha3. destruct (_ <? _); auto.
    destruct (mkOne hs hi hf sp nn ll jj mm); auto.
    destruct sref; [apply aok_sym; auto| |]; (destruct (_ && _); auto; apply aok_sym; auto). }
  destruct (loop_n hs hi hf rt iu energy sp sref srot rq s2 (Acc [] 0 [] [])) as [a r1]. simpl in A1.
  assert (A2 : aok (fst (match r1 with Ok _ => loop (check_added sp) (rq_add rq) a | _ => (a, r1) end))).
  { destruct r1 as [[]| |]; auto. apply aok_loop; auto. intros x a' Ha. unfold check_added.
    destruct (tfind _ _ _); auto. destruct (_ && _); auto. }
  set (step2 := match r1 with Ok _ => loop (check_added sp) (rq_add rq) a | _ => (a, r1) end) in *.
  assert (A3 : aok (fst (match step2 with (a, Ok _) => loop (add_one hs hi hf rt iu energy sref srot rq) (rq_add rq) a | r => r end))).
  { destruct step2 as [a2 [[]| |]]; auto. apply aok_loop; auto. intros x a' Ha. unfold add_one.
    match goal with |- context [match ?e with Ok _ => _ | _ => _ end] => destruct e; auto end.
    match goal with |- context [if ?b then (a', Ok tt) else _] => destruct b; auto end.
    destruct (if isArtificial x then NA else sref); [apply aok_sym; auto| |];
    (destruct (negb _); [|apply aok_sym; auto]; destruct (getReflected _ _ _ _); auto;
     destruct (existsb _ _); auto; apply aok_sym; auto). }
  cbv zeta in E.
  destruct (match step2 with (a, Ok _) => loop (add_one hs hi hf rt iu energy sref srot rq) (rq_add rq) a | r => r end) as [a3 [[]| |]];
    injection E as <- <-; (split; [exact A3|]); try discriminate.
  intros b h Ebh. injection Ebh as <- <-. auto.
Qed.

End I.

(** The derived class SystemOne: symmetries are part of the parameters. *)
Definition init_one {K : StarRing} hs hi hf (rt : K) iu energy sp {P : Type}
  (sref : P -> parity) (srot : P -> option (list Z)) (p : P) (rq : @request K state1) :=
  initBasis1 hs hi hf rt iu energy sp (sref p) (srot p) rq.

Lemma init_one_ok : forall (K : StarRing) hs hi hf (rt : K) iu energy sp (P : Type) (sref : P -> parity) srot,
  init_ok eq1 (init_one hs hi hf rt iu energy sp sref srot).
Proof.
  intros K hs hi hf rt iu energy sp P sref srot p rq tbl b h E.
  unfold init_one in E. destruct (@init1_table _ _ _ _ _ _ _ _ _ _ _ _ _ E) as [A B]. split; auto.
Qed.
