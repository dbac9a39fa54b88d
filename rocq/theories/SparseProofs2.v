(** A truncated matrix file is rejected. *)
From Verif Require Import Base SerModel SerProofs SparseModel SparseProofs.
From Coq Require Import ZArith Lia Bool List.
Import ListNotations.
Set Implicit Arguments.
Local Open Scope Z_scope.

Section T.
Variable cx : bool.
Variable fconv : ty -> ty -> list Z -> list Z.
Variable base : Z.
Hypothesis B : 0 <= base.

Lemma firstn_cut : forall (pre a b : list Z) k, (length a <= k)%nat -> pre ++ firstn k (a ++ b) = pre ++ a ++ firstn (k - length a) b.
Proof. intros. rewrite firstn_app, (firstn_all2 (n := k) a) by lia. reflexivity. Qed.

Lemma read_raw_cut : forall m e pre k, compressed m -> fits cx m -> save (ser_one cx m) = Ok e -> (k < length e)%nat ->
  base + Z.of_nat (length (pre ++ firstn k e)) < 2 ^ 63 ->
  read_raw fconv base (pre ++ firstn k e) (length pre) = Throw.
Proof.
  intros m e pre k C F S Hk L. destruct (parts_wf C F) as (W1 & W2 & W3).
  destruct (save_wf W1) as [e1 E1]. destruct (save_wf W2) as [e2 E2]. destruct (save_wf W3) as [e3 E3].
  pose proof (save_app _ _ E1 (save_app _ _ E2 E3)) as S'. change (part1 cx m ++ part2 cx m ++ part3 m) with (ser_one cx m) in S'.
  rewrite S in S'. injection S' as ->. rewrite !app_length in Hk.
  unfold read_raw. change [SScalar U8; SScalar I32; SScalar I32; SVector F64] with (map slot_of (part1 cx m)).
  destruct (Nat.lt_ge_cases k (length e1)) as [H1|H1].
  { rewrite firstn_app in *. replace (k - length e1)%nat with 0%nat in * by lia. cbn [firstn] in *. rewrite app_nil_r in *.
    rewrite (@truncated fconv base (part1 cx m) e1 pre k W1 E1 H1 B L). reflexivity. }
  rewrite firstn_cut in * by auto.
  rewrite (@roundtrip fconv base (part1 cx m) e1 pre _ W1 E1 B L). unfold part1 at 1.
  assert (Fc : flag_cx [if cx then 2 else 0] = cx) by (destruct cx; reflexivity). rewrite Fc.
  replace (if cx then [SVector F64] else []) with (map slot_of (part2 cx m)) by (unfold part2; destruct cx; reflexivity).
  replace (length pre + length e1)%nat with (length (pre ++ e1)) by (rewrite app_length; lia).
  rewrite app_assoc in *.
  destruct (Nat.lt_ge_cases (k - length e1) (length e2)) as [H2|H2].
  { rewrite (firstn_app (k - length e1)) in *. replace (k - length e1 - length e2)%nat with 0%nat in * by lia. cbn [firstn] in *. rewrite app_nil_r in *.
    rewrite (@truncated fconv base (part2 cx m) e2 (pre ++ e1) _ W2 E2 H2 B L). reflexivity. }
  rewrite firstn_cut in * by auto.
  rewrite (@roundtrip fconv base (part2 cx m) e2 (pre ++ e1) _ W2 E2 B L).
  replace (length (pre ++ e1) + length e2)%nat with (length ((pre ++ e1) ++ e2)) by (rewrite !app_length; lia).
  rewrite app_assoc in *.
  set (l3 := map (fun i => (i, U32)) (part3 m)).
  change [SVector U32; SVector U32] with (map (fun p : item * ty => slot_as (snd p) (fst p)) l3).
  assert (M3 : map fst l3 = part3 m) by (unfold l3; rewrite map_map; apply map_id).
  rewrite (@truncated_as fconv base l3 e3) by (rewrite ?M3; auto; lia). reflexivity.
Qed.

Lemma deser_cut : forall a b e k, compressed a -> compressed b -> fits cx a -> fits cx b -> save (ser cx (a, b)) = Ok e ->
  base + Z.of_nat (length e) < 2 ^ 63 -> (k < length e)%nat -> deser cx fconv base (firstn k e) = Throw.
Proof.
  intros a b e k Ca Cb Fa Fb S L Hk. unfold deser.
  assert (Wa : exists ea, save (ser_one cx a) = Ok ea). { apply save_wf. destruct (parts_wf Ca Fa) as (? & ? & ?). unfold ser_one. apply Forall_app; split; [assumption|]. apply Forall_app; split; assumption. }
  assert (Wb : exists eb, save (ser_one cx b) = Ok eb). { apply save_wf. destruct (parts_wf Cb Fb) as (? & ? & ?). unfold ser_one. apply Forall_app; split; [assumption|]. apply Forall_app; split; assumption. }
  destruct Wa as [ea Ea], Wb as [eb Eb]. unfold ser in S. cbn [fst snd] in S. rewrite (save_app _ _ Ea Eb) in S. injection S as <-.
  rewrite app_length in *.
  destruct (Nat.lt_ge_cases k (length ea)) as [H1|H1].
  { rewrite firstn_app. replace (k - length ea)%nat with 0%nat by lia. cbn [firstn]. rewrite app_nil_r.
    pose proof (@read_raw_cut a ea [] k Ca Fa Ea H1) as X. cbn [app length] in X. rewrite X; auto. rewrite firstn_length. lia. }
  pose proof (@firstn_cut [] ea eb k H1) as Q. cbn [app] in Q. rewrite Q.
  pose proof (@read_raw_ok cx fconv base a ea [] (firstn (k - length ea) eb) Ca Fa Ea B) as X. cbn [app length Nat.add] in X.
  rewrite X. 2:{ rewrite app_length, firstn_length. lia. }
  rewrite (@read_raw_cut b eb ea) ; auto. { lia. } rewrite app_length, firstn_length. lia.
Qed.
End T.
