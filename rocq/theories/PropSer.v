(** C48, C49, C50: the binary format.

    [save items] is what Serializer::save produces for values written with operator<<, [reads base bytes slots pos] reads
    variables of the given types with operator>> from the string [bytes] that lies at address [base].  A value is its
    memory image.  [wf]: images have the size of their type, vectors have fewer than 2^31 elements. *)
From Verif Require Import Base SerModel SerProofs SparseModel SparseProofs SparseProofs2.
From Coq Require Import ZArith Lia Bool Arith List.
Import ListNotations.
Set Implicit Arguments.
Local Open Scope Z_scope.

(** *** C48 *)

(** Whatever is written is read back; the reader stops exactly behind it.  [pre] and [post] are other bytes of the string. *)
Theorem C48_roundtrip : forall fconv base items e pre post,
  Forall wf items -> save items = Ok e -> 0 <= base -> base + Z.of_nat (length (pre ++ e ++ post)) < 2 ^ 63 ->
  reads fconv base (pre ++ e ++ post) (map slot_of items) (length pre) = Ok (items, (length pre + length e)%nat).
Proof. intros. apply roundtrip; auto. Qed.

(** Such values can always be written. *)
Theorem C48_writes : forall items, Forall wf items -> exists e, save items = Ok e.
Proof. apply save_wf. Qed.

(** Every proper prefix is rejected. *)
Theorem C48_truncated : forall fconv base items e pre k,
  Forall wf items -> save items = Ok e -> (k < length e)%nat -> 0 <= base ->
  base + Z.of_nat (length (pre ++ firstn k e)) < 2 ^ 63 ->
  reads fconv base (pre ++ firstn k e) (map slot_of items) (length pre) = Throw.
Proof. intros. eapply truncated; eauto. Qed.

(** A vector of 2^32 elements is silently written as an empty one: the length is kept in 32 bits. *)
Theorem C86_archive_refuted : forall fconv base t imgs e,
  Forall (fun i => length i = ty_size t) imgs -> Z.of_nat (length imgs) = 2 ^ 32 -> 0 <= base -> base < 2 ^ 62 ->
  save [Vector t imgs] = Ok e ->
  reads fconv base e [SVector t] 0 = Ok ([Vector t []], length e).
Proof.
  intros fconv base t imgs e F N B Bb S.
  assert (N0 : num32 (length imgs) = 0) by (unfold num32; rewrite N; reflexivity).
  assert (E : save [Vector t imgs] = save [Vector t []]).
  { unfold save, enc. unfold nbytes. rewrite N0. change (num32 (length (@nil (list Z)))) with 0. cbn [Z.mul]. change (0 mod W64) with 0.
    destruct (Z.ltb_spec (Z.of_nat (length (concat imgs))) 0); [lia|]. cbn [concat length]. change (Z.of_nat 0 <? 0) with false. change (Z.to_nat 0) with 0%nat. reflexivity. }
  rewrite E in S. assert (W : Forall wf [Vector t []]) by (repeat constructor).
  pose proof (@roundtrip fconv base [Vector t []] e [] [] W S B) as R. rewrite app_nil_r in R. cbn [app length map slot_of] in R.
  rewrite Nat.add_0_l in R. apply R.
  rewrite (enc_wf _ (Forall_inv W)) in S || idtac. cbn [save] in S. rewrite (enc_wf (Vector t []) (Forall_inv W)) in S. injection S as <-. cbn. lia.
Qed.

(** With 2^31 to 2^32 - 1 elements the length is negative: more bytes are copied than the vector has. *)
Theorem C86_archive_half_refuted : forall t imgs, Forall (fun i => length i = ty_size t) imgs -> 2 ^ 31 <= Z.of_nat (length imgs) < 2 ^ 32 ->
  save [Vector t imgs] = UB.
Proof.
  intros t imgs F N. assert (L : forall l : list (list Z), Forall (fun i => length i = ty_size t) l -> Z.of_nat (length (concat l)) = Z.of_nat (length l) * Z.of_nat (ty_size t)).
  { induction 1 as [|i l Hi _ IH]; [reflexivity|]. cbn [concat length]. rewrite app_length, Nat2Z.inj_add, IH, Hi. lia. }
  assert (E : nbytes (length imgs) t = (Z.of_nat (length imgs) - 2 ^ 32) * Z.of_nat (ty_size t) + 2 ^ 64).
  { unfold nbytes, num32. rewrite (Z.mod_small (Z.of_nat _) (2 ^ 32)) by lia. destruct (Z.leb_spec (2 ^ 31) (Z.of_nat (length imgs))); [|lia]. cbv zeta.
    symmetry. apply (Z.mod_unique_pos _ _ (-1)); unfold W64; [|lia]. destruct t; cbn [ty_size]; lia. }
  unfold save, enc. rewrite E, (L imgs F). destruct (Z.ltb_spec (Z.of_nat (length imgs) * Z.of_nat (ty_size t)) ((Z.of_nat (length imgs) - 2 ^ 32) * Z.of_nat (ty_size t) + 2 ^ 64)); [reflexivity|].
  destruct t; cbn [ty_size] in *; lia.
Qed.
(** To a vector variable that already has elements the saved ones are appended. *)
Theorem C48_appends : forall fconv base t imgs e pre post old,
  wf (Vector t imgs) -> save [Vector t imgs] = Ok e -> 0 <= base -> base + Z.of_nat (length (pre ++ e ++ post)) < 2 ^ 63 ->
  read_vector fconv base (pre ++ e ++ post) t old (length pre) = Ok (old ++ imgs, (length pre + length e)%nat).
Proof.
  intros fconv base t imgs e pre post old W S B L.
  assert (R := @roundtrip fconv base [Vector t imgs] e pre post (Forall_cons _ W (Forall_nil _)) S B L). cbn [map slot_of reads] in R. unfold read_vector in *.
  destruct (read_scalar _ _ _ _ _) as [[len pos1]| |]; [|discriminate R|discriminate R]. destruct (read_elems _ _ _ _ _ _) as [[new pos2]| |]; [|discriminate R|discriminate R].
  cbn [app] in R. injection R as -> ->. reflexivity.
Qed.
Example C48_appends_nonvacuous : read_vector (fun _ _ x => x) 4096 (match save [Vector I32 [le 4 3]] with Ok e => e | _ => [] end) I32 [le 4 8] 0 = Ok ([le 4 8; le 4 3], 12%nat).
Proof. vm_compute. reflexivity. Qed.

Example C48_nonvacuous :
  let items := [Scalar I32 (le 4 (-7)); Vector F64 [le 8 1; le 8 2]; Vector BO []; Scalar CH [65]] in
  Forall wf items /\ exists e, save items = Ok e /\ length e = 41%nat /\
  reads (fun _ _ x => x) 4096 e (map slot_of items) 0 = Ok (items, 41%nat).
Proof.
  cbv zeta. split. { repeat constructor. } eexists. split; [vm_compute; reflexivity|]. split; [reflexivity|]. vm_compute. reflexivity.
Qed.

(** *** C49 *)

(** Reading any byte string, into any variables, from any position: an exception, or every byte that was looked at
    belongs to the string ([UB] is an access outside). *)
Theorem C49_safe : forall fconv base bytes slots pos,
  0 <= base -> base + Z.of_nat (length bytes) < 2 ^ 63 -> (pos <= length bytes)%nat ->
  reads fconv base bytes slots pos = Throw \/
  exists items p, reads fconv base bytes slots pos = Ok (items, p) /\ (p <= length bytes)%nat.
Proof. intros. apply reads_safe; auto. Qed.

(** Also for a length that is negative as a stored number: the string passes the length check but is rejected. *)
Example C49_negative_length : reads (fun _ _ x => x) 4096 (le 2 1032 ++ le 4 (-1) ++ le 2 1108 ++ [7]) [SVector U8] 0 = Throw
  /\ beyond 4096 (le 2 1032 ++ le 4 (-1) ++ le 2 1108 ++ [7]) 8 (W64 - 1) = false.
Proof. split; vm_compute; reflexivity. Qed.

(** *** C50 *)

(** Hamiltonianmatrix: what is stored and loaded again is the same pair of matrices, if in each matrix something is stored
    before the last column, or nothing at all ([storable]).  [fits]: sizes below 2^31, values are doubles.
    Missing: the other matrices; they are lost (next theorem). *)
Theorem C50_roundtrip_partial : forall cx fconv base a b e,
  compressed a -> compressed b -> fits cx a -> fits cx b -> storable a -> storable b ->
  save (ser cx (a, b)) = Ok e -> 0 <= base -> base + Z.of_nat (length e) < 2 ^ 63 ->
  deser cx fconv base e = Ok (a, b).
Proof.
  intros cx fconv base a b e Ca Cb Fa Fb Sa Sb S B L. rewrite (@deser_ser cx fconv base a b e Ca Cb Fa Fb S B L).
  rewrite !build_raw, !rebuild_ok by auto. reflexivity.
Qed.

(** A file that was only partly written is rejected, whatever the matrices (also those the previous theorem excludes). *)
Theorem C50_truncated : forall cx fconv base a b e k,
  compressed a -> compressed b -> fits cx a -> fits cx b -> save (ser cx (a, b)) = Ok e -> 0 <= base ->
  base + Z.of_nat (length e) < 2 ^ 63 -> (k < length e)%nat -> deser cx fconv base (firstn k e) = Throw.
Proof. intros cx fconv base a b e k Ca Cb Fa Fb S B. apply (@deser_cut cx fconv base B a b e k Ca Cb Fa Fb S). Qed.

(** It can always be written. *)
Theorem C50_writes : forall cx a b, compressed a -> compressed b -> fits cx a -> fits cx b -> exists e, save (ser cx (a, b)) = Ok e.
Proof.
  intros cx a b Ca Cb Fa Fb. apply save_wf. unfold ser. cbn [fst snd].
  destruct (parts_wf Ca Fa) as (? & ? & ?), (parts_wf Cb Fb) as (? & ? & ?). unfold ser_one.
  apply Forall_app; split; apply Forall_app; split; try assumption; apply Forall_app; split; assumption.
Qed.

(** A nonzero matrix whose entries are all in the last column (e.g. every matrix with one column) is loaded as zero,
    without an error. *)
Theorem C50_last_column_refuted : forall cx fconv base a b e,
  compressed a -> compressed b -> fits cx a -> fits cx b -> storable a -> ~ storable b ->
  save (ser cx (a, b)) = Ok e -> 0 <= base -> base + Z.of_nat (length e) < 2 ^ 63 ->
  exists b', deser cx fconv base e = Ok (a, b') /\ (forall c, (c < m_cols b)%nat -> column b' c = []) /\
    exists c, (c < m_cols b)%nat /\ column b c <> [].
Proof.
  intros cx fconv base a b e Ca Cb Fa Fb Sa Sb S B L. rewrite (@deser_ser cx fconv base a b e Ca Cb Fa Fb S B L).
  rewrite !build_raw by auto. rewrite rebuild_ok by auto. destruct (rebuild_lost Cb Sb) as (b' & -> & H). exists b'. auto.
Qed.

(** A file whose matrices (one of them suffices) have the other scalar type, real instead of complex or complex instead
    of real, is refused; it is not read as a matrix with missing or invented imaginary parts. *)
Theorem C50_other_scalar : forall ca cb cx fconv base a b e,
  compressed a -> compressed b -> fits ca a -> fits cb b -> save (ser_one ca a ++ ser_one cb b) = Ok e -> 0 <= base ->
  base + Z.of_nat (length e) < 2 ^ 63 -> ca <> cx \/ cb <> cx -> deser cx fconv base e = Throw.
Proof.
  intros ca cb cx fconv base a b e Ca Cb Fa Fb S B L N. unfold deser.
  assert (Wa : exists ea, save (ser_one ca a) = Ok ea). { apply save_wf. destruct (parts_wf Ca Fa) as (? & ? & ?). unfold ser_one. apply Forall_app; split; [assumption|]. apply Forall_app; split; assumption. }
  assert (Wb : exists eb, save (ser_one cb b) = Ok eb). { apply save_wf. destruct (parts_wf Cb Fb) as (? & ? & ?). unfold ser_one. apply Forall_app; split; [assumption|]. apply Forall_app; split; assumption. }
  destruct Wa as [ea Ea], Wb as [eb Eb]. pose proof (save_app _ _ Ea Eb) as S'. rewrite S in S'. injection S' as ->.
  pose proof (@read_raw_ok ca fconv base a ea [] eb Ca Fa Ea B) as R1. cbn [app length] in R1. rewrite R1 by exact L. rewrite Nat.add_0_l.
  pose proof (@read_raw_ok cb fconv base b eb ea [] Cb Fb Eb B) as R2. rewrite !app_nil_r in R2. rewrite R2 by exact L.
  change (r_cx (raw_of ca a)) with ca. change (r_cx (raw_of cb b)) with cb.
  destruct N as [N|N]; destruct ca, cb, cx; try reflexivity; exfalso; apply N; reflexivity.
Qed.

(** The cereal archive stores all outer indices and is exact. *)
Theorem C50_cereal : forall V (m : csc V), compressed m -> cereal_load (cereal_save m) = Ok m.
Proof.
  intros V m C. pose proof C as (L & _ & _ & _ & Li & _). unfold cereal_load, cereal_save.
  rewrite Li, L, !Nat.eqb_refl. cbn [andb]. f_equal. destruct m; cbn in *. exact (finalize_id C).
Qed.

(** diag(1,2) with the basis vector (1,1): the matrix is stored, the single basis vector is lost. *)
Example C50_nonvacuous :
  let a := Csc 2 2 [0;1;2]%nat [0;1]%nat [(le 8 1, @nil Z); (le 8 2, [])] in
  let b := Csc 2 1 [0;2]%nat [0;1]%nat [(le 8 1, @nil Z); (le 8 1, [])] in
  compressed a /\ compressed b /\ fits false a /\ fits false b /\ storable a /\ ~ storable b.
Proof.
  cbv zeta.
  assert (X : forall c, (c < 2)%nat -> c = 0%nat \/ c = 1%nat) by lia.
  split; [|split; [|split; [|split; [|split]]]].
  - repeat split; try reflexivity; [|repeat constructor]. cbn [m_cols m_outer]. intros c Hc. destruct (X c Hc) as [-> | ->]; cbn; lia.
  - repeat split; try reflexivity; [|repeat constructor]. cbn [m_cols m_outer]. intros c Hc. replace c with 0%nat by lia. cbn. lia.
  - repeat split; cbn; try lia; repeat constructor.
  - repeat split; cbn; try lia; repeat constructor.
  - right. exists 0%nat. split; [cbn; lia|]. discriminate.
  - intros [H|(c & H & _)]; [discriminate|]. cbn in H. lia.
Qed.

Print Assumptions C48_roundtrip. Print Assumptions C48_writes. Print Assumptions C48_truncated. Print Assumptions C86_archive_refuted. Print Assumptions C86_archive_half_refuted. Print Assumptions C48_appends.
Print Assumptions C49_safe. Print Assumptions C50_roundtrip_partial. Print Assumptions C50_writes. Print Assumptions C50_truncated. Print Assumptions C50_other_scalar.
Print Assumptions C50_last_column_refuted. Print Assumptions C50_cereal.
