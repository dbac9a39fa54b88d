(** Concrete oracles for the hypotheses of the theorems about the Schrieffer-Wolff transformation,
    and a concrete system with two states. *)
From Verif Require Import Base Matrix LookupModel LookupProofs SystemModel SystemProofs FieldModel SchriefferModel SchriefferSpec SchriefferProofs2 SchriefferProofs5.
From Coq Require Import ZArith Lia Bool Arith Reals Lra List Setoid Morphisms Permutation.
Import ListNotations.
Set Implicit Arguments.
Local Open Scope R_scope.
Add Ring CRr6 : (s_ring CR).

Definition ceqb (x y : CR) : bool := if Req_EM_T (fst x) (fst y) then if Req_EM_T (snd x) (snd y) then true else false else false.
Lemma ceqb_iff : forall x y, ceqb x y = true <-> x = y.
Proof.
  intros [a b] [c d]. unfold ceqb. cbn [fst snd]. destruct (Req_EM_T a c) as [->|N]; [destruct (Req_EM_T b d) as [->|N]|];
  split; intro H; try reflexivity; try discriminate; exfalso; apply N; congruence.
Qed.
Definition meqb (A B : mat CR) : bool :=
  (nr A =? nr B)%nat && (nc A =? nc B)%nat && forallb (fun i => forallb (fun j => ceqb (at_ A i j) (at_ B i j)) (seq 0 (nc A))) (seq 0 (nr A)).
Lemma meqb_iff : forall A B, meqb A B = true <-> meq A B.
Proof.
  intros A B. unfold meqb. rewrite !andb_true_iff, !Nat.eqb_eq, forallb_forall. split.
  - intros ((H1 & H2) & H3). split; [auto|]. split; [auto|]. intros i j Hi Hj.
    assert (X : In i (seq 0 (nr A))) by (apply in_seq; lia). specialize (H3 i X). rewrite forallb_forall in H3.
    apply ceqb_iff, H3. apply in_seq; lia.
  - intros (H1 & H2 & H3). split; [auto|]. intros i Hi. apply forallb_forall. intros j Hj. apply in_seq in Hi, Hj. apply ceqb_iff, H3; lia.
Qed.
Definition isunitary_demo (B : mat CR) : bool := meqb (mmul (madj B) B) (mid (nc B)).
Lemma isunitary_demo_ok : forall B, isunitary_demo B = true -> isometry B.
Proof. intros B H. apply meqb_iff. exact H. Qed.
Definition isdiagonal_demo (B : mat CR) : bool :=
  forallb (fun i => forallb (fun j => (i =? j)%nat || ceqb (at_ B i j) s0) (seq 0 (nc B))) (seq 0 (nr B)).
Lemma isdiagonal_demo_ok : forall B, isdiagonal_demo B = true -> diagonal B.
Proof.
  intros B H i j Hi Hj N. unfold isdiagonal_demo in H. rewrite forallb_forall in H.
  assert (X : In i (seq 0 (nr B))) by (apply in_seq; lia). specialize (H i X). rewrite forallb_forall in H.
  assert (Y : In j (seq 0 (nc B))) by (apply in_seq; lia). specialize (H j Y). apply orb_true_iff in H.
  destruct H as [H|H]; [apply Nat.eqb_eq in H; contradiction|apply ceqb_iff; exact H].
Qed.

(** Sorting by decreasing key. *)
Fixpoint ins (key : nat -> CR) (a : nat) (l : list nat) : list nat :=
  match l with
  | [] => [a]
  | b :: t => if Rlt_dec (fst (key a)) (fst (key b)) then b :: ins key a t else a :: l
  end.
Definition sort_demo (k n : nat) (key : nat -> CR) : list nat := fold_right (ins key) [] (seq 0 n).
Lemma ins_perm : forall key a l, Permutation (ins key a l) (a :: l).
Proof.
  induction l as [|b t IH]; cbn; auto. destruct (Rlt_dec _ _); auto. rewrite IH. apply perm_swap.
Qed.
Lemma sorted_ins : forall key a l, ForallOrdPairs (fun x y => fst (key y) <= fst (key x)) l -> ForallOrdPairs (fun x y => fst (key y) <= fst (key x)) (ins key a l).
Proof.
  induction l as [|b t IH]; intro H; cbn. { constructor; constructor. }
  inversion H as [|? ? Hb Ht]; subst. destruct (Rlt_dec (fst (key a)) (fst (key b))) as [L|L].
  - constructor; [|apply IH; auto]. apply Forall_forall. intros y Hy. apply (Permutation_in _ (ins_perm key a t)) in Hy.
    destruct Hy as [<-|Hy]; [lra|]. rewrite Forall_forall in Hb. auto.
  - constructor; [|auto]. constructor; [lra|]. rewrite Forall_forall in *. intros y Hy. specialize (Hb y Hy). lra.
Qed.
Lemma sort_demo_ok : select_ok sort_demo.
Proof.
  intros k n key Hk. unfold sort_demo. split.
  - induction (seq 0 n) as [|a l IH]; cbn; auto. rewrite ins_perm. auto.
  - assert (S : ForallOrdPairs (fun x y => fst (key y) <= fst (key x)) (fold_right (ins key) [] (seq 0 n))).
    { induction (seq 0 n); cbn; [constructor|apply sorted_ins; auto]. }
    revert S. generalize (fold_right (ins key) [] (seq 0 n)). intro l. revert k Hk. clear.
    induction l as [|x l IH]; intros k Hk S a b Ha Hb. { destruct k; destruct Ha. }
    inversion S as [|? ? Hx Hl]; subst. destruct k as [|k]; [destruct Ha|]. cbn in Ha, Hb.
    destruct Ha as [<-|Ha]; [|apply (IH k ltac:(lia) Hl a b); auto].
    rewrite Forall_forall in Hx. apply Hx. rewrite <- (firstn_skipn k l). apply in_app_iff; auto.
Qed.

(** The matrices of the example: H = 25 |v><v| with v = (4/5, -3/5). *)
Definition rc (x : R) : CR := (x, 0).
Definition Hd : mat CR := mlist 2 2 [[rc 16; rc (-12)]; [rc (-12); rc 9]].
Definition Ud : mat CR := mlist 2 2 [[rc (3/5); rc (4/5)]; [rc (4/5); rc (-3/5)]].
Definition Dd : mat CR := mlist 2 2 [[rc 0; rc 0]; [rc 0; rc 25]].
Definition Vd : mat CR := mlist 2 2 [[rc (4/5); rc (-3/5)]; [rc (3/5); rc (4/5)]].
Definition Wd : mat CR := mlist 2 2 [[rc (7/25); rc (-24/25)]; [rc (24/25); rc (7/25)]].
Definition msqrt_demo (W : mat CR) : option (mat CR) := if meqb W Wd then Some Vd else None.

Ltac two i H := destruct i as [|[|i]]; [| |cbn in H; lia].
Ltac ent := apply injective_projections; vm_compute; field.
Ltac mats := split; [reflexivity|]; split; [reflexivity|]; let i := fresh in let j := fresh in let Hi := fresh in let Hj := fresh in
  intros i j Hi Hj; destruct i as [|[|i]]; try (exfalso; cbn in Hi; lia); destruct j as [|[|j]]; try (exfalso; cbn in Hj; lia);
  apply injective_projections; cbn; field.

Lemma Vd_unitary : unitary 2 Vd.
Proof. split; [reflexivity|]. split; [reflexivity|]. split; mats. Qed.
Lemma Ud_unitary : unitary 2 Ud.
Proof. split; [reflexivity|]. split; [reflexivity|]. split; mats. Qed.
Lemma Vd_root : meq (mmul Vd Vd) Wd. Proof. mats. Qed.
Lemma Dd_eq : meq Dd (mconj Ud Hd). Proof. mats. Qed.
Lemma Vd_accretive : accretive 2 Vd.
Proof.
  intros x (i & Hi & N).
  replace (fst (qform 2 Vd x)) with (4/5 * (fst (x 0%nat) * fst (x 0%nat) + snd (x 0%nat) * snd (x 0%nat) + fst (x 1%nat) * fst (x 1%nat) + snd (x 1%nat) * snd (x 1%nat))).
  2:{ cbn. destruct (x 0%nat), (x 1%nat). cbn. field. }
  assert (P : 0 < fst (x i) * fst (x i) + snd (x i) * snd (x i)).
  { destruct (x i) as [a b]. cbn [fst snd]. destruct (Req_EM_T a 0) as [->|A]; [|nra]. destruct (Req_EM_T b 0) as [->|B]; [|nra]. exfalso. apply N. reflexivity. }
  destruct i as [|[|i]]; [| |lia]; nra.
Qed.
Lemma msqrt_demo_ok : root_ok msqrt_demo.
Proof.
  intros n W U (rW & cW & _) _ E. unfold msqrt_demo in E. destruct (meqb W Wd) eqn:Q; [|discriminate]. injection E as <-.
  apply meqb_iff in Q. assert (n = 2%nat) by (rewrite <- rW, (meq_nr Q); reflexivity). clear rW cW. subst n.
  split; [exact Vd_unitary|]. split; [rewrite Q; exact Vd_root|exact Vd_accretive].
Qed.

(** The system: two states, the parameter chooses between the perturbed system and the one
    with the first state as its only basis vector. *)
Definition demo_init (p : bool) (rq : @request CR nat) : list (nat * nat) * res (mat CR * mat CR) :=
  if p then ([(0, 10); (1, 11)]%nat, Ok (mid 2, Hd)) else ([(0, 10)]%nat, Ok (mid 1, mlist 1 1 [[rc 16]])).
Notation dsys := (@sys CR nat bool unit).
Definition demo_s : dsys := new_sys true false (rc (-1)).
Definition demo_s0 : dsys := new_sys false false (rc (-1)).
Lemma demo_init_ok : init_ok Nat.eqb demo_init.
Proof.
  intros p rq tbl b h H. unfold demo_init in H. destruct p; injection H as <- <- <-; (split; [split; [reflexivity|]|auto]).
  - repeat constructor. - repeat constructor.
Qed.
