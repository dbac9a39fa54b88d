(** Lemmas about [combine]: columns without reflection. *)
From Coq Require Import ZArith Lia Bool List.
Import ListNotations.
From Verif Require Import Base Matrix BasisnamesModel CombineModel CombineSpec OverlapProofs PropNames.
Set Implicit Arguments.

Section Proofs.
Variable K : StarRing.
Add Ring KRing : (s_ring K).
Local Open Scope star_scope.
Implicit Types (c : list (nat * K)) (e : nat * K).

Lemma coef_lsum : forall c r, coef c r = lsum (fun e => if Nat.eqb (fst e) r then snd e else 0) c.
Proof.
  intros c r. induction c as [|e c IH]; [reflexivity|]. cbn [coef fold_right lsum]. unfold coef in IH. rewrite IH.
  unfold lsum. destruct (Nat.eqb (fst e) r); [reflexivity|]. ring.
Qed.
Lemma coef_app : forall c d r, coef (c ++ d) r = coef c r + coef d r.
Proof. intros. rewrite !coef_lsum. apply lsum_app. Qed.
Lemma coef_nil : forall r, coef (K := K) [] r = 0. Proof. reflexivity. Qed.
Lemma coef_one : forall r x (v : K), coef [(x, v)] r = if Nat.eqb x r then v else 0.
Proof. intros. cbn. destruct (Nat.eqb x r); ring. Qed.
Lemma coef_cons : forall e c r, coef (e :: c) r = (if Nat.eqb (fst e) r then snd e else 0) + coef c r.
Proof. intros. rewrite !coef_lsum. reflexivity. Qed.
Lemma coef_flat : forall A (f : A -> list (nat * K)) l r, coef (flat_map f l) r = lsum (fun x => coef (f x) r) l.
Proof. intros A f l r. induction l as [|x l IH]; [reflexivity|]. cbn [flat_map lsum fold_right]. rewrite coef_app, IH. reflexivity. Qed.
Lemma coef_out : forall c r, (forall e, In e c -> fst e <> r) -> coef c r = 0.
Proof.
  intros c r H. induction c as [|e c IH]; [reflexivity|]. rewrite coef_cons, IH by (intros; apply H; right; auto).
  destruct (Nat.eqb_spec (fst e) r) as [E|_]; [destruct (H e); cbn; auto|ring].
Qed.

Lemma lsum_mul_l : forall A (x : K) (f : A -> K) l, lsum (fun a => x * f a) l = x * lsum f l.
Proof. intros A x f l. induction l as [|a l IH]; cbn [lsum fold_right]; [ring|]. unfold lsum in IH. rewrite IH. fold (lsum f l). ring. Qed.
Lemma lsum_mul_r : forall A (x : K) (f : A -> K) l, lsum (fun a => f a * x) l = lsum f l * x.
Proof. intros A x f l. induction l as [|a l IH]; cbn [lsum fold_right]; [ring|]. unfold lsum in IH. rewrite IH. fold (lsum f l). ring. Qed.
Lemma lsum_add : forall A (f g : A -> K) l, lsum (fun a => f a + g a) l = lsum f l + lsum g l.
Proof. intros A f g l. induction l as [|a l IH]; cbn [lsum fold_right]; [ring|]. unfold lsum in IH. rewrite IH. fold (lsum f l). fold (lsum g l). ring. Qed.
Lemma lsum_zero : forall A (f : A -> K) l, (forall x, In x l -> f x = 0) -> lsum f l = 0.
Proof. intros A f l H. induction l as [|a l IH]; [reflexivity|]. cbn [lsum fold_right]. unfold lsum in IH. rewrite IH by (intros; apply H; cbn; auto). rewrite H by (cbn; auto). ring. Qed.

Lemma pair_eqb : forall n i k r, (k < n)%nat -> Nat.eqb (n * i + k) r = Nat.eqb i (r / n) && Nat.eqb k (r mod n).
Proof.
  intros n i k r Hk. pose proof (Nat.div_mod r n ltac:(lia)) as D. pose proof (Nat.mod_upper_bound r n ltac:(lia)) as M.
  destruct (Nat.eqb_spec (n * i + k) r) as [<-|N].
  - replace (n * i + k)%nat with (k + i * n)%nat by lia. rewrite Nat.div_add, Nat.mod_add, Nat.div_small, Nat.mod_small by lia. cbn. rewrite !Nat.eqb_refl. reflexivity.
  - destruct (Nat.eqb_spec i (r / n)) as [->|]; [|reflexivity]. destruct (Nat.eqb_spec k (r mod n)) as [->|]; [|reflexivity]. lia.
Qed.

(** the product vector as a double sum over entries *)
Lemma kron_sum : forall n c1 c2 r, (forall e, In e c2 -> fst e < n)%nat ->
  lsum (fun e1 => lsum (fun e2 => if Nat.eqb (n * fst e1 + fst e2) r then snd e1 * snd e2 else 0) c2) c1 = coef c1 (r / n) * coef c2 (r mod n).
Proof.
  intros n c1 c2 r H. rewrite (coef_lsum c1), <- lsum_mul_r. apply lsum_ext. intros e1 _. rewrite coef_lsum.
  destruct (Nat.eqb_spec (fst e1) (r / n)) as [E|N].
  - rewrite <- lsum_mul_l. apply lsum_ext. intros e2 H2. rewrite pair_eqb by auto. rewrite E, Nat.eqb_refl. cbn [andb].
    destruct (Nat.eqb (fst e2) (r mod n)); ring.
  - rewrite lsum_zero; [ring|]. intros e2 H2. rewrite pair_eqb by auto. destruct (Nat.eqb_spec (fst e1) (r / n)); [contradiction|reflexivity].
Qed.
Lemma lsum_swapl : forall A B (f : A -> B -> K) l m, lsum (fun x => lsum (f x) m) l = lsum (fun y => lsum (fun x => f x y) l) m.
Proof.
  intros A B f l m. induction l as [|x l IH]; cbn [lsum fold_right].
  - symmetry. apply lsum_zero. reflexivity.
  - fold (lsum (fun x => lsum (f x) m) l). rewrite IH, <- lsum_add. reflexivity.
Qed.
Lemma kron_sum' : forall n c1 c2 r, (forall e, In e c1 -> fst e < n)%nat ->
  lsum (fun e1 => lsum (fun e2 => if Nat.eqb (n * fst e2 + fst e1) r then snd e1 * snd e2 else 0) c2) c1 = coef c1 (r mod n) * coef c2 (r / n).
Proof.
  intros n c1 c2 r H. rewrite lsum_swapl.
  replace (coef c1 (r mod n) * coef c2 (r / n)) with (coef c2 (r / n) * coef c1 (r mod n)) by ring.
  rewrite <- (@kron_sum n c2 c1) by auto. apply lsum_ext. intros e2 _. apply lsum_ext. intros e1 _. destruct (Nat.eqb _ r); ring.
Qed.

Lemma mapR_ok : forall A B (f : A -> res (list B)) g l, (forall x, In x l -> f x = Ok (g x)) -> mapR f l = Ok (flat_map g l).
Proof.
  intros A B f g l H. induction l as [|x l IH]; [reflexivity|]. cbn [mapR flat_map]. rewrite H by (cbn; auto). cbn [bind].
  rewrite IH by (intros; apply H; cbn; auto). reflexivity.
Qed.

Lemma swapc_lt : forall n r, (r < n * n)%nat -> (swapc n r < n * n)%nat.
Proof.
  intros n r H. unfold swapc. assert (n <> 0)%nat by lia. pose proof (Nat.mod_upper_bound r n ltac:(lia)).
  pose proof (Nat.div_lt_upper_bound r n n ltac:(lia) H). nia.
Qed.
Lemma swapc_parts : forall n r, (r < n * n)%nat -> (swapc n r / n = r mod n /\ swapc n r mod n = r / n)%nat.
Proof.
  intros n r H. unfold swapc. assert (n <> 0)%nat by lia.
  pose proof (Nat.div_lt_upper_bound r n n ltac:(lia) H). replace (n * (r mod n) + r / n)%nat with (r / n + (r mod n) * n)%nat by lia.
  rewrite Nat.div_add, Nat.mod_add, (Nat.div_small (r / n)), (Nat.mod_small (r / n)) by assumption. auto.
Qed.
Lemma swapc_invol : forall n r, (r < n * n)%nat -> swapc n (swapc n r) = r.
Proof.
  intros n r H. destruct (swapc_parts _ H) as [A B]. unfold swapc at 1. rewrite A, B. symmetry. apply Nat.div_mod. clear A B. lia.
Qed.

(** * Entries without reflection *)
Variable rt : K.
(** total magnetic quantum number and parities accepted *)
Definition accept (sym : symmetry) (dif : bool) (a b : one) : bool :=
  match rot sym with Some R => (2 * R =? mm a + mm b)%Z | None => true end &&
  negb (used (inv sym) && used (per sym) && dif && negb (invsign sym (sg (l_ a + l_ b)) =? persign sym)%Z).
Definition symsign (sym : symmetry) (a b : one) : Z := if used (inv sym) then invsign sym (sg (l_ a + l_ b)) else persign sym.
Definition sympair (sym : symmetry) (dif : bool) : bool := (used (inv sym) || used (per sym)) && dif.
Definition fac (sym : symmetry) (dif : bool) (v : K) : K := if sympair sym dif then v * rt else v.
Definition entry (sym : symmetry) (n2 : nat) (dif : bool) (a b : one) e1 e2 : list (nat * K) :=
  if accept sym dif a b then
    ((n2 * fst e1 + fst e2)%nat, fac sym dif (snd e1 * snd e2)) ::
    (if sympair sym dif then [((n2 * fst e2 + fst e1)%nat, sc (symsign sym a b) (fac sym dif (snd e1 * snd e2)))] else [])
  else [].

Lemma psign_half : forall x y, Z.odd x = true -> Z.odd y = true -> psign (x + y) = Ok (sg ((x + y) / 2)).
Proof. intros x y A B. unfold psign. rewrite Z.even_add. rewrite <- !Z.negb_odd, A, B. reflexivity. Qed.

Lemma one_entry_noref : forall sym names map n2 num dif e1 e2 i2 a b,
  ref sym = NA -> nth_error names (n2 * fst e1 + fst e2) = Some (Two i2 a b) ->
  Z.odd (jj a) = true -> Z.odd (jj b) = true -> Z.odd (mm a) = true -> Z.odd (mm b) = true ->
  (n2 * fst e1 + fst e2 < num)%nat -> (sympair sym dif = true -> n2 * fst e2 + fst e1 < num)%nat ->
  one_entry rt sym names map n2 num dif e1 e2 = Ok (entry sym n2 dif a b e1 e2).
Proof.
  intros sym names map n2 num dif e1 e2 i2 a b R N J1 J2 M1 M2 B1 B2. unfold one_entry, at_vec. rewrite N. cbn [bind fst_ snd_].
  rewrite psign_half by auto. cbn [bind]. rewrite (psign_half _ _ M1 M2). cbn [bind]. rewrite R. cbn [used bind]. rewrite !andb_false_r. cbn [andb orb negb].
  rewrite ?andb_false_r, ?andb_true_r. cbn [andb orb negb].
  unfold entry, accept, fac, symsign, put in *. unfold sympair in *. apply Nat.ltb_lt in B1. rewrite B1. cbn [bind].
  destruct sym as [iv rf pr ro]; cbn [inv per ref rot] in *. subst rf.
  destruct dif.
  2:{ rewrite !andb_false_r in *. cbn [andb bind negb app]. rewrite ?andb_false_r. cbn. destruct ro as [z|]; [|reflexivity]. destruct (Z.eqb _ _); reflexivity. }
  unfold sympair in *. cbn [inv per] in *.
  destruct iv, pr; cbn [used andb orb negb bind app invsign persign inv per] in *; try (specialize (B2 eq_refl); apply Nat.ltb_lt in B2; rewrite B2); cbn [bind app];
    repeat first [ rewrite !andb_true_r | rewrite !andb_false_r | progress cbn [andb orb negb bind app] ];
    repeat match goal with |- context [ (?x =? ?y)%Z ] => destruct (Z.eqb x y) eqn:?; cbn [andb orb negb bind app] | |- context [match ?o with Some _ => _ | None => _ end] => destruct o eqn:?; cbn [andb orb negb bind app] end; reflexivity.
Qed.
End Proofs.
