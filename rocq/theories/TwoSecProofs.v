(** Vectors of different symmetry are not coupled by the interaction of the library. *)
From Coq Require Import ZArith Lia Bool Reals Lra String List Permutation.
Import ListNotations.
From Verif Require Import Base StateModel StateProofs Matrix OverlapProofs SystemModel LookupProofs PairModel RangeModel BasisProofs PairSpec PairProofs MEModel MESpec FieldModel GreenModel TwoModel TwoSpec TwoMatModel TwoSymSpec TwoSymProofs TwoSymProofs2 TwoMatProofs.
Set Implicit Arguments.
Local Open Scope R_scope.

Add Ring CRr : (s_ring CR).
Definition cre (x : R) : CR := (x, 0).
Lemma cre_mul : forall a b, cre (a * b) = smul (s := CR) (cre a) (cre b).
Proof. intros. apply injective_projections; cbn; ring. Qed.
Lemma cre_conj : forall a, sconj (s := CR) (cre a) = cre a. Proof. intros. apply injective_projections; cbn; ring. Qed.

Lemma lsum_perm : forall A (f : A -> CR) l l', Permutation l l' -> lsum f l = lsum f l'.
Proof.
  intros A f l l' H. induction H; unfold lsum in *; cbn [fold_right]; try reflexivity.
  - rewrite IHPermutation. reflexivity.
  - ring.
  - congruence.
Qed.
Lemma lsum_scale : forall A (f : A -> CR) k l, lsum (fun x => smul (s := CR) k (f x)) l = smul (s := CR) k (lsum f l).
Proof. intros A f k l. induction l as [|x l IH]; unfold lsum in *; cbn [fold_right]; [ring|]. rewrite IH. ring. Qed.
Lemma lsum_zero : forall A (f : A -> CR) l, (forall x, In x l -> f x = @Matrix.s0 CR) -> lsum f l = @Matrix.s0 CR.
Proof. intros A f l H. induction l as [|x l IH]; unfold lsum in *; cbn [fold_right]; [reflexivity|]. rewrite (H x) by (left; reflexivity). rewrite IH by (intros y I; apply H; right; exact I). ring. Qed.

(** Sum over the states *)
Lemma coupling_states : forall V tbl tbl' u w (U W : state2 -> CR),
  (forall e, In e tbl -> u (fst e) = U (snd e)) -> (forall e, In e tbl' -> w (fst e) = W (snd e)) ->
  coupling V tbl tbl' u w = lsum (fun x => lsum (fun y => smul (s := CR) (sconj (s := CR) (U x)) (smul (s := CR) (V x y) (W y))) (map snd tbl')) (map snd tbl).
Proof.
  intros V tbl tbl' u w U W HU HW. unfold coupling. rewrite lsum_map. apply lsum_ext. intros e Ie. rewrite lsum_map. apply lsum_ext. intros e' Ie'. rewrite (HU e Ie), (HW e' Ie'). reflexivity.
Qed.

(** [iota]: the symmetry operation on the states, [f]: the sign it comes with *)
Lemma character_zero : forall (iota : state2 -> state2) (f : state2 -> R) V T T' (U W : state2 -> CR) k k',
  Permutation (map iota T) T -> Permutation (map iota T') T' ->
  (forall x, f x * f x = 1) -> k * k' = -1 ->
  (forall x, In x T -> U (iota x) = smul (s := CR) (cre (k * f x)) (U x)) -> (forall x, In x T' -> W (iota x) = smul (s := CR) (cre (k' * f x)) (W x)) ->
  (forall x y, In x T -> In y T' -> V (iota x) (iota y) = smul (s := CR) (cre (f x * f y)) (V x y)) ->
  lsum (fun x => lsum (fun y => smul (s := CR) (sconj (s := CR) (U x)) (smul (s := CR) (V x y) (W y))) T') T = @Matrix.s0 CR.
Proof.
  intros iota f V T T' U W k k' P P' F2 KK HU HW HV.
  set (S := lsum _ T). assert (E : S = smul (s := CR) (cre (-1)) S).
  { unfold S at 1. rewrite <- (lsum_perm _ P), lsum_map. unfold S. rewrite <- lsum_scale. apply lsum_ext. intros x Ix. rewrite <- (lsum_perm _ P'), lsum_map. rewrite <- lsum_scale. apply lsum_ext. intros y Iy.
    rewrite (HU x Ix), (HW y Iy), (HV x y Ix Iy). rewrite s_conj_mul, cre_conj. replace (cre (-1)) with (smul (s := CR) (smul (s := CR) (cre (k * f x)) (cre (f x * f y))) (cre (k' * f y))); [ring|].
    rewrite <- !cre_mul. f_equal. replace (k * f x * (f x * f y) * (k' * f y)) with (k * k' * (f x * f x) * (f y * f y)) by ring. rewrite KK, !F2. ring. }
  clearbody S. destruct S as (a, b). unfold cre in E. cbn in E. injection E as E1 E2. apply injective_projections; cbn; lra.
Qed.

(** ** The bases of SystemTwo *)
Section B.
Variable rt : CR.
Variable s : @onesys CR.
Hypothesis W : wf_one s.

Lemma state_inj : forall a b, In a (o_states s) -> In b (o_states s) -> eq1 a b = true -> a = b.
Proof.
  intros a b Ia Ib E. destruct W as (D & _). revert Ia Ib. unfold distinct in D. induction D as [|x L F D IH]; intros Ia Ib; [destruct Ia|]. rewrite Forall_forall in F.
  destruct Ia as [<-|Ia], Ib as [<-|Ib]; auto.
  - rewrite (F _ Ib) in E. discriminate E.
  - assert (Q : eq1 x a = true) by (rewrite StateProofs.eq1_sym; exact E). rewrite (F _ Ia) in Q. discriminate Q.
Qed.
Lemma occupation_sym : forall (u : nat -> state1 -> CR) ps a b, occupation rt u ps b a = occupation rt u ps a b.
Proof.
  intros u ps a b. unfold occupation. apply lsum_ext. intros [i j] _. cbn [fst snd]. destruct (Nat.eqb_spec i j) as [->|N]; ring.
Qed.
Variables (rq : @request CR state2) (thr : CR) (sg : nat -> nat -> CR) (allowed : nat -> nat -> Prop) (tbl : list (nat * state2)) (b h : mat CR).
Hypothesis X : exchange_basis rt s rq thr sg allowed tbl b h.

Lemma closed : Permutation (map exch (map snd tbl)) (map snd tbl).
Proof.
  destruct X as (ps & _ & _ & M & D & S & O & _).
  assert (ND : NoDup (map snd tbl)).
  { clear - D. unfold distinct_pairs in D. induction D as [|x L F D IH]; constructor; [|exact IH]. intros I. rewrite Forall_forall in F. apply F in I. rewrite eq2_refl in I. discriminate I. }
  assert (EX : forall x, In x (map snd tbl) -> In (exch x) (map snd tbl)).
  { intros x I. destruct (S x I) as (a & c & Ia & Ic & ->). unfold exch. cbn [fst1 snd1 mkTwo_pair].
    assert (Q : sltre thr (occupation rt (amp s) ps c a) = true) by (rewrite occupation_sym; apply O; [exact Ia|exact Ic|]; exists (mkTwo_pair a c); split; [exact I|apply eq2_refl]).
    apply O in Q; [|exact Ic|exact Ia]. destruct Q as (y & Iy & E). destruct (S y Iy) as (a' & c' & Ia' & Ic' & ->). unfold eq2 in E. cbn [fst1 snd1 mkTwo_pair] in E. apply andb_prop in E. destruct E as (E1 & E2). rewrite (state_inj _ _ Ia' Ic E1), (state_inj _ _ Ic' Ia E2) in Iy. exact Iy. }
  assert (EE : forall x, In x (map snd tbl) -> exch (exch x) = x) by (intros x I; destruct (S x I) as (a & c & _ & _ & ->); reflexivity).
  apply NoDup_Permutation; [|exact ND|].
  - assert (G : forall L, NoDup L -> (forall x, In x L -> exch (exch x) = x) -> NoDup (map exch L)).
    { intros L N. induction N as [|x L N1 N2 IH]; intros Q; cbn; [constructor|]. constructor; [|apply IH; intros y I; apply Q; right; exact I].
      intros I. apply in_map_iff in I. destruct I as (y & E & I). apply N1. rewrite <- (Q x) by (left; reflexivity). rewrite <- E, (Q y) by (right; exact I). exact I. }
    apply G; assumption.
  - intros x. rewrite in_map_iff. split.
    + intros (y & <- & I). apply EX, I.
    + intros I. exists (exch x). split; [apply EE, I|apply EX, I].
Qed.
Lemma components : forall k, (k < nc b)%nat -> exists i j, (i < length (o_cols s))%nat /\ (j <= i)%nat /\ allowed i j /\
  (forall e, In e tbl -> at_ b (fst e) k = exchanged rt (amp s) (sg i j) i j (fst1 (snd e)) (snd1 (snd e))).
Proof.
  intros k L. destruct X as (ps & _ & I & M & _ & _ & _ & _ & NC & _ & _ & Q & _). rewrite NC in L. destruct (nth_error ps k) as [[i j]|] eqn:E; [|apply nth_error_None in E; lia].
  exists i, j. assert (IN := nth_error_In _ _ E). apply I in IN. destruct IN as (I1 & I2 & I3 & _). split; [exact I1|]. split; [exact I2|]. split; [exact I3|].
  intros e Ie. apply In_nth_error in Ie. destruct Ie as (r & Er). assert (F : nth_error (map fst tbl) r = Some (fst e)) by (rewrite nth_error_map, Er; reflexivity). rewrite M in F.
  assert (L' : (r < length tbl)%nat) by (apply nth_error_Some; congruence). assert (K2 : nth_error (seq 0 (length tbl)) r = Some r) by (rewrite nth_error_nth' with (d := 0%nat) by (rewrite seq_length; exact L'); rewrite seq_nth by exact L'; reflexivity).
  rewrite K2 in F. injection F as <-. eapply Q; [|exact E]. rewrite nth_error_map, Er. reflexivity.
Qed.
Lemma table_states : forall x, In x (map snd tbl) -> pair_of (o_states s) (o_states s) x.
Proof. intros x I. destruct X as (ps & _ & _ & _ & _ & S & _). destruct (S x I) as (a & c & Ia & Ic & ->). split; assumption. Qed.
End B.

Lemma amp_parity : forall (s : @onesys CR) i p a, parity_of s i p -> smul (s := CR) (cre (par (l a))) (amp s i a) = smul (s := CR) (cre (IZR p)) (amp s i a).
Proof.
  intros s i p a (P1 & P2). unfold amp. rewrite <- !lsum_scale. apply lsum_ext. intros e Ie. destruct (nth_error (o_states s) (fst e)) as [st|] eqn:E; [|apply injective_projections; cbn; ring].
  destruct (eq1 st a) eqn:Q; [|apply injective_projections; cbn; ring]. f_equal. f_equal. destruct (P2 e st Ie E) as (_ & <-). unfold eq1 in Q. apply andb_prop in Q. destruct Q as (Q & _). apply andb_prop in Q. destruct Q as (Q & _). apply andb_prop in Q. destruct Q as (_ & Q). apply Z.eqb_eq in Q.
  rewrite Q. unfold par. destruct (Z.even (l a)); reflexivity.
Qed.
Lemma kofR : forall z, (kof z : CR) = cre (if (z <? 0)%Z then -1 else 1).
Proof. intros z. unfold kof. destruct (z <? 0)%Z; apply injective_projections; cbn; ring. Qed.

(** exchange of the atoms, parity included *)
Lemma exch_parity : forall rt (s : @onesys CR) sinv (p : nat -> Z) i j x, sinv <> NA -> parity_of s i (p i) -> parity_of s j (p j) -> (i = j -> sinv = ODD) ->
  exchanged rt (amp s) (kof (inversion_sign sinv p i j)) i j (snd1 x) (fst1 x) =
  smul (s := CR) (cre ((match sinv with EVEN => -1 | _ => 1 end) * parity2 x)) (exchanged rt (amp s) (kof (inversion_sign sinv p i j)) i j (fst1 x) (snd1 x)).
Proof.
  intros rt s sinv p i j x NN Pi Pj D.
  assert (A1 := amp_parity (fst1 x) Pi). assert (A2 := amp_parity (snd1 x) Pi). assert (B1 := amp_parity (fst1 x) Pj). assert (B2 := amp_parity (snd1 x) Pj).
  unfold parity2. rewrite par_add, !cre_mul.
  set (ua := amp s i (fst1 x)) in *. set (ub := amp s i (snd1 x)) in *. set (va := amp s j (fst1 x)) in *. set (vb := amp s j (snd1 x)) in *. set (pa := cre (par (l (fst1 x)))) in *. set (pb := cre (par (l (snd1 x)))) in *. set (pi := cre (IZR (p i))) in *. set (pj := cre (IZR (p j))) in *. set (k := cre (match sinv with EVEN => -1 | _ => 1 end)).
  assert (X1 : smul (s := CR) (smul (s := CR) pa pb) (smul (s := CR) ua vb) = smul (s := CR) (smul (s := CR) pi pj) (smul (s := CR) ua vb)).
  { transitivity (smul (s := CR) (smul (s := CR) pa ua) (smul (s := CR) pb vb)); [ring|]. rewrite A1, B2. ring. }
  assert (X2 : smul (s := CR) (smul (s := CR) pa pb) (smul (s := CR) ub va) = smul (s := CR) (smul (s := CR) pi pj) (smul (s := CR) ub va)).
  { transitivity (smul (s := CR) (smul (s := CR) pa va) (smul (s := CR) pb ub)); [ring|]. rewrite A2, B1. ring. }
  unfold exchanged. fold ua ub va vb. destruct (Nat.eqb_spec i j) as [E|E].
  - assert (O := D E). subst sinv. transitivity (smul (s := CR) k (smul (s := CR) (smul (s := CR) pa pb) (smul (s := CR) ua vb))); [|ring]. rewrite X1. subst j. unfold vb, va, ua, ub, pi, pj, k.
    rewrite <- !cre_mul. destruct (proj1 Pi) as [H|H]; rewrite H; apply injective_projections; cbn; ring.
  - set (g := kof (inversion_sign sinv p i j)). assert (G : g = smul (s := CR) k (smul (s := CR) pi pj)).
    { unfold g, k, pi, pj. rewrite kofR, <- !cre_mul. unfold inversion_sign. destruct (proj1 Pi) as [Hi|Hi], (proj1 Pj) as [Hj|Hj]; rewrite Hi, Hj; destruct sinv; try congruence; cbn; f_equal; lra. }
    assert (G2 : smul (s := CR) g g = @Matrix.s1 CR) by (unfold g; rewrite kofR, <- cre_mul; destruct (_ <? 0)%Z; apply injective_projections; cbn; ring).
    transitivity (smul (s := CR) rt (smul (s := CR) k (sadd (s := CR) (smul (s := CR) (smul (s := CR) pa pb) (smul (s := CR) ua vb)) (smul (s := CR) g (smul (s := CR) (smul (s := CR) pa pb) (smul (s := CR) ub va)))))); [|ring].
    rewrite X1, X2. transitivity (smul (s := CR) rt (sadd (s := CR) (smul (s := CR) g (smul (s := CR) ua vb)) (smul (s := CR) (smul (s := CR) g g) (smul (s := CR) ub va)))); [rewrite G2; ring|]. rewrite G at 1 2. ring.
Qed.
Lemma exch_plain : forall rt (s : @onesys CR) sperm i j x, sperm <> NA -> (i = j -> sperm = ODD) ->
  exchanged rt (amp s) (kof (permutation_sign sperm)) i j (snd1 x) (fst1 x) =
  smul (s := CR) (cre ((match sperm with EVEN => -1 | _ => 1 end) * 1)) (exchanged rt (amp s) (kof (permutation_sign sperm)) i j (fst1 x) (snd1 x)).
Proof.
  intros rt s sperm i j x NN D. rewrite kofR. unfold exchanged. destruct (Nat.eqb_spec i j) as [E|E].
  - rewrite (D E). subst j. apply injective_projections; cbn; ring.
  - destruct sperm; [congruence| |]; cbn [permutation_sign Z.ltb Z.compare]; apply injective_projections; cbn; ring.
Qed.

(** ** Coupling *)
Section C.
Variable radial : string -> Z -> string -> Z -> Z -> Z -> Z -> Z -> Z -> Z -> res R.
Variables (e : R) (dn : string) (mth : Z).
Variable el : state1 -> state1 -> nat -> R.
Variables kC tol : R.
Variable isreal : bool.
Variable g : geo.
Variable rt : CR.
Variable s : @onesys CR.
Hypothesis A : atom_states (o_states s).
Hypothesis C : calculated radial e dn mth (o_states s) el.
Hypothesis W : wf_one s.
Hypothesis NS : gsurf g = None.
Variables (rq rq' : @request CR state2) (thr thr' : CR) (tbl tbl' : list (nat * state2)) (b h b' h' : mat CR).
Variable V : state2 -> state2 -> CR.
Hypothesis HV : forall x y, In x (map snd tbl) -> In y (map snd tbl') -> pair_entry kC tol isreal g el el x y = Ok (V x y).

Lemma V_exch : forall (X : Permutation (map exch (map snd tbl)) (map snd tbl)) (X' : Permutation (map exch (map snd tbl')) (map snd tbl'))
  (P : forall x, In x (map snd tbl) -> pair_of (o_states s) (o_states s) x) (P' : forall x, In x (map snd tbl') -> pair_of (o_states s) (o_states s) x) x y, In x (map snd tbl) -> In y (map snd tbl') ->
  V (exch x) (exch y) = smul (s := CR) (cre (parity2 x * parity2 y)) (V x y) /\ ((gord g <= 3)%nat -> V (exch x) (exch y) = V x y).
Proof.
  intros X X' P P' x y Ix Iy. assert (Ex : In (exch x) (map snd tbl)) by (eapply Permutation_in; [exact X|apply in_map; exact Ix]). assert (Ey : In (exch y) (map snd tbl')) by (eapply Permutation_in; [exact X'|apply in_map; exact Iy]).
  assert (Q := HV _ _ Ix Iy). assert (Q' := HV _ _ Ex Ey). split.
  - rewrite (@pair_X radial e dn mth (o_states s) el A C kC tol isreal g x y NS (P x Ix) (P' y Iy)), Q in Q'. cbn in Q'. injection Q' as Q'. rewrite <- Q'. apply injective_projections; cbn; ring.
  - intros O. rewrite (@pair_perm radial e dn mth (o_states s) el A C kC tol isreal g x y NS O (P x Ix) (P' y Iy)), Q in Q'. injection Q' as Q'. congruence.
Qed.
Lemma inversion_zero : forall p, (forall i, (i < length (o_cols s))%nat -> parity_of s i (p i)) ->
  exchange_basis rt s rq thr (fun i j => kof (inversion_sign EVEN p i j)) (fun i j => i = j -> EVEN = ODD) tbl b h ->
  exchange_basis rt s rq' thr' (fun i j => kof (inversion_sign ODD p i j)) (fun i j => i = j -> ODD = ODD) tbl' b' h' ->
  forall k k', (k < nc b)%nat -> (k' < nc b')%nat -> coupling V tbl tbl' (fun r => at_ b r k) (fun r => at_ b' r k') = @Matrix.s0 CR.
Proof.
  intros p HP X X' k k' L L'. destruct (components X L) as (i & j & Hi & Hj & AL & HC). destruct (components X' L') as (i' & j' & Hi' & Hj' & AL' & HC').
  rewrite (@coupling_states V tbl tbl' _ _ (fun x => exchanged rt (amp s) (kof (inversion_sign EVEN p i j)) i j (fst1 x) (snd1 x)) (fun x => exchanged rt (amp s) (kof (inversion_sign ODD p i' j')) i' j' (fst1 x) (snd1 x)) HC HC').
  apply (@character_zero exch parity2 V) with (k := -1) (k' := 1); [apply (closed W X)|apply (closed W X')|intros x; apply par_sq|ring| | |].
  - intros x Ix. cbn [fst1 snd1 exch mkTwo_pair]. apply (@exch_parity rt s EVEN); [discriminate|apply HP; lia|apply HP; lia|exact AL].
  - intros x Ix. cbn [fst1 snd1 exch mkTwo_pair]. apply (@exch_parity rt s ODD); [discriminate|apply HP; lia|apply HP; lia|exact AL'].
  - intros x y Ix Iy. apply V_exch; try assumption; [apply (closed W X)|apply (closed W X')|apply (table_states X)|apply (table_states X')].
Qed.
Lemma permutation_zero : (gord g <= 3)%nat ->
  exchange_basis rt s rq thr (fun _ _ => kof (permutation_sign EVEN)) (fun i j => i = j -> EVEN = ODD) tbl b h ->
  exchange_basis rt s rq' thr' (fun _ _ => kof (permutation_sign ODD)) (fun i j => i = j -> ODD = ODD) tbl' b' h' ->
  forall k k', (k < nc b)%nat -> (k' < nc b')%nat -> coupling V tbl tbl' (fun r => at_ b r k) (fun r => at_ b' r k') = @Matrix.s0 CR.
Proof.
  intros O X X' k k' L L'. destruct (components X L) as (i & j & Hi & Hj & AL & HC). destruct (components X' L') as (i' & j' & Hi' & Hj' & AL' & HC').
  rewrite (@coupling_states V tbl tbl' _ _ (fun x => exchanged rt (amp s) (kof (permutation_sign EVEN)) i j (fst1 x) (snd1 x)) (fun x => exchanged rt (amp s) (kof (permutation_sign ODD)) i' j' (fst1 x) (snd1 x)) HC HC').
  apply (@character_zero exch (fun _ => 1) V) with (k := -1) (k' := 1); [apply (closed W X)|apply (closed W X')|intros; ring|ring| | |].
  - intros x Ix. cbn [fst1 snd1 exch mkTwo_pair]. apply (@exch_plain rt s EVEN); [discriminate|exact AL].
  - intros x Ix. cbn [fst1 snd1 exch mkTwo_pair]. apply (@exch_plain rt s ODD); [discriminate|exact AL'].
  - intros x y Ix Iy. rewrite (proj2 (V_exch (closed W X) (closed W X') (table_states X) (table_states X') _ _ Ix Iy) O). apply injective_projections; cbn; ring.
Qed.
End C.
