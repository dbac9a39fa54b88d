(** Proofs about NumpyModel. *)
From Coq Require Import ZArith Bool List Lia.
Import ListNotations.
From Verif Require Import Base NumpyModel NumpySpec.
Set Implicit Arguments.

Lemma int_id : forall z, (- 2 ^ 31 <= z < 2 ^ 31)%Z -> int z = z.
Proof. intros z H. unfold int. rewrite Z.mod_small by lia. lia. Qed.

Section P.
Variable V : Type.
Notation cell := (cell V).
Notation heap := (heap V).
Notation content := (content V).

(** ** memory *)
Lemma block_app : forall (h : heap) x a, a < length h -> block (h ++ [x]) a = block h a.
Proof. intros h x a H. unfold block. apply app_nth1. assumption. Qed.
Lemma block_new : forall (h : heap) x, block (h ++ [x]) (length h) = x.
Proof. intros h x. unfold block. rewrite app_nth2, Nat.sub_diag by lia. reflexivity. Qed.
Lemma set_nth_length : forall A (l : list A) i x, length (set_nth l i x) = length l.
Proof. induction l as [|y l IH]; intros [|i] x; cbn; auto. Qed.
Lemma nth_set : forall A (l : list A) i x j d, nth j (set_nth l i x) d = if Nat.eqb j i then (if Nat.ltb i (length l) then x else d) else nth j l d.
Proof.
  induction l as [|y l IH]; intros [|i] x [|j] d; cbn [set_nth nth length]; try reflexivity.
  - destruct (Nat.eqb (S j) (S i)); reflexivity.
  - rewrite IH. reflexivity.
Qed.
Lemma block_set : forall (h : heap) a x b, a < length h -> block (set_nth h a x) b = if Nat.eqb b a then x else block h b.
Proof. intros h a x b H. unfold block. rewrite nth_set. apply Nat.ltb_lt in H. rewrite H. reflexivity. Qed.
Lemma block_set_other : forall (h : heap) a x b, b <> a -> block (set_nth h a x) b = block h b.
Proof. intros h a x b H. unfold block. rewrite nth_set. apply Nat.eqb_neq in H. rewrite H. reflexivity. Qed.
Lemma block_lt : forall (h : heap) a cs, block h a = Some cs -> a < length h.
Proof. intros h a cs H. unfold block in H. destruct (Nat.lt_ge_cases a (length h)) as [L|L]; [assumption|]. rewrite nth_overflow in H by assumption. discriminate H. Qed.
Lemma load_nth : forall (h : heap) a cs i, block h a = Some cs -> load h a (Z.of_nat i) = match nth_error cs i with Some (Unset _) | None => UB | Some c => Ok c end.
Proof. intros h a cs i H. unfold load. rewrite H. destruct (Z.ltb_spec (Z.of_nat i) 0); [lia|]. rewrite Nat2Z.id. reflexivity. Qed.
Lemma load_ext : forall (h h' : heap) a b i, block h a = block h' b -> load h a i = load h' b i.
Proof. intros h h' a b i H. unfold load. rewrite H. reflexivity. Qed.

(** ** conversion of ranges *)
Lemma copied_full : forall (cs : list cell) n i, n <= length cs -> i < n -> nth_error (copied cs n n) i = nth_error cs i.
Proof.
  intros cs n i L H. unfold copied. rewrite firstn_app, firstn_firstn, Nat.min_id, firstn_length_le, Nat.sub_diag by assumption. cbn [firstn]. rewrite app_nil_r. 
  rewrite <- (firstn_skipn n cs) at 2. rewrite nth_error_app1; [reflexivity|]. rewrite firstn_length_le; assumption.
Qed.
Lemma copied_length : forall (cs : list cell) n, n <= length cs -> length (copied cs n n) = n.
Proof. intros cs n L. unfold copied. rewrite firstn_length, app_length, firstn_length_le, repeat_length by assumption. lia. Qed.
(** the array shows the block of memory [cs] *)
Lemma convert_spec : forall v const t (h : heap) a cs size nd dims,
  block h a = Some cs -> (1 <= size < 2 ^ 31)%Z -> (size <= Z.of_nat (length cs))%Z -> nd = length dims -> int_product 1 dims = Some size -> product dims = size ->
  exists h' r, convert v const t h a size nd dims = Ok (h', r) /\ off r = 0%Z /\ shape r = dims /\ strides r = fstrides 1 dims /\ ty r = t /\ aligned r = true /\
    (forall i, (0 <= i < size)%Z -> load h' (buf r) i = load h a i) /\ (forall b, b < length h -> block h' b = block h b) /\ length h <= length h' /\
    match v with View => h' = h /\ buf r = a /\ writeable r = negb const | Copy => h' = h ++ [Some (copied cs (Z.to_nat size) (Z.to_nat size))] /\ buf r = length h /\ writeable r = true /\ owns r = true end.
Proof.
  intros v const t h a cs size nd dims B S L -> IP P. unfold convert. rewrite int_id by lia. unfold check_array_sanity. destruct (Z.ltb_spec size 1); [lia|]. rewrite Nat.eqb_refl. cbn [negb]. rewrite IP.
  destruct (Z.ltb_spec size size); [lia|]. cbn [bind]. destruct v.
  - exists h. eexists. split; [reflexivity|]. cbn. do 5 (split; [reflexivity|]). split; [auto|]. split; [auto|]. split; [lia|]. auto.
  - rewrite B. destruct (Z.ltb_spec (Z.of_nat (length cs)) size); [lia|]. rewrite P. unfold alloc. eexists. eexists. split; [reflexivity|]. cbn [buf off shape strides ty aligned writeable owns].
    do 5 (split; [reflexivity|]). split; [|split; [|split; [rewrite app_length; cbn; lia|auto]]].
    + intros i Hi. unfold load. rewrite block_new, B. destruct (Z.ltb_spec i 0); [reflexivity|]. rewrite copied_full by lia. reflexivity.
    + intros b Hb. apply block_app. assumption.
Qed.
Lemma vector_product : forall n, (1 <= n < 2 ^ 31)%Z -> int_product 1 [n] = Some n /\ product [n] = n.
Proof.
  intros n H. cbn [int_product]. rewrite int_id by lia. rewrite Z.mul_1_l. destruct (Z.leb_spec (- 2 ^ 31) n); [|lia]. destruct (Z.ltb_spec n (2 ^ 31)); [|lia]. cbn [andb]. split; [reflexivity|]. unfold product. cbn [fold_left]. lia.
Qed.
Lemma matrix_product : forall r c, (0 <= r)%Z -> (0 <= c)%Z -> (1 <= r * c < 2 ^ 31)%Z -> int_product 1 [r; c] = Some (r * c)%Z /\ product [r; c] = (r * c)%Z.
Proof.
  intros r c R C H. assert (RC : (r < 2 ^ 31 /\ c < 2 ^ 31)%Z) by (clear - R C H; split; destruct (Z.eq_dec r 0) as [->|], (Z.eq_dec c 0) as [->|]; try lia; apply Z.le_lt_trans with (r * c)%Z; nia). cbn [int_product]. rewrite (@int_id r), (@int_id c) by lia. rewrite Z.mul_1_l.
  destruct (Z.leb_spec (- 2 ^ 31) r); [|lia]. destruct (Z.ltb_spec r (2 ^ 31)); [|lia]. cbn [andb]. destruct (Z.leb_spec (- 2 ^ 31) (r * c)); [|lia]. destruct (Z.ltb_spec (r * c) (2 ^ 31)); [|lia]. cbn [andb]. split; [reflexivity|]. unfold product. cbn [fold_left]. ring.
Qed.

(** ** entries *)
Lemma mapR_map : forall A B (f : A -> res B) (g : A -> B) l, (forall x, In x l -> f x = Ok (g x)) -> mapR_ f l = Ok (map g l).
Proof. intros A B f g. induction l as [|x l IH]; intros H; cbn [mapR_ map]; [reflexivity|]. rewrite (H x (or_introl eq_refl)). cbn [bind]. rewrite IH by (intros y Hy; apply H; right; assumption). reflexivity. Qed.
Lemma mapR_ext : forall A B (f g : A -> res B) l, (forall x, In x l -> f x = g x) -> mapR_ f l = mapR_ g l.
Proof. intros A B f g. induction l as [|x l IH]; intros H; cbn [mapR_]; [reflexivity|]. rewrite (H x (or_introl eq_refl)), IH by (intros y Hy; apply H; right; assumption). reflexivity. Qed.
Definition reads (c : content) (readp readi : Z -> res Z) (readv : Z -> res V) : Prop :=
  (forall j, j <= Z.to_nat (nc_ c) -> readp (Z.of_nat j) = Ok (at_ (couter c) j)) /\
  (forall p, p < length (cvals c) -> readi (Z.of_nat p) = Ok (at_ (cinner c) p)) /\
  (forall p v, nth_error (cvals c) p = Some v -> readv (Z.of_nat p) = Ok v).
Lemma slice_map : forall A B (f : Z -> res B) (g : A -> B) (l : list A) a b, (0 <= a <= b)%Z -> (b <= Z.of_nat (length l))%Z ->
  (forall p x, nth_error l p = Some x -> f (Z.of_nat p) = Ok (g x)) -> mapR_ f (zrange a b) = Ok (map g (slice l a b)).
Proof.
  intros A B f g l a b H L F. unfold zrange, slice. replace (Z.to_nat (b - a)) with (Z.to_nat b - Z.to_nat a) by lia. 
  assert (X : forall n l' k, n <= length l' -> (forall p x, nth_error l' p = Some x -> f (Z.of_nat (k + p)) = Ok (g x)) -> mapR_ f (map (fun i => (Z.of_nat k + Z.of_nat i)%Z) (seq 0 n)) = Ok (map g (firstn n l'))).
  { induction n as [|n IH]; intros l' k Ln Fl; [reflexivity|]. destruct l' as [|x l']; [cbn in Ln; lia|]. cbn [seq map firstn mapR_].
    rewrite Z.add_0_r. pose proof (Fl 0 x eq_refl) as F0. rewrite Nat.add_0_r in F0. rewrite F0. cbn [bind]. rewrite <- seq_shift, map_map.
    rewrite (map_ext _ (fun i => (Z.of_nat (S k) + Z.of_nat i)%Z)) by (intros i; lia). rewrite (IH l' (S k)); [reflexivity|cbn in Ln; lia|].
    intros p y Hy. replace (S k + p) with (k + S p) by lia. apply Fl. exact Hy. }
  rewrite <- (X (Z.to_nat b - Z.to_nat a) (skipn (Z.to_nat a) l) (Z.to_nat a)).
  - f_equal. apply map_ext. intros i. lia.
  - rewrite skipn_length. lia.
  - intros p x Hx. apply F. rewrite <- Hx. clear. revert l. induction (Z.to_nat a) as [|n IH]; intros [|y l]; cbn; auto. destruct p; reflexivity.
Qed.
Lemma combine_nth_error : forall A B (l : list A) (l' : list B) p x y, nth_error (combine l l') p = Some (x, y) <-> nth_error l p = Some x /\ nth_error l' p = Some y.
Proof.
  intros A B. induction l as [|a l IH]; intros [|b l'] [|p] x y; cbn; try (split; [discriminate|intros [? ?]; discriminate]); auto.
  split; [intros E; injection E as -> ->; auto|intros [E F]; injection E as ->; injection F as ->; auto].
Qed.
Lemma entries_ok : forall c rp ri rv, well_formed c -> reads c rp ri rv -> entries rp ri rv (nc_ c) = Ok (triples c).
Proof.
  intros c rp ri rv (_ & _ & LI & _ & O) (Rp & Ri & Rv). unfold entries.
  set (g := fun j => map (fun p => (fst p, j, snd p)) (slice (combine (cinner c) (cvals c)) (at_ (couter c) (Z.to_nat j)) (at_ (couter c) (S (Z.to_nat j))))).
  assert (E : forall j, In j (zrange 0 (nc_ c)) -> (do! a <- rp j; do! b <- rp (j + 1)%Z; mapR_ (fun p => do! i <- ri p; do! v <- rv p; Ok (i, j, v)) (zrange a b)) = Ok (g j)).
  { intros j Hj. unfold zrange in Hj. apply in_map_iff in Hj. destruct Hj as (k & <- & Hk). apply in_seq in Hk. rewrite Z.sub_0_r in Hk. assert (K : k < Z.to_nat (nc_ c)) by lia. destruct (O k K) as (O1 & O2).
    replace (0 + Z.of_nat k)%Z with (Z.of_nat k) by lia. replace (Z.of_nat k + 1)%Z with (Z.of_nat (S k)) by lia. rewrite (Rp k), (Rp (S k)) by lia. cbn [bind]. unfold g. rewrite Nat2Z.id. apply slice_map; [exact O1|rewrite combine_length, LI, Nat.min_id; exact O2|].
    intros p [x y] Hp. apply combine_nth_error in Hp. destruct Hp as [Hx Hy]. rewrite (Ri p), (Rv p y Hy) by (apply nth_error_Some; rewrite Hy; discriminate). cbn [bind fst snd]. unfold at_. rewrite (nth_error_nth _ _ _ Hx). reflexivity. }
  rewrite (mapR_map _ g _ E). cbn [bind]. f_equal. unfold triples, zrange. rewrite Z.sub_0_r, map_map, flat_map_concat_map. f_equal. apply map_ext. intros j. unfold g. rewrite Z.add_0_l, Nat2Z.id. reflexivity.
Qed.
Lemma entries_ext : forall rp ri rv rp' ri' rv' n, (forall q, rp q = rp' q) -> (forall q, ri q = ri' q) -> (forall q, rv q = rv' q) -> @entries V rp ri rv n = entries rp' ri' rv' n.
Proof.
  intros rp ri rv rp' ri' rv' n P I X. unfold entries. f_equal. apply mapR_ext. intros j _. rewrite !P. destruct (rp' j); cbn [bind]; try reflexivity. destruct (rp' (j + 1)%Z); cbn [bind]; try reflexivity.
  apply mapR_ext. intros p _. rewrite I, X. reflexivity.
Qed.
Lemma load_stored : forall A (f : A -> cell) (h : heap) a l r p x, block h a = Some (map f l ++ r) -> (f x <> Unset V) -> nth_error l p = Some x -> load h a (Z.of_nat p) = Ok (f x).
Proof.
  intros A f h a l r p x B N E. rewrite (load_nth _ _ _ B). rewrite nth_error_app1 by (rewrite map_length; apply nth_error_Some; rewrite E; discriminate). rewrite (map_nth_error f p l E). destruct (f x); try reflexivity. contradiction.
Qed.
Lemma nth_error_at : forall l j, j < length l -> nth_error l j = Some (at_ l j).
Proof. intros l j H. unfold at_. apply nth_error_nth'. assumption. Qed.
Lemma holds_reads : forall h m (c : content), well_formed c -> holds h m c -> reads c (load_int h (outer m)) (load_int h (inner m)) (load_val h (vals m)).
Proof.
  intros h m c (_ & LO & LI & _) (_ & _ & _ & _ & (r1 & B1) & (r2 & B2) & (r3 & B3)). split; [|split].
  - intros j Hj. unfold load_int. rewrite (@load_stored _ (@CI V) _ _ _ _ j (at_ (couter c) j) B1); [reflexivity|discriminate|apply nth_error_at; lia].
  - intros p Hp. unfold load_int. rewrite (@load_stored _ (@CI V) _ _ _ _ p (at_ (cinner c) p) B2); [reflexivity|discriminate|apply nth_error_at; lia].
  - intros p v Hv. unfold load_val. rewrite (@load_stored _ (@CV V) _ _ _ _ p v B3); [reflexivity|discriminate|exact Hv].
Qed.
Lemma holds_entries : forall h m (c : content), well_formed c -> holds h m c -> sparse_entries h m = Ok (triples c).
Proof. intros h m c W H. unfold sparse_entries. replace (scols m) with (nc_ c) by (symmetry; apply H). apply entries_ok; [assumption|apply holds_reads; assumption]. Qed.

(** ** sparse matrices *)
Lemma vector_spec : forall v const t (h : heap) a cs size, block h a = Some cs -> (1 <= size < 2 ^ 31)%Z -> (size <= Z.of_nat (length cs))%Z ->
  exists h' r, convert_vector v const t h a size = Ok (h', r) /\ off r = 0%Z /\ shape r = [size] /\ strides r = [1%Z] /\ ty r = t /\ aligned r = true /\
    (forall i, (0 <= i < size)%Z -> item h' r [i] = load h a i) /\ (forall b, b < length h -> block h' b = block h b) /\ length h <= length h' /\
    match v with View => h' = h /\ buf r = a /\ writeable r = negb const | Copy => h' = h ++ [Some (copied cs (Z.to_nat size) (Z.to_nat size))] /\ buf r = length h /\ writeable r = true /\ owns r = true end.
Proof.
  intros v const t h a cs size B S L. destruct (vector_product S) as [P1 P2]. destruct (@convert_spec v const t h a cs size 1 [size] B S L eq_refl P1 P2) as (h' & r & E & O & Sh & St & T & A & I & F & G & M).
  exists h', r. split; [exact E|]. cbn [fstrides] in St. do 5 (split; [assumption|]). split; [|auto]. intros i Hi. unfold item. rewrite O, St. cbn [dot]. rewrite <- I by assumption. f_equal. ring.
Qed.
Lemma convert_sparse_spec : forall v const h m (c : content), well_formed c -> holds h m c -> cvals c <> [] ->
  exists h' r, convert_sparse v const h m = Ok (h', r) /\ crows r = nr_ c /\ ccols r = nc_ c /\
    reads c (item_int h' (indptr r)) (item_int h' (indices r)) (item_val h' (data r)) /\
    (vector (indptr r) (nc_ c + 1) /\ vector (indices r) (nnz m) /\ vector (data r) (nnz m)) /\
    (ty (indptr r) = TInt /\ ty (indices r) = TInt /\ ty (data r) = TScalar) /\ (order_and_alignment (indptr r) = true /\ order_and_alignment (indices r) = true /\ order_and_alignment (data r) = true) /\
    (off (indptr r) = 0 /\ off (indices r) = 0 /\ off (data r) = 0)%Z /\ (strides (indptr r) = [1] /\ strides (indices r) = [1] /\ strides (data r) = [1])%Z /\
    (forall b, b < length h -> block h' b = block h b) /\
    match v with View => h' = h /\ buf (indptr r) = outer m /\ buf (indices r) = inner m /\ buf (data r) = vals m /\ writeable (data r) = negb const
               | Copy => buf (indptr r) = length h /\ buf (indices r) = S (length h) /\ buf (data r) = S (S (length h)) end.
Proof.
  intros v const h m c W H NE. pose proof W as ((WR & WC) & LO & LI & LV & OK). pose proof (holds_reads W H) as (Rp & Ri & Rv).
  destruct H as (Er & Ec & En & Cm & (r1 & B1) & (r2 & B2) & (r3 & B3)). unfold convert_sparse. rewrite Cm. cbn [negb].
  assert (NZ : (1 <= nnz m < 2 ^ 31)%Z) by (rewrite En; destruct (cvals c); [contradiction|cbn in *; lia]).
  destruct (@vector_spec v const TInt h (outer m) _ (scols m + 1) B1) as (h1 & a1 & E1 & O1 & Sh1 & St1 & T1 & A1 & I1 & F1 & G1 & M1); [lia|rewrite app_length, map_length, LO; lia|]. rewrite E1. cbn [bind fst snd].
  pose proof (block_lt _ _ B2) as L2. pose proof (block_lt _ _ B3) as L3. assert (B2' := B2). rewrite <- F1 in B2' by assumption.
  destruct (@vector_spec v const TInt h1 (inner m) _ (nnz m) B2') as (h2 & a2 & E2 & O2 & Sh2 & St2 & T2 & A2 & I2 & F2 & G2 & M2); [lia|rewrite app_length, map_length, LI; lia|]. rewrite E2. cbn [bind fst snd].
  assert (B3' := B3). rewrite <- F1 in B3' by assumption. rewrite <- F2 in B3' by lia.
  destruct (@vector_spec v const TScalar h2 (vals m) _ (nnz m) B3') as (h3 & a3 & E3 & O3 & Sh3 & St3 & T3 & A3 & I3 & F3 & G3 & M3); [lia|rewrite app_length, map_length; lia|]. rewrite E3. cbn [bind fst snd].
  exists h3. eexists. split; [reflexivity|]. cbn [crows ccols indptr indices data]. split; [rewrite Er; apply int_id; lia|]. split; [rewrite Ec; apply int_id; lia|].
  assert (X1 : buf a1 < length h1) by (clear - B1 M1; pose proof (block_lt _ _ B1); destruct v; destruct M1 as (-> & -> & _); rewrite ?app_length; cbn; lia).
  assert (X2 : buf a2 < length h2) by (clear - B2' M2; pose proof (block_lt _ _ B2'); destruct v; destruct M2 as (-> & -> & _); rewrite ?app_length; cbn; lia).
  assert (fr : forall n, (0 <= n)%Z -> forall a, shape a = [n] -> strides a = [1%Z] -> aligned a = true -> order_and_alignment a = true).
  { intros n Hn a S1 S2 S3. unfold order_and_alignment, fcontig. rewrite S1, S2, S3. cbn [fcontig_from existsb]. destruct (n =? 1)%Z; cbn; rewrite ?orb_true_r; reflexivity. }
  split; [split; [|split]|split; [|split; [|split; [|split; [|split; [|split]]]]]].
  - intros j Hj. rewrite <- Rp by assumption. unfold item_int, load_int. rewrite <- I1 by lia. unfold item. rewrite (@load_ext h3 h1 (buf a1) (buf a1)); [reflexivity|]. rewrite F3 by lia. apply F2. assumption.
  - intros p Hp. rewrite <- Ri by assumption. unfold item_int, load_int. unfold item. rewrite (@load_ext h3 h2 (buf a2) (buf a2)) by (apply F3; assumption). fold (item h2 a2 [Z.of_nat p]). rewrite I2 by lia. rewrite (@load_ext h1 h (inner m) (inner m)) by (apply F1; assumption). reflexivity.
  - intros p x Hx. rewrite <- (Rv p x Hx). assert (p < length (cvals c)) by (apply nth_error_Some; rewrite Hx; discriminate). unfold item_val, load_val. rewrite I3 by lia. rewrite (@load_ext h2 h (vals m) (vals m)); [reflexivity|]. rewrite F2 by lia. apply F1. assumption.
  - unfold vector. rewrite Sh1, Sh2, Sh3, St1, St2, St3, Ec. repeat split; eauto.
  - auto.
  - repeat split; [apply (@fr (scols m + 1)%Z)|apply (@fr (nnz m))|apply (@fr (nnz m))]; auto; lia.
  - auto.
  - auto.
  - intros b Hb. rewrite F3 by lia. rewrite F2 by lia. apply F1. assumption.
  - destruct v.
    + destruct M1 as (-> & M1 & _), M2 as (-> & M2 & _), M3 as (-> & M3 & M4). auto.
    + destruct M1 as (-> & M1 & _), M2 as (-> & M2 & _), M3 as (-> & M3 & _). rewrite M1, M2, M3, !app_length. cbn. repeat split; lia.
Qed.
(** ** reading arrays of Python *)
Lemma fcontig_item : forall (h : heap) a n q, vector a n -> fcontig a = true -> (0 <= q < n)%Z -> item h a [q] = load h (buf a) (off a + q).
Proof.
  intros h a n q (S & s & St) F H. unfold item, fcontig in *. rewrite S, St in *. cbn [existsb fcontig_from dot] in *. f_equal. rewrite orb_false_r in F. destruct (Z.eqb_spec 0 n); [lia|]. cbn [orb] in F.
  destruct (Z.eqb_spec n 1); [replace q with 0%Z by lia; lia|]. rewrite andb_true_r in F. apply Z.eqb_eq in F. subst s. lia.
Qed.
End P.
