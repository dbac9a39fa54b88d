(** C83, C84: vectors and matrices that are passed between C++ and Python. *)
From Coq Require Import ZArith Bool List Lia.
Import ListNotations.
From Verif Require Import Base NumpyModel NumpySpec NumpyProofs NumpyProofs2.
Set Implicit Arguments.

Section C.
Variable V : Type.
Notation heap := (heap V).
Notation content := (content V).
Notation world := (world V).
(** ** C83: values *)
(** C83: a vector of 1 to 2^31-1 elements arrives in Python with its length, its type and all its elements, copied or viewed *)
Theorem C83_vector : forall v const t (h : heap) a cs n, block h a = Some cs -> (1 <= n < 2 ^ 31)%Z -> (n <= Z.of_nat (length cs))%Z ->
  exists h' r, convert_vector v const t h a n = Ok (h', r) /\ shape r = [n] /\ ty r = t /\ forall i, (0 <= i < n)%Z -> item h' r [i] = load h a i.
Proof. intros v const t h a cs n B S L. destruct (@vector_spec V v const t h a cs n B S L) as (h' & r & E & _ & Sh & _ & T & _ & I & _). exists h', r. auto. Qed.
(** C83: a dense matrix arrives with its shape; the element in row i and column j is the one that Eigen stores at i + j*rows *)
Theorem C83_dense : forall v const (h : heap) a cs rows cols, block h a = Some cs -> (0 <= rows)%Z -> (0 <= cols)%Z -> (1 <= rows * cols < 2 ^ 31)%Z -> (rows * cols <= Z.of_nat (length cs))%Z ->
  exists h' r, convert_matrix v const h a rows cols = Ok (h', r) /\ shape r = [rows; cols] /\ ty r = TScalar /\
    forall i j, (0 <= i < rows)%Z -> (0 <= j < cols)%Z -> item h' r [i; j] = load h a (i + j * rows).
Proof.
  intros v const h a cs rows cols B R C S L. destruct (matrix_product R C S) as [P1 P2]. destruct (@convert_spec V v const TScalar h a cs (rows * cols) 2 [rows; cols] B S L eq_refl P1 P2) as (h' & r & E & O & Sh & St & T & _ & I & _).
  exists h', r. split; [exact E|]. split; [exact Sh|]. split; [exact T|]. intros i j Hi Hj. unfold item. rewrite O, St. cbn [fstrides dot]. rewrite <- I by nia. f_equal. ring.
Qed.
(** C83: a sparse matrix with at least one stored element arrives with its shape and exactly its entries *)
Theorem C83_sparse : forall v const (h : heap) m c, well_formed c -> holds h m c -> cvals c <> [] -> exists h' r, convert_sparse v const h m = Ok (h', r) /\ sees h' r c.
Proof.
  intros v const h m c W H N. destruct (@convert_sparse_spec V v const h m c W H N) as (h' & r & E & R & C & Rd & _). exists h', r. split; [exact E|]. split; [exact R|]. split; [exact C|].
  unfold csc_entries. rewrite C. apply entries_ok; assumption.
Qed.
(** every element lies where Eigen's column-major map looks for it: index i of a vector i elements, index (i,j) of a matrix i + j*rows elements behind
    the first one (the stride of a dimension with a single index does not matter; [offset]: elements behind the first one) *)
Definition offset (a : array) (ix : list Z) : Z := fold_right Z.add 0%Z (map (fun p => fst p * snd p)%Z (List.combine ix (strides a))).
Definition in_fortran_order (a : array) : Prop :=
  match shape a with
  | [n] => forall i, (0 <= i < n)%Z -> offset a [i] = i
  | [r; c] => forall i j, (0 <= i < r)%Z -> (0 <= j < c)%Z -> offset a [i; j] = (i + j * r)%Z
  | _ => True
  end.
Lemma fortran_fcontig : forall a, shape a <> [] -> length (shape a) <= 2 -> length (strides a) = length (shape a) -> Forall (fun d => 0 <= d)%Z (shape a) ->
  (fcontig a = true <-> in_fortran_order a).
Proof.
  intros a NE L2 LS F. unfold fcontig, in_fortran_order, offset. destruct (shape a) as [|r [|c [|d l]]]; [contradiction| | |cbn in L2; lia]; cbn in LS.
  - destruct (strides a) as [|s [|]]; try (cbn in LS; lia). inversion_clear F as [|? ? F1 _]. cbn [existsb fcontig_from List.combine map fst snd fold_right orb].
    destruct (Z.eqb_spec 0 r) as [<-|N0]; cbn [orb]; [split; auto; intros _ i Hi; lia|]. destruct (Z.eqb_spec r 1) as [->|N1].
    + split; auto. intros _ i Hi. replace i with 0%Z by lia. reflexivity.
    + rewrite andb_true_r, Z.eqb_eq. split; [intros -> i Hi; lia|]. intros H. specialize (H 1%Z ltac:(lia)). lia.
  - destruct (strides a) as [|s [|s' [|]]]; try (cbn in LS; lia). inversion_clear F as [|? ? F1 F']. inversion_clear F' as [|? ? F2 _]. cbn [existsb fcontig_from List.combine map fst snd fold_right orb].
    destruct (Z.eqb_spec 0 r) as [<-|N0]; cbn [orb]; [split; auto; intros _ i j Hi; lia|]. destruct (Z.eqb_spec 0 c) as [<-|M0]; cbn [orb]; [split; auto; intros _ i j Hi Hj; lia|].
    destruct (Z.eqb_spec r 1) as [->|N1], (Z.eqb_spec c 1) as [->|M1]; rewrite ?andb_true_r.
    + split; auto. intros _ i j Hi Hj. replace i with 0%Z by lia. replace j with 0%Z by lia. reflexivity.
    + rewrite Z.eqb_eq. split; [intros -> i j Hi Hj; replace i with 0%Z by lia; lia|]. intros H. specialize (H 0%Z 1%Z ltac:(lia) ltac:(lia)). lia.
    + rewrite Z.eqb_eq. split; [intros -> i j Hi Hj; replace j with 0%Z by lia; lia|]. intros H. specialize (H 1%Z 0%Z ltac:(lia) ltac:(lia)). lia.
    + rewrite andb_true_iff, !Z.eqb_eq. split; [intros [-> ->] i j Hi Hj; lia|]. intros H. pose proof (H 1%Z 0%Z ltac:(lia) ltac:(lia)). pose proof (H 0%Z 1%Z ltac:(lia) ltac:(lia)). lia.
Qed.
(** C83: an array of Python (with a stride per dimension) is accepted exactly if it is in Fortran order, aligned, of the scalar's type and has one or two dimensions; everything else but an array without dimensions is rejected with an exception *)
Theorem C83_accepted : forall a, shape a <> [] -> length (strides a) = length (shape a) -> Forall (fun d => 0 <= d)%Z (shape a) ->
  ((exists m, as_matrix a = Ok m) <-> length (shape a) <= 2 /\ in_fortran_order a /\ aligned a = true /\ ty a = TScalar) /\
  ((forall m, as_matrix a <> Ok m) -> as_matrix a = Throw).
Proof.
  intros a NE LS Fa. assert (FF : length (shape a) <= 2 -> (fcontig a = true <-> in_fortran_order a)) by (intro L2; apply fortran_fcontig; assumption).
  assert (G : ((exists m, as_matrix a = Ok m) <-> fcontig a = true /\ aligned a = true /\ ty a = TScalar /\ length (shape a) <= 2) /\ ((forall m, as_matrix a <> Ok m) -> as_matrix a = Throw)).
  { clear FF Fa LS. unfold as_matrix, as_dense_impl, order_and_alignment. destruct (fcontig a), (aligned a); cbn [andb bind]; try (split; [split; [intros [m H]; discriminate H|intros (A & B & _); discriminate]|reflexivity]).
  destruct (dtype_dec (ty a) TScalar) as [T|T]; cbn [bind]; [|split; [split; [intros [m H]; discriminate H|intros (_ & _ & A & _); contradiction]|reflexivity]].
  destruct (shape a) as [|r [|c [|d l]]]; [contradiction| | |].
  - split; [split; [intros _; auto|intros _; eauto]|]. intros H. exfalso. apply (H _ eq_refl).
  - split; [split; [intros _; auto|intros _; eauto]|]. intros H. exfalso. apply (H _ eq_refl).
  - split; [split; [intros [m H]; discriminate H|intros (_ & _ & _ & A); cbn in A; lia]|reflexivity]. }
  destruct G as [G1 G2]. split; [|exact G2]. rewrite G1. split; [intros (A & B & C & D)|intros (D & A & B & C)]; repeat split; auto; apply FF; assumption.
Qed.
(** the transpose of a 2 x 3 matrix in row-major order is accepted, the matrix itself is not *)
Example C83_accepted_nonvacuous :
  (exists m, as_matrix (Array 0 0 [3; 2]%Z [1; 3]%Z TScalar true true true) = Ok m) /\ as_matrix (Array 0 0 [2; 3]%Z [3; 1]%Z TScalar true true true) = Throw /\
  ~ in_fortran_order (Array 0 0 [2; 3]%Z [3; 1]%Z TScalar true true true) /\ in_fortran_order (Array 0 0 [3; 2]%Z [1; 3]%Z TScalar true true true).
Proof.
  split; [unfold as_matrix, as_dense_impl; cbn; destruct (dtype_dec TScalar TScalar) as [_|N]; [eexists; reflexivity|contradiction N; reflexivity]|]. split; [reflexivity|].
  unfold in_fortran_order, offset; cbn [shape strides List.combine map fst snd fold_right]. split; [intro H; specialize (H 1%Z 0%Z ltac:(lia) ltac:(lia)); lia|intros; lia].
Qed.
(** C83: a matrix of Python that is accepted has the same shape and elements in C++ *)
Theorem C83_as_dense : forall (h : heap) a rows cols m, shape a = [rows; cols] -> length (strides a) = 2 -> as_matrix a = Ok m ->
  mrows m = rows /\ mcols m = cols /\ forall i j, (0 <= i < rows)%Z -> (0 <= j < cols)%Z -> coeff h m i j = item h a [i; j].
Proof.
  intros h a rows cols m S LS H. unfold as_matrix in H. apply bind_inv in H. destruct H as (u & H1 & H). rewrite S in H. injection H as <-. cbn [mrows mcols]. split; [reflexivity|]. split; [reflexivity|].
  unfold as_dense_impl, order_and_alignment in H1. destruct (fcontig a) eqn:F; [|discriminate H1]. intros i j Hi Hj. unfold coeff, item. cbn [mbuf moff mrows]. f_equal.
  destruct (strides a) as [|s [|s' [|]]] eqn:St; try discriminate LS. unfold fcontig in F. rewrite S, St in F. cbn [existsb fcontig_from dot] in *. 
  destruct (Z.eqb_spec 0 rows); [lia|]. destruct (Z.eqb_spec 0 cols); [lia|]. cbn [orb] in F.
  destruct (Z.eqb_spec rows 1), (Z.eqb_spec cols 1); rewrite ?andb_true_r in F; try (apply andb_prop in F; destruct F as [F1 F2]; apply Z.eqb_eq in F1); try apply Z.eqb_eq in F2; try apply Z.eqb_eq in F.
  - replace i with 0%Z by lia. replace j with 0%Z by lia. ring.
  - replace i with 0%Z by lia. subst. ring.
  - replace j with 0%Z by lia. subst. ring.
  - rewrite F1, F2. ring.
Qed.
(** C83: the same for a vector *)
Theorem C83_as_vector : forall (h : heap) a n m, shape a = [n] -> length (strides a) = 1 -> as_vector a = Ok m \/ as_matrix a = Ok m ->
  mrows m = n /\ mcols m = 1%Z /\ forall i, (0 <= i < n)%Z -> coeff h m i 0 = item h a [i].
Proof.
  intros h a n m S LS H. assert (H' : bind (as_dense_impl a) (fun _ => Ok (Map (buf a) (off a) n 1)) = Ok m) by (unfold as_vector, as_matrix in H; rewrite S in H; destruct H; assumption). clear H. apply bind_inv in H'. destruct H' as (u & H1 & H). injection H as <-. cbn [mrows mcols]. split; [reflexivity|]. split; [reflexivity|].
  unfold as_dense_impl, order_and_alignment in H1. destruct (fcontig a) eqn:F; [|discriminate H1]. intros i Hi. destruct (strides a) as [|s [|]] eqn:St; try discriminate LS.
  rewrite (@fcontig_item V h a n i); [|split; [assumption|exists s; assumption]|assumption|assumption]. unfold coeff. cbn [mbuf moff mrows]. f_equal. lia.
Qed.
(** the sparse matrix of Python with 32 bit indices has this content *)
Definition py_holds (h : heap) (m : csc) (c : content) : Prop :=
  crows m = nr_ c /\ ccols m = nc_ c /\ ty (indptr m) = TInt /\ ty (indices m) = TInt /\
  vector (indptr m) (nc_ c + 1) /\ vector (indices m) (Z.of_nat (length (cvals c))) /\ vector (data m) (Z.of_nat (length (cvals c))) /\
  (forall j x, nth_error (couter c) j = Some x -> item h (indptr m) [Z.of_nat j] = Ok (CI V x)) /\
  (forall p x, nth_error (cinner c) p = Some x -> item h (indices m) [Z.of_nat p] = Ok (CI V x)) /\
  (forall p x, nth_error (cvals c) p = Some x -> item h (data m) [Z.of_nat p] = Ok (CV x)).
(** C83: a sparse matrix of Python with 32 bit indices that is accepted has the same shape and entries in C++ *)
Theorem C83_as_sparse : forall (h : heap) m c s, well_formed c -> py_holds h m c -> as_sparse m = Ok s -> mr s = nr_ c /\ mc s = nc_ c /\ mnnz s = Z.of_nat (length (cvals c)) /\ smap_entries h s = Ok (triples c).
Proof.
  intros h m c s W (R & C & T1 & T2 & V1 & V2 & V3 & I1 & I2 & I3) H. unfold as_sparse in H.
  destruct (order_and_alignment (data m)) eqn:O3; [|discriminate H]. destruct (order_and_alignment (indices m)) eqn:O2; [|discriminate H]. destruct (order_and_alignment (indptr m)) eqn:O1; [|discriminate H]. cbn [andb] in H.
  assert (S := V3). destruct S as (S & _). rewrite S in H. destruct (dtype_dec (ty (data m)) TScalar) as [T|T]; [|discriminate H]. injection H as <-. cbn [mr mc mnnz]. do 3 (split; [assumption || reflexivity|]).
  unfold smap_entries. cbn [pouter pinner pval mc]. rewrite C. unfold order_and_alignment in *. apply andb_prop in O1, O2, O3. destruct O1 as [F1 _], O2 as [F2 _], O3 as [F3 _].
  pose proof W as ((_ & WC) & LO & LI & _). apply entries_ok; [assumption|]. split; [|split].
  - intros j Hj. unfold read_int. rewrite T1. rewrite <- (@fcontig_item V h (indptr m) (nc_ c + 1) (Z.of_nat j)); [|assumption|assumption|lia]. rewrite (I1 j (at_ (couter c) j)); [reflexivity|]. apply nth_error_at. lia.
  - intros p Hp. unfold read_int. rewrite T2. rewrite <- (@fcontig_item V h (indices m) (Z.of_nat (length (cvals c))) (Z.of_nat p)); [|assumption|assumption|lia]. rewrite (I2 p (at_ (cinner c) p)); [reflexivity|]. apply nth_error_at. lia.
  - intros p x Hx. assert (p < length (cvals c)) by (apply nth_error_Some; rewrite Hx; discriminate). unfold read_val. rewrite <- (@fcontig_item V h (data m) (Z.of_nat (length (cvals c))) (Z.of_nat p)); [|assumption|assumption|lia]. rewrite (I3 p x Hx). reflexivity.
Qed.
(** C83: a dense or sparse matrix that Python gets and gives back is accepted and has the same elements *)
Theorem C83_roundtrip_dense : forall v const (h : heap) a cs rows cols, block h a = Some cs -> (0 <= rows)%Z -> (0 <= cols)%Z -> (1 <= rows * cols < 2 ^ 31)%Z -> (rows * cols <= Z.of_nat (length cs))%Z ->
  exists h' r m, convert_matrix v const h a rows cols = Ok (h', r) /\ as_matrix r = Ok m /\ mrows m = rows /\ mcols m = cols /\
    forall i j, (0 <= i < rows)%Z -> (0 <= j < cols)%Z -> coeff h' m i j = load h a (i + j * rows).
Proof.
  intros v const h a cs rows cols B R C S L. destruct (matrix_product R C S) as [P1 P2]. destruct (@convert_spec V v const TScalar h a cs (rows * cols) 2 [rows; cols] B S L eq_refl P1 P2) as (h' & r & E & O & Sh & St & T & A & I & _).
  exists h', r, (Map (buf r) (off r) rows cols). split; [exact E|]. split.
  - unfold as_matrix, as_dense_impl, order_and_alignment, fcontig. rewrite Sh, St, A, T. cbn [existsb fstrides fcontig_from]. rewrite !Z.mul_1_l, !Z.eqb_refl. destruct (dtype_dec TScalar TScalar) as [_|N]; [|contradiction N; reflexivity].
    destruct (Z.eqb_spec rows 1) as [->|]; cbn; rewrite ?orb_true_r, ?andb_true_r; try reflexivity; destruct (cols =? 1)%Z; cbn; rewrite ?orb_true_r; reflexivity.
  - cbn [mrows mcols]. split; [reflexivity|]. split; [reflexivity|]. intros i j Hi Hj. unfold coeff. cbn [mbuf moff mrows]. rewrite O. rewrite <- I by nia. f_equal. 
Qed.
Theorem C83_roundtrip_sparse : forall v const (h : heap) m c, well_formed c -> holds h m c -> cvals c <> [] ->
  exists h' r s, convert_sparse v const h m = Ok (h', r) /\ as_sparse r = Ok s /\ mr s = nr_ c /\ mc s = nc_ c /\ smap_entries h' s = Ok (triples c).
Proof.
  intros v const h m c W H N. destruct (@convert_sparse_spec V v const h m c W H N) as (h' & r & E & R & C & (Rp & Ri & Rv) & ((S1 & x1) & (S2 & x2) & (S3 & x3)) & (T1 & T2 & T3) & (O1 & O2 & O3) & (F1 & F2 & F3) & (St1 & St2 & St3) & _).
  exists h', r. eexists. split; [exact E|]. split; [unfold as_sparse; rewrite O1, O2, O3, S3, T3; cbn [andb]; destruct (dtype_dec TScalar TScalar) as [_|X]; [reflexivity|contradiction X; reflexivity]|].
  cbn [mr mc]. split; [exact R|]. split; [exact C|]. unfold smap_entries. cbn [pouter pinner pval mc]. rewrite C. apply entries_ok; [assumption|]. unfold item_int, item_val, item in *. rewrite F1, F2, F3, St1, St2, St3 in *. cbn [dot] in *. unfold reads, read_int, read_val. rewrite T1, T2, F1, F2, F3.
  split; [|split].
  - intros j Hj. specialize (Rp j Hj). replace (0 + (Z.of_nat j * 1 + 0))%Z with (0 + Z.of_nat j)%Z in Rp by ring. exact Rp.
  - intros j Hj. specialize (Ri j Hj). replace (0 + (Z.of_nat j * 1 + 0))%Z with (0 + Z.of_nat j)%Z in Ri by ring. exact Ri.
  - intros j x Hj. specialize (Rv j x Hj). replace (0 + (Z.of_nat j * 1 + 0))%Z with (0 + Z.of_nat j)%Z in Rv by ring. exact Rv.
Qed.
(** C83: without elements there is an exception that nobody catches: an empty vector, an empty matrix and a sparse matrix that stores no element (such as a Hamiltonian that is zero) *)
Theorem C86_empty_refuted : forall v const t (h : heap) a,
  convert_vector v const t h a 0 = Throw /\ (forall rows, convert_matrix v const h a rows 0 = Throw) /\
  (forall m c, well_formed c -> holds h m c -> cvals c = [] -> convert_sparse v const h m = Throw).
Proof.
  intros v const t h a. split; [reflexivity|]. split; [intros rows; unfold convert_matrix, convert; rewrite Z.mul_0_r; reflexivity|].
  intros m c ((_ & WC) & LO & _) (_ & Ec & En & Cm & (r1 & B1) & _) N. unfold convert_sparse. rewrite Cm. cbn [negb]. rewrite N in En. cbn in En.
  destruct (@vector_spec V v const TInt h (outer m) _ (scols m + 1) B1) as (h1 & a1 & E1 & _); [lia|rewrite app_length, map_length, LO; lia|]. rewrite E1. cbn [bind fst snd]. rewrite En. reflexivity.
Qed.
(** C83: an array without dimensions (numpy.array(1.)) is not rejected; its shape is read although there is none *)
Theorem C85_scalar_array_refuted : forall b o, let a := Array b o [] [] TScalar true true true in as_matrix a = UB /\ as_vector a = UB.
Proof. intros b o. cbv zeta. unfold as_matrix, as_vector, as_dense_impl. cbn. destruct (dtype_dec TScalar TScalar) as [_|N]; [auto|contradiction N; reflexivity]. Qed.
(** C83: of a vector of 2^32+1 elements only the first arrives; the others are unset memory *)
Theorem C86_python_refuted : forall (h : heap) a cs, block h a = Some cs -> Z.of_nat (length cs) = (2 ^ 32 + 1)%Z ->
  exists h' r, convert_vector Copy false TScalar h a (2 ^ 32 + 1) = Ok (h', r) /\ shape r = [2 ^ 32 + 1]%Z /\ item h' r [1%Z] = UB.
Proof.
  intros h a cs B L. unfold convert_vector, convert. replace (int (2 ^ 32 + 1)) with 1%Z by reflexivity. change (check_array_sanity 1 1 [(2 ^ 32 + 1)%Z]) with (@Ok unit tt). cbn [bind]. rewrite B, L. change (2 ^ 32 + 1 <? 1)%Z with false. cbn iota. unfold alloc.
  eexists. eexists. split; [reflexivity|]. cbn [shape]. split; [reflexivity|]. unfold item. cbn [buf off strides fstrides dot]. change (0 + (1 * 1 + 0))%Z with (Z.of_nat 1). rewrite (@load_nth V _ _ _ 1 (@block_new V _ _)). unfold copied.
  change (product [(2 ^ 32 + 1)%Z]) with (2 ^ 32 + 1)%Z. assert (E : (2 ^ 32 + 1 = 2 + (2 ^ 32 - 1))%Z) by reflexivity. rewrite E. rewrite Z2Nat.inj_add by lia. generalize (Z.to_nat (2 ^ 32 - 1)). intros N. clear E. change (Z.to_nat 2) with 2. change (Z.to_nat 1) with 1. destruct cs as [|x cs]; [cbn in L; lia|]. cbn [firstn app repeat Nat.add nth_error]. reflexivity.
Qed.
(** C83: a sparse matrix with 64 bit indices is not rejected but its indices are misread: the identity matrix with two rows loses one diagonal element *)
Theorem C85_index_type_refuted : forall one : V,
  let vec b n t := Array b 0 [n] [1%Z] t true true true in
  let h : heap := [Some [CV one; CV one]; Some [CI V 0; CI V 1]; Some [CI V 0; CI V 1; CI V 2]] in
  let m := Csc (vec 0 2%Z TScalar) (vec 1 2%Z TLong) (vec 2 3%Z TLong) 2 2 in
  csc_entries h m = Ok [(0%Z, 0%Z, one); (1%Z, 1%Z, one)] /\ exists s, as_sparse m = Ok s /\ smap_entries h s = Ok [(0%Z, 1%Z, one)].
Proof.
  intros one. cbv zeta. split; [reflexivity|]. eexists. split; [unfold as_sparse; cbn; destruct (dtype_dec TScalar TScalar) as [_|N]; [reflexivity|contradiction N; reflexivity]|]. reflexivity.
Qed.

(** ** C84: lifetimes *)
(** C84: a vector that was returned by value keeps its elements whatever happens to the system, as long as Python does not assign to it *)
Theorem C84_value : forall (w w' : world) xs es, within w -> (1 <= Z.of_nat (length xs) < 2 ^ 31)%Z -> history w (GetVector xs :: es) = Ok w' ->
  (forall i v, ~ In (PyWrite (length (objs w)) i v) es) ->
  exists a, nth_error (objs w') (length (objs w)) = Some (PyVector a) /\ shape a = [Z.of_nat (length xs)] /\
    forall i x, nth_error xs i = Some x -> item (hp w') a [Z.of_nat i] = Ok (CV x).
Proof.
  intros w w' xs es W L H N. cbn [history] in H. apply bind_inv in H. destruct H as (w1 & H1 & H). pose proof (@step_inv _ _ _ _ H1 W) as (W1 & _).
  cbn [step] in H1. unfold alloc in H1. apply bind_inv in H1. destruct H1 as ([h1 r] & H1 & E). 
  set (h0 := hp w ++ [Some (map (CV (V:=V)) xs)]) in *. assert (B0 : block h0 (length (hp w)) = Some (map (CV (V:=V)) xs)) by apply block_new.
  destruct (@vector_spec V Copy false TScalar h0 _ _ _ B0 L) as (h' & r' & E' & O & Sh & St & _ & _ & I & F & _ & M & Bf & _); [rewrite map_length; lia|]. rewrite E' in H1. injection H1 as <- <-. injection E as <-. cbn [fst snd] in *.
  assert (L0 : length h0 = S (length (hp w))) by (unfold h0; rewrite app_length; cbn; lia). assert (L1 : length h' = S (S (length (hp w)))) by (rewrite M, app_length, L0; cbn; lia).
  destruct (@apart_keeps V es _ w' (length (objs w)) (buf r') H W1) as (Bk & Ob).
  - unfold apart. cbn [hp ham objs]. rewrite free_length, L1, Bf, L0. split; [lia|]. destruct W as (WH & WO). split.
    + intros m E. specialize (WH m E). lia.
    + intros k o E Nk. assert (k < length (objs w)). { assert (X : k < length (objs w ++ [PyVector r'])) by (apply nth_error_Some; rewrite E; discriminate). rewrite app_length in X. cbn in X. lia. }
      rewrite nth_error_app1 in E by assumption. apply nth_error_In in E. specialize (WO o E). unfold pbuf. destruct o; lia.
  - cbn [objs]. rewrite app_length. cbn. lia.
  - assumption.
  - exists r'. cbn [hp objs] in *. rewrite Ob, nth_error_app2, Nat.sub_diag by lia. split; [reflexivity|]. split; [exact Sh|]. intros i x Hx.
    assert (Hi : i < length xs) by (apply nth_error_Some; rewrite Hx; discriminate).
    unfold item. rewrite (@load_ext V (hp w') h' (buf r') (buf r')).
    + fold (item h' r' [Z.of_nat i]). rewrite I by lia. rewrite (@load_nth V _ _ _ i B0). rewrite (map_nth_error _ _ _ Hx). reflexivity.
    + rewrite Bk. unfold free. apply block_set_other. rewrite Bf, L0. lia.
Qed.
(** C84: as long as the system is not recomputed or destroyed, the matrix that Python has got is the one of the system: at any later time Python sees the same entries as C++ *)
Theorem C84_view : forall (w w' : world) m c es, within w -> ham w = Some m -> well_formed c -> holds (hp w) m c -> cvals c <> [] ->
  history w (GetMatrix V :: es) = Ok w' -> (forall e, In e es -> match e with Recompute _ _ | Destroy _ => False | _ => True end) ->
  exists r m', nth_error (objs w') (length (objs w)) = Some (PyMatrix r) /\ ham w' = Some m' /\ csc_entries (hp w') r = sparse_entries (hp w') m' /\
    ((forall k i v, ~ In (PyWrite k i v) es) -> sees (hp w') r c).
Proof.
  intros w w' m c es W Hm Wc Ho NE H Q. cbn [history] in H. apply bind_inv in H. destruct H as (w1 & H1 & H). pose proof (@step_inv _ _ _ _ H1 W) as (W1 & _).
  cbn [step] in H1. rewrite Hm in H1. apply bind_inv in H1. destruct H1 as ([h1 r] & H1 & E). cbn [fst snd] in E. injection E as <-.
  destruct (@convert_sparse_spec V View false (hp w) m c Wc Ho NE) as (h' & r' & E' & R & C & Rd & _ & _ & _ & (F1 & F2 & F3) & (S1 & S2 & S3) & _ & (-> & B1 & B2 & B3 & _)). rewrite E' in H1. injection H1 as <- <-.
  assert (Q' : Forall (@quiet V) es) by (apply Forall_forall; intros e He; specialize (Q e He); destruct e; cbn; auto).
  destruct (@quiet_ham V es _ w' H W1 Q') as (Hh & Ob). cbn [ham objs] in *. exists r', m. rewrite Hh. split; [apply Ob; rewrite nth_error_app2, Nat.sub_diag by lia; reflexivity|]. split; [reflexivity|].
  assert (EE : csc_entries (hp w') r' = sparse_entries (hp w') m).
  { unfold csc_entries, sparse_entries. rewrite C. replace (scols m) with (nc_ c) by (symmetry; apply Ho). apply entries_ext; intros q; unfold item_int, item_val, item, load_int, load_val; rewrite ?B1, ?B2, ?B3, ?F1, ?F2, ?F3, ?S1, ?S2, ?S3; cbn [dot]; replace (0 + (q * 1 + 0))%Z with q by ring; reflexivity. }
  split; [exact EE|]. intros NW. split; [exact R|]. split; [exact C|]. rewrite EE.
  assert (Sl : Forall (@silent V) es) by (apply Forall_forall; intros e He; specialize (Q e He); destruct e as [| | | |k i v]; cbn; auto; exact (NW k i v He)).
  destruct W as (WH & _). destruct (WH m Hm) as (L1 & L2 & L3). apply holds_entries; [assumption|].
  destruct Ho as (? & ? & ? & ? & (r1 & X1) & (r2 & X2) & (r3 & X3)). unfold holds. rewrite !(@silent_block V es _ w' _ H W1 Sl) by assumption. cbn [hp]. repeat split; eauto.
Qed.
End C.

(** ** cases *)
(** a system whose Hamiltonian is diag(1, 2) *)
Definition diag (a b : Z) : content Z := Content 2 2 [0; 1; 2]%Z [0; 1]%Z [a; b].
Definition sys : world Z := let (h, m) := place [] (diag 1 2) in World h (Some m) [].
(** what Python sees of its k-th object, and what the system's Hamiltonian is *)
Definition seen (w : world Z) (k : nat) : res (list (Z * Z * Z)) := match nth_error (objs w) k with Some (PyMatrix m) => csc_entries (hp w) m | _ => Throw end.
Definition own (w : world Z) : res (list (Z * Z * Z)) := match ham w with Some m => sparse_entries (hp w) m | None => Throw end.
Definition after {A} (es : list (event Z)) (f : world Z -> res A) : res A := do! w <- history sys es; f w.
(** C84: after a change of the system the matrix that Python still has is invalid memory, or shows the new values although Python asked for the old ones *)
Theorem C84_stale_refuted :
  after [GetMatrix Z] (fun w => seen w 0) = Ok [(0, 0, 1); (1, 1, 2)]%Z /\
  after [GetMatrix Z; Recompute (diag 3 4) false] (fun w => seen w 0) = UB /\
  after [GetMatrix Z; Recompute (diag 3 4) true] (fun w => seen w 0) = Ok [(0, 0, 3); (1, 1, 4)]%Z.
Proof. repeat split. Qed.
(** C84: the matrix of a system that no longer exists (H = System(...).getHamiltonian()) is invalid memory *)
Theorem C84_temporary_refuted : after [GetMatrix Z; Destroy Z] (fun w => seen w 0) = UB.
Proof. reflexivity. Qed.
(** C84: assigning to the matrix in Python changes the Hamiltonian of the system *)
Theorem C84_write_refuted : after [GetMatrix Z; PyWrite 0 1 7%Z] own = Ok [(0, 0, 1); (1, 1, 7)]%Z /\ after [GetMatrix Z] own = Ok [(0, 0, 1); (1, 1, 2)]%Z.
Proof. split; reflexivity. Qed.

(** the hypotheses of the theorems are met *)
Example sys_within : within sys.
Proof. split; cbn; [intros m E; injection E as <-; cbn; lia|intros o []]. Qed.
Example sys_formed : well_formed (diag 1 2) /\ exists m, ham sys = Some m /\ holds (hp sys) m (diag 1 2) /\ cvals (diag 1 2) <> [].
Proof.
  split; [unfold well_formed; cbn; repeat split; try lia; destruct j as [|[|]]; cbn in *; lia|].
  eexists. split; [reflexivity|]. split; [|discriminate]. unfold holds. cbn. repeat split; exists []; reflexivity.
Qed.
Example value_case : exists w', history sys [GetVector [5; 6]%Z; GetMatrix Z; PyWrite 1 0 9%Z; Recompute (diag 3 4) false; Destroy Z] = Ok w'.
Proof. eexists. vm_compute. reflexivity. Qed.
Example view_case : after [GetMatrix Z; GetVector [5; 6]%Z; PyWrite 0 1 7%Z] (fun w => seen w 0) = Ok [(0, 0, 1); (1, 1, 7)]%Z.
Proof. reflexivity. Qed.
(** a 2x3 matrix: Python sees [[1, 3, 5], [2, 4, 6]] *)
Example dense_case : forall v, match convert_matrix v true [Some (map (@CV Z) [1; 2; 3; 4; 5; 6]%Z)] 0 2 3 with
  | Ok (h, a) => map (fun ij => item h a ij) [[0; 0]; [0; 1]; [0; 2]; [1; 0]; [1; 1]; [1; 2]]%Z = map (fun x => Ok (CV x)) [1; 3; 5; 2; 4; 6]%Z | _ => False end.
Proof. intros []; reflexivity. Qed.
(** in C order the same matrix is rejected *)
Example c_order : as_matrix (Array 0 0 [2; 3]%Z [3; 1]%Z TScalar true true true) = Throw.
Proof. reflexivity. Qed.
Example accepted_case : exists m, as_matrix (Array 0 0 [2; 3]%Z [1; 2]%Z TScalar true true true) = Ok m.
Proof. eexists. reflexivity. Qed.
Example py_case : let vec b n t := Array b 0 [n] [1%Z] t true true true in
  let h := [Some (map (@CV Z) [1; 2]%Z); Some (map (CI Z) [0; 1]%Z); Some (map (CI Z) [0; 1; 2]%Z)] in
  let m := Csc (vec 0 2%Z TScalar) (vec 1 2%Z TInt) (vec 2 3%Z TInt) 2 2 in py_holds h m (diag 1 2) /\ exists s, as_sparse m = Ok s.
Proof.
  cbv zeta. split; [|eexists; reflexivity]. unfold py_holds, vector. cbn [crows ccols indptr indices data ty shape strides nr_ nc_ diag cvals couter cinner length]. repeat split; try (eexists; reflexivity); intros [|[|[|[|]]]] x E; cbn in E; try discriminate E; injection E as <-; reflexivity.
Qed.

Print Assumptions C83_vector.
Print Assumptions C83_dense.
Print Assumptions C83_sparse.
Print Assumptions C83_accepted.
Print Assumptions C83_as_dense.
Print Assumptions C83_as_vector.
Print Assumptions C83_as_sparse.
Print Assumptions C83_roundtrip_dense.
Print Assumptions C83_roundtrip_sparse.
Print Assumptions C86_empty_refuted.
Print Assumptions C85_scalar_array_refuted.
Print Assumptions C86_python_refuted.
Print Assumptions C85_index_type_refuted.
Print Assumptions C84_value.
Print Assumptions C84_view.
Print Assumptions C84_stale_refuted.
Print Assumptions C84_temporary_refuted.
Print Assumptions C84_write_refuted.
