(** Proofs about NumpyModel: lifetimes. *)
From Coq Require Import ZArith Bool List Lia.
Import ListNotations.
From Verif Require Import Base NumpyModel NumpySpec NumpyProofs.
Set Implicit Arguments.

Section L.
Variable V : Type.
Notation world := (world V).
Definition pbuf (o : pyobj) : nat := match o with PyVector a => buf a | PyMatrix m => buf (data m) end.
Lemma bind_inv : forall A B (x : res A) (f : A -> res B) b, bind x f = Ok b -> exists a, x = Ok a /\ f a = Ok b.
Proof. intros A B x f b H. destruct x as [a| |]; cbn in H; try discriminate. eauto. Qed.
Lemma convert_inv : forall v const t (h h' : heap V) a size nd dims r, convert v const t h a size nd dims = Ok (h', r) ->
  (v = View -> h' = h /\ buf r = a) /\ (v = Copy -> buf r = length h /\ exists cs, h' = h ++ [Some cs]).
Proof.
  intros v const t h h' a size nd dims r H. unfold convert in H. apply bind_inv in H. destruct H as (u & _ & H). destruct v; split; intros E; try discriminate E.
  - injection H as <- <-. auto.
  - destruct (block h a); [|discriminate H]. destruct (_ <? _)%Z; [discriminate H|]. unfold alloc in H. injection H as <- <-. cbn. eauto.
Qed.
Lemma sparse_view_inv : forall const (h h' : heap V) m r, convert_sparse View const h m = Ok (h', r) -> h' = h /\ buf (data r) = vals m /\ buf (indices r) = inner m /\ buf (indptr r) = outer m /\ (off (data r) = 0 /\ off (indices r) = 0 /\ off (indptr r) = 0)%Z /\ (strides (data r) = [1] /\ strides (indices r) = [1] /\ strides (indptr r) = [1])%Z /\ ccols r = int (scols m).
Proof.
  intros const h h' m r H. unfold convert_sparse in H. destruct (negb (compressed m)); [discriminate H|].
  apply bind_inv in H. destruct H as ([h1 a1] & H1 & H). apply bind_inv in H. destruct H as ([h2 a2] & H2 & H). apply bind_inv in H. destruct H as ([h3 a3] & H3 & H). cbn [fst snd] in *.
  unfold convert_vector, convert in H1, H2, H3. apply bind_inv in H1, H2, H3. destruct H1 as (? & _ & H1), H2 as (? & _ & H2), H3 as (? & _ & H3). injection H1 as <- <-. injection H2 as <- <-. injection H3 as <- <-. injection H as <- <-. cbn. auto 20.
Qed.
Lemma free_length : forall (h : heap V) a, length (free h a) = length h.
Proof. intros h a. apply set_nth_length. Qed.
Lemma write_length : forall (h : heap V) a i x, length (write h a i x) = length h.
Proof. intros h a i x. unfold write. destruct (block h a); [apply set_nth_length|reflexivity]. Qed.
Lemma write_other : forall (h : heap V) a i x b, b <> a -> block (write h a i x) b = block h b.
Proof. intros h a i x b H. unfold write. destruct (block h a); [apply block_set_other; assumption|reflexivity]. Qed.
(** one step: what happens to a block, to the objects, to the lengths *)
Lemma step_inv : forall (w w' : world) e, step w e = Ok w' -> within w ->
  within w' /\ length (hp w) <= length (hp w') /\ (exists l, objs w' = objs w ++ l /\ forall o, In o l -> length (hp w) <= pbuf o \/ exists m, ham w = Some m /\ pbuf o = vals m) /\
  (forall m', ham w' = Some m' -> (outer m' >= length (hp w) /\ inner m' >= length (hp w) /\ vals m' >= length (hp w)) \/ exists m, ham w = Some m /\ outer m' = outer m /\ inner m' = inner m /\ vals m' = vals m) /\
  (forall b, b < length (hp w) -> (forall m, ham w = Some m -> b <> outer m /\ b <> inner m /\ b <> vals m) -> (forall k i v o, e = PyWrite k i v -> nth_error (objs w) k = Some o -> b <> pbuf o) -> block (hp w') b = block (hp w) b).
Proof.
  intros w w' e H (WH & WO). destruct e as [|xs|c reuse| |k i v]; cbn [step] in H.
  - destruct (ham w) as [m|] eqn:EH; [|discriminate H]. apply bind_inv in H. destruct H as ([h' r] & H1 & H). cbn [fst snd] in H. injection H as <-. destruct (sparse_view_inv _ _ _ H1) as (-> & D & _). cbn [hp ham objs].
    destruct (WH m eq_refl) as (L1 & L2 & L3). split; [|split; [lia|split; [|split]]].
    + split; cbn [hp ham objs]; [exact WH|]. intros o Ho. apply in_app_or in Ho. destruct Ho as [Ho|[<-|[]]]; [apply WO; assumption|]. rewrite D. exact L3.
    + exists [PyMatrix r]. split; [reflexivity|]. intros o [<-|[]]. right. exists m. auto.
    + intros m' E. right. exists m. injection E as <-. auto.
    + reflexivity.
  - unfold alloc in H. apply bind_inv in H. destruct H as ([h' r] & H1 & H). injection H as <-. unfold convert_vector in H1; destruct (@convert_inv _ _ _ _ _ _ _ _ _ _ H1) as (_ & C). destruct (C eq_refl) as (Bf & cs & Eh). clear C. cbn [fst snd] in *. subst h'. rewrite app_length in Bf. cbn in Bf. cbn [hp ham objs].
    assert (LE : length (free ((hp w ++ [Some (map (CV (V:=V)) xs)]) ++ [Some cs]) (length (hp w))) = S (S (length (hp w)))) by (rewrite free_length, !app_length; cbn; lia).
    split; [|split; [lia|split; [|split]]].
    + split; cbn [hp ham objs]; rewrite LE.
      * intros m E. destruct (WH m E) as (A & B & C). lia.
      * intros o Ho. apply in_app_or in Ho. destruct Ho as [Ho|[<-|[]]]; [|lia]. specialize (WO o Ho). destruct o; lia.
    + exists [PyVector r]. split; [reflexivity|]. intros o [<-|[]]. left. cbn. lia.
    + intros m' E. right. exists m'. auto.
    + intros b Hb _ _. unfold free. rewrite block_set_other by lia. rewrite block_app by (rewrite app_length; cbn; lia). apply block_app. assumption.
  - destruct (ham w) as [m|] eqn:EH; [|discriminate H]. destruct (WH m eq_refl) as (L1 & L2 & L3). destruct reuse.
    + injection H as <-. cbn [hp ham objs]. rewrite !set_nth_length. split; [|split; [lia|split; [|split]]].
      * split; cbn [hp ham objs]; rewrite !set_nth_length; [intros m' E; injection E as <-; cbn; auto|exact WO].
      * exists []. rewrite app_nil_r. split; [reflexivity|]. intros o [].
      * intros m' E. injection E as <-. right. exists m. cbn. auto.
      * intros b Hb NE _. destruct (NE m eq_refl) as (N1 & N2 & N3). rewrite !block_set_other by assumption. reflexivity.
    + unfold place, alloc in H. injection H as <-. cbn [hp ham objs]. rewrite !app_length, !free_length. cbn [length].
      split; [|split; [lia|split; [|split]]].
      * split; cbn [hp ham objs]; rewrite !app_length, !free_length; cbn [length].
        { intros m' E. injection E as <-. cbn [outer inner vals]. rewrite ?app_length, ?free_length. cbn. lia. }
        { intros o Ho. specialize (WO o Ho). destruct o; lia. }
      * exists []. rewrite app_nil_r. split; [reflexivity|]. intros o [].
      * intros m' E. injection E as <-. left. cbn [outer inner vals]. rewrite ?app_length, ?free_length. cbn. lia.
      * intros b Hb NE _. destruct (NE m eq_refl) as (N1 & N2 & N3). rewrite !block_app by (rewrite ?app_length, ?free_length; cbn; lia). unfold free. rewrite !block_set_other by assumption. reflexivity.
  - destruct (ham w) as [m|] eqn:EH; [|discriminate H]. injection H as <-. cbn [hp ham objs]. rewrite !free_length. split; [|split; [lia|split; [|split]]].
    + split; cbn [hp ham objs]; rewrite ?free_length; [discriminate|exact WO].
    + exists []. rewrite app_nil_r. split; [reflexivity|]. intros o [].
    + discriminate.
    + intros b Hb NE _. destruct (NE m eq_refl) as (N1 & N2 & N3). unfold free. rewrite !block_set_other by assumption. reflexivity.
  - destruct (nth_error (objs w) k) as [o|] eqn:Ek; [|discriminate H]. cbv zeta in H.
    set (a := match o with PyVector a => a | PyMatrix m => data m end) in *. destruct (writeable a); [|discriminate H]. destruct (shape a) as [|n [|]]; try discriminate H. destruct (Z.of_nat i <? n)%Z; [|discriminate H].
    destruct (block (hp w) (buf a)) as [cs|] eqn:Eb; [|discriminate H]. injection H as <-. cbn [hp ham objs]. rewrite write_length. split; [|split; [lia|split; [|split]]].
    + split; cbn [hp ham objs]; rewrite write_length; assumption.
    + exists []. rewrite app_nil_r. split; [reflexivity|]. intros o' [].
    + intros m' E. right. exists m'. auto.
    + intros b Hb _ NW. apply write_other. specialize (NW k i v o eq_refl Ek). unfold pbuf in NW. unfold a. destruct o; assumption.
Qed.
(** a block that neither the system nor another object uses *)
Definition apart (k : nat) (b : nat) (w : world) : Prop :=
  b < length (hp w) /\ (forall m, ham w = Some m -> b <> outer m /\ b <> inner m /\ b <> vals m) /\ (forall k' o, nth_error (objs w) k' = Some o -> k' <> k -> b <> pbuf o).
Lemma apart_keeps : forall es (w w' : world) k b, history w es = Ok w' -> within w -> apart k b w -> k < length (objs w) -> (forall i v, ~ In (PyWrite k i v) es) ->
  block (hp w') b = block (hp w) b /\ nth_error (objs w') k = nth_error (objs w) k.
Proof.
  induction es as [|e es IH]; intros w w' k b H W (A1 & A2 & A3) K N; cbn [history] in H; [injection H as <-; auto|].
  apply bind_inv in H. destruct H as (w1 & H1 & H). destruct (@step_inv _ _ _ H1 W) as (W1 & L1 & (l & El & Nl) & HM & Bk).
  assert (K1 : k < length (objs w1)) by (rewrite El, app_length; lia).
  destruct (IH w1 w' k b H W1) as (B & O).
  - split; [lia|]. split.
    + intros m' E. destruct (HM m' E) as [X|(m & Em & E1 & E2 & E3)]; [lia|]. rewrite E1, E2, E3. apply A2. assumption.
    + intros k' o Eo Nk. rewrite El in Eo. destruct (Nat.lt_ge_cases k' (length (objs w))) as [C|C].
      * rewrite nth_error_app1 in Eo by assumption. apply (A3 k' o Eo Nk).
      * rewrite nth_error_app2 in Eo by assumption. apply nth_error_In in Eo. destruct (Nl o Eo) as [X|(m & Em & E)]; [lia|]. rewrite E. apply A2. assumption.
  - assumption.
  - intros i v I. apply (N i v). right. assumption.
  - rewrite B, O. split.
    + apply Bk; auto. intros k' i v o -> Eo. apply (A3 k' o Eo). intros ->. apply (N i v). left. reflexivity.
    + rewrite El. apply nth_error_app1. assumption.
Qed.
Lemma history_app : forall es es' (w : world), history w (es ++ es') = bind (history w es) (fun w' => history w' es').
Proof. induction es as [|e es IH]; intros es' w; cbn [history app]; [reflexivity|]. destruct (step w e); cbn [bind]; auto. Qed.
Lemma history_within : forall es (w w' : world), history w es = Ok w' -> within w -> within w'.
Proof.
  induction es as [|e es IH]; intros w w' H W; cbn [history] in H; [injection H as <-; assumption|]. apply bind_inv in H. destruct H as (w1 & H1 & H). apply (IH w1 w' H). apply (@step_inv _ _ _ H1 W).
Qed.
(** the objects stay; without recomputation the matrix of the system stays where it is *)
Definition quiet (e : event V) : Prop := match e with Recompute _ _ | Destroy _ => False | _ => True end.
Lemma quiet_ham : forall es (w w' : world), history w es = Ok w' -> within w -> Forall quiet es -> ham w' = ham w /\ (forall k o, nth_error (objs w) k = Some o -> nth_error (objs w') k = Some o).
Proof.
  induction es as [|e es IH]; intros w w' H W Q; cbn [history] in H; [injection H as <-; auto|]. apply bind_inv in H. destruct H as (w1 & H1 & H). inversion Q as [|? ? Qe Q']; subst.
  destruct (@step_inv _ _ _ H1 W) as (W1 & _ & (l & El & _) & _). destruct (IH w1 w' H W1 Q') as (A & B). split.
  - rewrite A. destruct e as [|xs|c reuse| |k i v]; cbn [step quiet] in *; try contradiction.
    + destruct (ham w) eqn:EH; [|discriminate H1]. apply bind_inv in H1. destruct H1 as (r & _ & H1). injection H1 as <-. cbn. reflexivity.
    + destruct (alloc _ _) as [h a]. apply bind_inv in H1. destruct H1 as (r & _ & H1). injection H1 as <-. reflexivity.
    + destruct (nth_error (objs w) k) as [o|]; [|discriminate H1]. cbv zeta in H1. destruct (writeable _); [|discriminate H1]. destruct (shape _) as [|n [|]]; try discriminate H1. destruct (Z.of_nat i <? n)%Z; [|discriminate H1]. destruct (block _ _); [|discriminate H1]. injection H1 as <-. reflexivity.
  - intros k o E. apply B. rewrite El. rewrite nth_error_app1; [assumption|]. apply nth_error_Some. rewrite E. discriminate.
Qed.
(** what the system's own matrix holds changes only by writing *)
Definition silent (e : event V) : Prop := match e with Recompute _ _ | Destroy _ | PyWrite _ _ _ => False | _ => True end.
Lemma silent_block : forall es (w w' : world) b, history w es = Ok w' -> within w -> Forall silent es -> b < length (hp w) -> block (hp w') b = block (hp w) b.
Proof.
  induction es as [|e es IH]; intros w w' b H W Q L; cbn [history] in H; [injection H as <-; reflexivity|]. apply bind_inv in H. destruct H as (w1 & H1 & H). inversion Q as [|? ? Qe Q']; subst.
  destruct (@step_inv _ _ _ H1 W) as (W1 & L1 & _). rewrite (IH w1 w' b H W1 Q' ltac:(lia)). clear IH H Q. destruct e as [|xs|c reuse| |k i v]; cbn [step silent] in *; try contradiction.
  - destruct (ham w); [|discriminate H1]. apply bind_inv in H1. destruct H1 as ([h' r] & H1 & H2). injection H2 as <-. destruct (sparse_view_inv _ _ _ H1) as (-> & _). reflexivity.
  - unfold alloc in H1. apply bind_inv in H1. destruct H1 as ([h' r] & H1 & H2). injection H2 as <-. unfold convert_vector in H1; destruct (@convert_inv _ _ _ _ _ _ _ _ _ _ H1) as (_ & C). destruct (C eq_refl) as (_ & cs & Eh). cbn [fst] in *. subst h'. cbn [hp].
    unfold free. rewrite block_set_other by lia. rewrite block_app by (rewrite app_length; cbn; lia). apply block_app. assumption.
Qed.
End L.
