(** Proofs about ranges and about SystemOne::initializeBasis. *)
From Verif Require Import Base StateModel StateProofs Matrix LookupModel LookupProofs SystemModel RangeModel.
From Coq Require Import ZArith Lia Bool String Ascii FinFun List.
Import ListNotations.
Set Implicit Arguments.
Local Open Scope Z_scope.

Lemma existsb_Z : forall q r, existsb (Z.eqb q) r = true <-> In q r.
Proof.
  intros. rewrite existsb_exists. split.
  - intros (x & H & E). apply Z.eqb_eq in E. subst; auto.
  - intro. exists q. split; auto. apply Z.eqb_refl.
Qed.

Lemma zrange_in : forall step lo hi q, 0 < step ->
  (In q (zrange step lo hi) <-> lo <= q <= hi /\ (q - lo) mod step = 0).
Proof.
  intros step lo hi q Hs. unfold zrange. destruct (Z.ltb_spec hi lo) as [H|H].
  - simpl. split; [tauto|]. intros (H0 & _). lia.
  - rewrite in_map_iff. split.
    + intros (k & <- & Hk). apply in_seq in Hk.
      assert (Z.of_nat k <= (hi - lo) / step) by lia.
      assert (step * Z.of_nat k <= hi - lo).
      { apply Z.le_trans with (step * ((hi - lo) / step)); [nia|]. apply Z.mul_div_le; lia. }
      split; [nia|]. replace (lo + step * Z.of_nat k - lo) with (Z.of_nat k * step) by ring.
      apply Z.mod_mul. lia.
    + intros ((H1 & H2) & H3).
      assert (E : q - lo = step * ((q - lo) / step)).
      { apply Z.div_exact in H3; lia. }
      exists (Z.to_nat ((q - lo) / step)).
      assert (0 <= (q - lo) / step) by (apply Z.div_pos; lia).
      split. { rewrite Z2Nat.id by lia. lia. }
      apply in_seq. split; [lia|].
      assert ((q - lo) / step <= (hi - lo) / step) by (apply Z.div_le_mono; lia). lia.
Qed.

Lemma zrange_nil : forall step lo hi, 0 < step -> is_nil (zrange step lo hi) = (hi <? lo).
Proof.
  intros. unfold zrange. destruct (Z.ltb_spec hi lo); auto.
  assert (0 <= (hi - lo) / step) by (apply Z.div_pos; lia).
  replace (Z.to_nat ((hi - lo) / step + 1)) with (S (Z.to_nat ((hi - lo) / step))) by lia.
  reflexivity.
Qed.

Lemma zrange_nodup : forall step lo hi, 0 < step -> NoDup (zrange step lo hi).
Proof.
  intros. unfold zrange. destruct (hi <? lo); [constructor|].
  apply Injective_map_NoDup. { intros a b E. nia. } apply seq_NoDup.
Qed.

Lemma qnumValid_iff : forall q r, qnumValid q r = true <-> (r = [] \/ In q r).
Proof.
  intros. unfold qnumValid. rewrite orb_true_iff, existsb_Z.
  destruct r; simpl; intuition (try discriminate; auto).
Qed.

Lemma qnumValid_range : forall step lo hi q, 0 < step -> lo <= hi -> (q - lo) mod step = 0 ->
  (qnumValid q (zrange step lo hi) = true <-> lo <= q <= hi).
Proof.
  intros. unfold qnumValid. rewrite orb_true_iff, zrange_nil, existsb_Z, zrange_in by auto.
  rewrite Z.ltb_lt. intuition lia.
Qed.

(** ** initializeBasis *)

Section Items.
Context {K : StarRing}.
Variable energy : string -> Z -> Z -> Z -> res K.
Variable sp : string.
Variable srot : option (list Z).
Variable rq : @request K state1.

(** Flattened sequence of loop steps. *)
Inductive item := ITh | IUB | IV (nn ll jj mm : Z) (e : K).

Definition items_m (nn ll jj : Z) (e : K) : list item :=
  map (fun mm => IV nn ll jj mm e) (filter (fun mm => negb (jj <? Z.abs mm)) (allowed_m srot rq jj)).
Definition items_j (s2 nn ll : Z) : list item :=
  flat_map (fun jj => if (s2 <? Z.abs (jj - 2 * ll)) || (jj <? 0) then []
     else match energy sp nn ll jj with
          | Ok e => if enValid rq e then items_m nn ll jj e else []
          | Throw => [ITh] | UB => [IUB] end)
   (if is_nil (rg_j (rq_rg rq)) then zrange 2 (Z.abs (2 * ll - s2)) (2 * ll + s2) else rg_j (rq_rg rq)).
Definition items_l (s2 nn : Z) : list item :=
  flat_map (fun ll => if (nn - 1 <? ll) || (ll <? 0) then [] else items_j s2 nn ll)
    (if is_nil (rg_l (rq_rg rq)) then zrange 1 0 (nn - 1) else rg_l (rq_rg rq)).
Definition items (s2 : Z) : list item := flat_map (items_l s2) (rg_n (rq_rg rq)).

Lemma items_in : forall s2 nn ll jj mm e,
  In (IV nn ll jj mm e) (items s2) <->
  In nn (rg_n (rq_rg rq)) /\
  0 <= ll <= nn - 1 /\ (rg_l (rq_rg rq) = [] \/ In ll (rg_l (rq_rg rq))) /\
  ((rg_j (rq_rg rq) = [] /\ Z.abs (2*ll - s2) <= jj <= 2*ll+s2 /\ (jj - Z.abs (2*ll-s2)) mod 2 = 0) \/
   (rg_j (rq_rg rq) <> [] /\ In jj (rg_j (rq_rg rq)))) /\
  Z.abs (jj - 2*ll) <= s2 /\ 0 <= jj /\
  energy sp nn ll jj = Ok e /\ enValid rq e = true /\
  In mm (allowed_m srot rq jj) /\ Z.abs mm <= jj.
Proof.
  intros. unfold items. rewrite in_flat_map. split.
  - intros (n' & Hn & H). unfold items_l in H. apply in_flat_map in H.
    destruct H as (l' & Hl & H).
    destruct ((n' - 1 <? l') || (l' <? 0)) eqn:El; [inversion H|].
    apply orb_false_iff in El. destruct El as [E1 E2]. apply Z.ltb_ge in E1, E2.
    unfold items_j in H. apply in_flat_map in H. destruct H as (j' & Hj & H).
    destruct ((s2 <? Z.abs (j' - 2 * l')) || (j' <? 0)) eqn:Ej; [inversion H|].
    apply orb_false_iff in Ej. destruct Ej as [E3 E4]. apply Z.ltb_ge in E3, E4.
    destruct (energy sp n' l' j') as [e'| |] eqn:Ee; simpl in H;
      [|intuition discriminate|intuition discriminate].
    destruct (enValid rq e') eqn:Ev; [|inversion H].
    unfold items_m in H. apply in_map_iff in H. destruct H as (m' & E & Hm).
    injection E as -> -> -> -> ->.
    apply filter_In in Hm. destruct Hm as [Hm Hm2]. apply negb_true_iff, Z.ltb_ge in Hm2.
    split; [exact Hn|]. split; [lia|].
    split. { destruct (rg_l (rq_rg rq)); simpl in Hl; auto. }
    split.
    { destruct (rg_j (rq_rg rq)) eqn:Er; simpl in Hj.
      - left. split; auto. apply zrange_in in Hj; [|lia]. exact Hj.
      - right. split; [discriminate|exact Hj]. }
    repeat split; auto.
  - intros (Hn & Hl & Hl2 & Hj & Hj2 & Hj3 & He & Hv & Hm & Hm2).
    exists nn. split; auto. unfold items_l. apply in_flat_map. exists ll. split.
    { destruct (rg_l (rq_rg rq)) eqn:Er; simpl.
      - apply zrange_in; [lia|]. split; [lia|]. apply Z.mod_1_r.
      - destruct Hl2; [discriminate|auto]. }
    assert (E : (nn - 1 <? ll) || (ll <? 0) = false).
    { apply orb_false_iff. rewrite !Z.ltb_ge. lia. }
    rewrite E. unfold items_j. apply in_flat_map. exists jj. split.
    { destruct (rg_j (rq_rg rq)) eqn:Er; simpl.
      - destruct Hj as [(_ & Hj)|(Hj & _)]; [|congruence]. apply zrange_in; [lia|]. exact Hj.
      - destruct Hj as [(Hj & _)|(_ & Hj)]; [discriminate|auto]. }
    assert (E' : (s2 <? Z.abs (jj - 2 * ll)) || (jj <? 0) = false).
    { apply orb_false_iff. rewrite !Z.ltb_ge. lia. }
    rewrite E', He, Hv. unfold items_m. apply in_map_iff. exists mm. split; auto.
    apply filter_In. split; auto. apply negb_true_iff, Z.ltb_ge. lia.
Qed.

End Items.

Section B.
Context {K : StarRing}.
Variable hs : string -> N.
Variable hi : Z -> N.
Variable hf : Z -> N.
Variable rt : K.
Variable iu : option K.
Variable energy : string -> Z -> Z -> Z -> res K.
Variable sp : string.
Variable sref : parity.
Variable srot : option (list Z).
Variable rq : @request K state1.

Notation accK := (@acc K).

Lemma loop_app : forall X (f : X -> accK -> accK * res unit) xs ys a,
  loop f (xs ++ ys) a = match loop f xs a with (a1, Ok _) => loop f ys a1 | r => r end.
Proof.
  induction xs; intros; simpl; auto.
  destruct (f a a0) as [a1 [?| |]]; auto.
Qed.

Lemma loop_flat : forall X Y (f : X -> accK -> accK * res unit) (g : Y -> accK -> accK * res unit) h,
  (forall x a, f x a = loop g (h x) a) ->
  forall xs a, loop f xs a = loop g (flat_map h xs) a.
Proof.
  intros X Y f g h E. induction xs; intros; simpl; auto.
  rewrite loop_app, <- E. destruct (f a a0) as [a1 [?| |]]; auto.
Qed.

Lemma loop_ext : forall X (f g : X -> accK -> accK * res unit) xs,
  (forall x a, In x xs -> f x a = g x a) -> forall a, loop f xs a = loop g xs a.
Proof.
  induction xs; intros; simpl; auto. rewrite H by (left; auto).
  destruct (g a a0) as [a1 [?| |]]; auto. apply IHxs. intros; apply H; right; auto.
Qed.

Definition do_item (i : item (K:=K)) (a : accK) : accK * res unit :=
  match i with
  | ITh => (a, Throw) | IUB => (a, UB)
  | IV nn ll jj mm e =>
    match mkOne hs hi hf sp nn ll jj mm with
    | Ok st =>
        match sref with
        | NA => addSymmetrized hs hi hf rt iu st e sref a
        | _ => if negb (mm =? 0) && negb (existsb (Z.eqb (- mm)) (allowed_m srot rq jj))
               then (a, Throw) else addSymmetrized hs hi hf rt iu st e sref a
        end
    | Throw => (a, Throw)
    | UB => (a, UB)
    end
  end.

Lemma loop_filter : forall (f g : Z -> accK -> accK * res unit) (p : Z -> bool) xs,
  (forall x a, f x a = if p x then (a, Ok tt) else g x a) ->
  forall a, loop f xs a = loop g (filter (fun x => negb (p x)) xs) a.
Proof.
  intros f g p xs E. induction xs; intros; simpl; auto. rewrite E.
  destruct (p a); simpl; auto. destruct (g a a0) as [a1 [?| |]]; auto.
Qed.

Lemma loop_map : forall X Y (g : Y -> accK -> accK * res unit) (h : X -> Y) xs a,
  loop g (map h xs) a = loop (fun x => g (h x)) xs a.
Proof.
  induction xs; intros; simpl; auto. destruct (g (h a) a0) as [a1 [?| |]]; auto.
Qed.

Lemma loop_m_items : forall nn ll jj e a,
  loop_m hs hi hf rt iu sp sref srot rq nn ll jj e a = loop do_item (items_m srot rq nn ll jj e) a.
Proof.
  intros. unfold loop_m, items_m. rewrite loop_map. apply loop_filter.
  intros. destruct (jj <? Z.abs x); auto.
Qed.

Lemma loop_j_items : forall s2 nn ll a,
  loop_j hs hi hf rt iu energy sp sref srot rq s2 nn ll a = loop do_item (items_j energy sp srot rq s2 nn ll) a.
Proof.
  intros. unfold loop_j, items_j. apply loop_flat. intros.
  destruct (_ || _); auto. destruct (energy sp nn ll x); auto.
  destruct (enValid rq a1); auto. apply loop_m_items.
Qed.

Lemma loop_l_items : forall s2 nn a,
  loop_l hs hi hf rt iu energy sp sref srot rq s2 nn a = loop do_item (items_l energy sp srot rq s2 nn) a.
Proof.
  intros. unfold loop_l, items_l. apply loop_flat. intros.
  destruct (_ || _); auto. apply loop_j_items.
Qed.

Lemma loop_n_items : forall s2 a,
  loop_n hs hi hf rt iu energy sp sref srot rq s2 a = loop do_item (items energy sp srot rq s2) a.
Proof. intros. unfold loop_n, items. apply loop_flat. intros. apply loop_l_items. Qed.

End B.
