(** Proofs about Configuration. *)

From Coq Require Import ZArith NArith Lia Bool String Ascii List.
From Verif Require Import Base ConfModel.
Import ListNotations.
Set Implicit Arguments.
Local Open Scope string_scope.
Local Open Scope list_scope.

Definition slt (a b : string) : Prop := String.compare a b = Lt.
Lemma scompare_refl : forall a, String.compare a a = Eq.
Proof. induction a as [|x a IH]; cbn; auto. unfold Ascii.compare. rewrite N.compare_refl. exact IH. Qed.
Lemma slt_irrefl : forall a, ~ slt a a.
Proof. intros a H. unfold slt in H. rewrite scompare_refl in H. discriminate. Qed.
Lemma slt_gt : forall a b, String.compare a b = Gt <-> slt b a.
Proof. intros a b. unfold slt. rewrite (String.compare_antisym a b). destruct (String.compare b a); cbn; split; congruence. Qed.
Lemma slt_trans : forall a b c, slt a b -> slt b c -> slt a c.
Proof.
  unfold slt. induction a as [|x a IH]; intros [|y b] [|z c] H1 H2; cbn in *; try discriminate; auto.
  unfold Ascii.compare in *.
  destruct (N.compare_spec (N_of_ascii x) (N_of_ascii y)) as [E1|E1|E1]; try discriminate;
  destruct (N.compare_spec (N_of_ascii y) (N_of_ascii z)) as [E2|E2|E2]; try discriminate.
  - rewrite E1, E2, N.compare_refl. eauto.
  - rewrite E1. apply N.compare_lt_iff in E2. rewrite E2. reflexivity.
  - rewrite <- E2. apply N.compare_lt_iff in E1. rewrite E1. reflexivity.
  - assert (E : (N_of_ascii x < N_of_ascii z)%N) by lia. apply N.compare_lt_iff in E. rewrite E. reflexivity.
Qed.

(** Ordered by the keys, without duplicates. *)
Inductive sorted : conf -> Prop :=
| S_nil : sorted []
| S_cons : forall k v c, (forall k' v', In (k', v') c -> slt k k') -> sorted c -> sorted ((k, v) :: c).

Lemma get_in : forall c k v, get c k = Some v -> In (k, v) c.
Proof.
  induction c as [|[k' v'] c IH]; intros k v H; [discriminate|]. cbn in H. destruct (String.eqb_spec k k').
  - subst. injection H as ->. left. reflexivity.
  - right. auto.
Qed.
Lemma in_get : forall c k v, sorted c -> In (k, v) c -> get c k = Some v.
Proof.
  induction c as [|[k' v'] c IH]; intros k v S H; [elim H|]. inversion S; subst. cbn. destruct H as [H|H].
  - injection H as -> ->. rewrite String.eqb_refl. reflexivity.
  - destruct (String.eqb_spec k k'); auto. subst. elim (slt_irrefl (H2 _ _ H)).
Qed.
Lemma get_none : forall c k, get c k = None <-> forall v, ~ In (k, v) c.
Proof.
  induction c as [|[k' v'] c IH]; intros k; cbn. { split; auto. }
  destruct (String.eqb_spec k k').
  - subst. split; [discriminate|]. intros H. elim (H v'). auto.
  - rewrite IH. split; intros H v X; apply (H v); auto. destruct X as [X|X]; auto. injection X as -> ->. congruence.
Qed.

Lemma in_put : forall c k v k' v', In (k', v') (put c k v) -> (k' = k /\ v' = v) \/ In (k', v') c.
Proof.
  induction c as [|[k1 v1] c IH]; intros k v k' v' H; cbn in *.
  - destruct H as [H|[]]. injection H as -> ->. auto.
  - destruct (String.compare k k1) eqn:E; destruct H as [H|H]; try (injection H as -> ->); auto.
    apply IH in H. tauto.
Qed.
Lemma put_sorted : forall c k v, sorted c -> sorted (put c k v).
Proof.
  induction c as [|[k1 v1] c IH]; intros k v S; cbn. { constructor; auto. intros ? ? []. }
  inversion S; subst. destruct (String.compare k k1) eqn:E.
  - apply String.compare_eq_iff in E. subst. constructor; auto.
  - constructor; auto. intros k' v' [X|X]. { injection X as -> ->. exact E. } eapply slt_trans; [exact E|eauto].
  - constructor; auto. intros k' v' X. apply in_put in X. destruct X as [[-> ->]|X]; eauto. apply slt_gt. exact E.
Qed.
Lemma get_put : forall c k v k', get (put c k v) k' = if String.eqb k' k then Some v else get c k'.
Proof.
  induction c as [|[k1 v1] c IH]; intros k v k'; cbn. { reflexivity. }
  destruct (String.compare k k1) eqn:E; cbn.
  - apply String.compare_eq_iff in E. subst. destruct (String.eqb_spec k' k1); reflexivity.
  - reflexivity.
  - rewrite IH. destruct (String.eqb_spec k' k1), (String.eqb_spec k' k); try reflexivity. subst.
    apply slt_gt in E. elim (slt_irrefl E).
Qed.

Lemma access_sorted : forall c k, sorted c -> sorted (access c k).
Proof. intros c k S. unfold access. destruct (get c k); auto. apply put_sorted. auto. Qed.
Lemma append_sorted : forall b a, sorted a -> sorted (append a b).
Proof. induction b as [|[k v] b IH]; intros a S; cbn; auto. apply IH. apply put_sorted. auto. Qed.
Lemma load_sorted_l : forall l c, sorted c -> sorted (fold_left (fun c (kv : string * ptree) => write c (fst kv) (data (snd kv))) l c).
Proof. induction l as [|[k v] l IH]; intros c S; cbn; auto. apply IH. apply put_sorted. auto. Qed.
Lemma exec_sorted : forall o c, sorted c -> sorted (conf_exec c o).
Proof.
  intros [k|k v|b|t] c S; cbn.
  - apply access_sorted; auto.
  - apply put_sorted; auto.
  - apply append_sorted; auto.
  - apply load_sorted_l; auto.
Qed.
Lemma make_sorted : forall os, sorted (make os).
Proof.
  unfold make. intro os. assert (G : forall c, sorted c -> sorted (fold_left conf_exec os c)).
  { induction os as [|o os IH]; intros c S; cbn; auto. apply IH. apply exec_sorted. auto. }
  apply G. constructor.
Qed.

Lemma get_append : forall b a k, sorted b -> get (append a b) k = match get b k with Some v => Some v | None => get a k end.
Proof.
  unfold append. induction b as [|[k1 v1] b IH]; intros a k S; cbn; auto. inversion S; subst. rewrite IH by auto. rewrite get_put.
  destruct (String.eqb_spec k k1); auto. subst. replace (get b k1) with (@None string); auto. symmetry. apply get_none. intros v X. elim (slt_irrefl (H1 _ _ X)).
Qed.

Lemma equal_iff : forall a b, equal a b = true <-> a = b.
Proof.
  induction a as [|[k v] a IH]; intros [|[k' v'] b]; cbn; split; intro H; auto; try discriminate.
  - apply andb_true_iff in H. destruct H as [H H3]. apply andb_true_iff in H. destruct H as [H1 H2].
    apply String.eqb_eq in H1. apply String.eqb_eq in H2. apply IH in H3. congruence.
  - injection H as -> -> ->. rewrite !String.eqb_refl. cbn. apply IH. reflexivity.
Qed.
Lemma sorted_ext : forall a b, sorted a -> sorted b -> (forall k, get a k = get b k) -> a = b.
Proof.
  induction a as [|[k v] a IH]; intros [|[k' v'] b] Sa Sb E; auto.
  - specialize (E k'). cbn in E. rewrite String.eqb_refl in E. discriminate.
  - specialize (E k). cbn in E. rewrite String.eqb_refl in E. discriminate.
  - inversion Sa; inversion Sb; subst.
    assert (Hk : k = k').
    { pose proof (E k) as E1. pose proof (E k') as E2. cbn in E1, E2. rewrite String.eqb_refl in E1, E2.
      destruct (String.eqb_spec k k'); auto. destruct (String.eqb_spec k' k); auto.
      symmetry in E1. apply get_in in E1. apply get_in in E2. elim (slt_irrefl (slt_trans (H1 _ _ E2) (H6 _ _ E1))). }
    subst k'. assert (v = v'). { pose proof (E k) as E1. cbn in E1. rewrite String.eqb_refl in E1. congruence. } subst v'. f_equal.
    apply IH; auto. intro x. pose proof (E x) as E1. cbn in E1. destruct (String.eqb_spec x k); auto. subst x.
    replace (get a k) with (@None string). replace (get b k) with (@None string); auto.
    + symmetry. apply get_none. intros w X. elim (slt_irrefl (H6 _ _ X)).
    + symmetry. apply get_none. intros w X. elim (slt_irrefl (H1 _ _ X)).
Qed.

(** JSON *)
Fixpoint dotted (s : string) : bool := match s with EmptyString => false | String c s => Ascii.eqb c "."%char || dotted s end.
Lemma split_plain : forall s, dotted s = false -> split s = (s, []).
Proof.
  induction s as [|c s IH]; intro D; auto. cbn in *. apply orb_false_iff in D. destruct D as [D1 D2]. rewrite IH by auto. rewrite D1. reflexivity.
Qed.
Lemma fragments_plain : forall s, dotted s = false -> s <> "" -> fragments s = [s].
Proof. intros [|c s] D N; [congruence|]. unfold fragments. rewrite split_plain; auto. Qed.
Lemma split_head : forall s, dotted (fst (split s)) = false.
Proof.
  induction s as [|c s IH]; auto. cbn. destruct (split s) as [h t]. destruct (Ascii.eqb c "."%char) eqn:E; cbn; auto. rewrite E. exact IH.
Qed.

Definition plain (c : conf) : Prop := forall k v, In (k, v) c -> dotted k = false /\ k <> "".
Definition leaf (kv : string * string) : string * ptree := (fst kv, Node (snd kv) []).

Lemma put_new : forall l k v, (forall x t, In (x, t) l -> x <> k) -> put_path [k] v (Node "" l) = Node "" (l ++ [(k, Node v [])]).
Proof.
  intros l k v N. cbn. f_equal. induction l as [|[k' x] l IH]; cbn; auto.
  destruct (String.eqb_spec k' k). { elim (N k' x); [left|]; auto. } f_equal. apply IH. intros y t X. apply (N y t). right; auto.
Qed.
Lemma tree_flat : forall c l, sorted c -> plain c -> (forall x t k v, In (x, t) l -> In (k, v) c -> x <> k) ->
  fold_left (fun t kv => put_path (fragments (fst kv)) (snd kv) t) c (Node "" l) = Node "" (l ++ map leaf c).
Proof.
  induction c as [|[k v] c IH]; intros l S P D; cbn [fold_left map]. { rewrite app_nil_r. reflexivity. }
  inversion S; subst. destruct (P k v (or_introl eq_refl)) as [P1 P2]. cbn [fst snd]. rewrite fragments_plain by auto.
  rewrite put_new. 2:{ intros x t X. apply (D x t k v); auto. left; auto. }
  rewrite IH; auto.
  - unfold leaf at 2. cbn [fst snd]. rewrite <- app_assoc. reflexivity.
  - intros k' v' X. apply (P k' v'). right; auto.
  - intros x t k' v' X Y. apply in_app_iff in X. destruct X as [X|[X|[]]]. { apply (D x t k' v'); auto. right; auto. }
    injection X as <- <-. intros ->. elim (slt_irrefl (H1 _ _ Y)).
Qed.
Lemma to_tree_plain : forall c, sorted c -> plain c -> to_tree c = Node "" (map leaf c).
Proof. intros c S P. unfold to_tree. rewrite tree_flat; auto. Qed.
Lemma writable_flat : forall c, writable (Node "" (map leaf c)) = true.
Proof.
  intro c. unfold writable. cbn. apply andb_true_iff. split. { destruct (map leaf c); reflexivity. }
  induction c as [|kv c IH]; cbn; auto.
Qed.
Lemma load_flat : forall c a, fold_left (fun c (kv : string * ptree) => write c (fst kv) (data (snd kv))) (map leaf c) a = append a c.
Proof. unfold append. induction c as [|[k v] c IH]; intros a; cbn; auto. Qed.
Lemma append_nil : forall c, sorted c -> append [] c = c.
Proof.
  intros c S. apply sorted_ext; auto. { apply append_sorted. constructor. }
  intro k. rewrite get_append by auto. destruct (get c k); reflexivity.
Qed.

(** Keys with a dot get lost. *)
Definition roots (t : ptree) : Prop := forall k x, In (k, x) (children t) -> dotted k = false.
Lemma put_path_roots : forall path v t, roots t -> match path with f :: _ => dotted f = false | [] => True end -> roots (put_path path v t).
Proof.
  intros [|f path] v t R D; cbn. { exact R. } intros k x. cbn [children]. unfold roots in R. revert R. generalize (children t). intro l.
  induction l as [|[k' y] l IH]; cbn; intros R X.
  - destruct X as [X|[]]. injection X as <- <-. auto.
  - destruct (String.eqb_spec k' f) as [->|N]; destruct X as [X|X].
    + injection X as <- <-. auto.
    + apply (R k x). auto.
    + injection X as <- <-. apply (R k' y). auto.
    + apply IH; auto. intros a b Z. apply (R a b). auto.
Qed.
Lemma to_tree_roots : forall c, roots (to_tree c).
Proof.
  intro c. unfold to_tree. assert (G : forall t, roots t -> roots (fold_left (fun t kv => put_path (fragments (fst kv)) (snd kv) t) c t)).
  { induction c as [|[k v] c IH]; intros t R; cbn; auto. apply IH. apply put_path_roots; auto. 
    unfold fragments. destruct k as [|a k]; auto. pose proof (split_head (String a k)). destruct (split (String a k)). auto. }
  apply G. intros k x [].
Qed.
Lemma load_keys : forall l a k, (forall x t, In (x, t) l -> x <> k) -> get (fold_left (fun c (kv : string * ptree) => write c (fst kv) (data (snd kv))) l a) k = get a k.
Proof.
  induction l as [|[k' t] l IH]; intros a k N; cbn; auto. rewrite IH. 2:{ intros x y X. apply (N x y). right; auto. }
  unfold write. rewrite get_put. destruct (String.eqb_spec k k'); auto. subst. elim (N k' t); [left|]; auto.
Qed.

(** ** The tree that is written *)
(** the value at the end of a path *)
Fixpoint tree_get (path : list string) (t : ptree) : option string :=
  match path with
  | [] => Some (data t)
  | f :: p => (fix go (l : list (string * ptree)) := match l with [] => None | (k, x) :: l => if String.eqb k f then tree_get p x else go l end) (children t)
  end.
Lemma tree_get_same : forall p v t, tree_get p (put_path p v t) = Some v.
Proof.
  induction p as [|f p IH]; intros v t; cbn; [reflexivity|]. destruct t as [d l]. cbn [children]. induction l as [|[k x] l IL]; cbn.
  - rewrite String.eqb_refl. apply IH.
  - destruct (String.eqb k f) eqn:E; cbn; rewrite E; [apply IH|exact IL].
Qed.
Lemma tree_get_other : forall p q v w t, p <> q -> tree_get q t = Some w -> tree_get q (put_path p v t) = Some w.
Proof.
  induction p as [|f p IH]; intros [|g q] v w t N G; [congruence|destruct t; exact G|destruct t; exact G|].
  destruct t as [d l]. cbn [put_path tree_get children] in *. induction l as [|[k x] l IL]; [discriminate G|]. cbn in *.
  destruct (String.eqb k f) eqn:Ef, (String.eqb k g) eqn:Eg; cbn; rewrite ?Eg; try exact G.
  - apply IH; [|exact G]. apply String.eqb_eq in Ef, Eg. congruence.
  - apply IL. exact G.
Qed.
Fixpoint join (h : string) (t : list string) : string := match t with [] => h | a :: t => (h ++ String "."%char (join a t))%string end.
Lemma split_join : forall s, join (fst (split s)) (snd (split s)) = s.
Proof.
  induction s as [|c s IH]; [reflexivity|]. cbn [split]. destruct (split s) as [h t]. cbn [fst snd] in IH. destruct (Ascii.eqb c "."%char) eqn:E; cbn.
  - apply Ascii.eqb_eq in E. subst c. cbn [fst snd join String.append]. f_equal. exact IH.
  - cbn [fst snd]. rewrite <- IH. destruct t; reflexivity.
Qed.
Lemma fragments_inj : forall a b, fragments a = fragments b -> a = b.
Proof.
  intros a b E. unfold fragments in E. rewrite <- (split_join a), <- (split_join b). destruct a as [|x a], b as [|y b]; [reflexivity| | |].
  - destruct (split (String y b)). discriminate E.
  - destruct (split (String x a)). discriminate E.
  - destruct (split (String x a)), (split (String y b)). injection E as -> ->. reflexivity.
Qed.
Lemma to_tree_get : forall c t k v, sorted c -> In (k, v) c -> tree_get (fragments k) (fold_left (fun t kv => put_path (fragments (fst kv)) (snd kv) t) c t) = Some v.
Proof.
  assert (KEEP : forall c t k v, (forall v, ~ In (k, v) c) -> tree_get (fragments k) t = Some v -> tree_get (fragments k) (fold_left (fun t kv => put_path (fragments (fst kv)) (snd kv) t) c t) = Some v).
  { induction c as [|[k1 v1] c IH]; intros t k v N G; [exact G|]. cbn. apply IH; [intros w I; apply (N w); right; exact I|]. apply tree_get_other; [|exact G]. intros E. apply fragments_inj in E. subst. apply (N v1). left. reflexivity. }
  induction c as [|[k1 v1] c IH]; intros t k v S I; [destruct I|]. inversion S; subst. cbn. destruct I as [I|I].
  - injection I as -> ->. apply KEEP; [|apply tree_get_same]. intros w J. exact (slt_irrefl (H1 _ _ J)).
  - apply IH; assumption.
Qed.
