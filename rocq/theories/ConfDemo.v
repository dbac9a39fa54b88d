(** A printer and a parser that satisfy what PropFile.v assumes of boost's (so the assumption is not contradictory). *)
From Coq Require Import ZArith NArith Lia Bool String Ascii List.
From Verif Require Import Base ConfModel.
Import ListNotations.
Set Implicit Arguments.
Local Open Scope nat_scope.

Fixpoint chars (s : string) : list Z := match s with EmptyString => [] | String a s => Z.of_N (N_of_ascii a) :: chars s end.
Fixpoint str (l : list Z) : string := match l with [] => EmptyString | x :: l => String (ascii_of_N (Z.to_N x)) (str l) end.
Lemma str_chars : forall s, str (chars s) = s.
Proof. induction s; cbn; auto. rewrite N2Z.id, ascii_N_embedding, IHs. reflexivity. Qed.
Definition p_str (s : string) : list Z := Z.of_nat (length (chars s)) :: chars s.
Definition r_str (l : list Z) : option (string * list Z) :=
  match l with [] => None | n :: l => Some (str (firstn (Z.to_nat n) l), skipn (Z.to_nat n) l) end.
Lemma r_p_str : forall s r, r_str (p_str s ++ r) = Some (s, r).
Proof.
  intros. unfold r_str, p_str. cbn. rewrite Nat2Z.id, firstn_app, skipn_app, Nat.sub_diag, firstn_all, skipn_all, firstn_O, app_nil_r, str_chars. reflexivity.
Qed.
Fixpoint p_tree (t : ptree) : list Z :=
  match t with Node v ch => p_str v ++ Z.of_nat (length ch) :: concat (map (fun kt => p_str (fst kt) ++ p_tree (snd kt)) ch) end.
Fixpoint r_many A (rd : list Z -> option (A * list Z)) (n : nat) (l : list Z) : option (list A * list Z) :=
  match n with
  | O => Some ([], l)
  | S n => match rd l with Some (x, l) => match r_many rd n l with Some (xs, l) => Some (x :: xs, l) | None => None end | None => None end
  end.
Fixpoint r_tree (fuel : nat) (l : list Z) : option (ptree * list Z) :=
  match fuel with
  | O => None
  | S f =>
      match r_str l with
      | Some (v, n :: l) =>
          match r_many (fun l => match r_str l with Some (k, l) => match r_tree f l with Some (t, l) => Some ((k, t), l) | None => None end | None => None end) (Z.to_nat n) l with
          | Some (ch, l) => Some (Node v ch, l) | None => None
          end
      | _ => None
      end
  end.
Fixpoint depth (t : ptree) : nat := match t with Node _ ch => S (fold_right Nat.max 0 (map (fun kt => depth (snd kt)) ch)) end.

Section Ind.
Variable Q : ptree -> Prop.
Hypothesis H : forall v ch, Forall (fun kt => Q (snd kt)) ch -> Q (Node v ch).
Fixpoint tree_ind (t : ptree) : Q t :=
  match t with Node v ch => H v (list_ind (Forall (fun kt => Q (snd kt))) (Forall_nil _) (fun kt l IH => Forall_cons kt (tree_ind (snd kt)) IH) ch) end.
End Ind.

Lemma r_p_tree : forall t f r, depth t <= f -> r_tree f (p_tree t ++ r) = Some (t, r).
Proof.
  intro t. induction t as [v ch IH] using tree_ind. intros f r D. destruct f as [|f]; [cbn in D; lia|]. cbn [depth] in D. apply le_S_n in D.
  cbn [r_tree p_tree]. rewrite <- app_assoc, r_p_str. cbn [app]. rewrite Nat2Z.id.
  match goal with |- context [r_many ?g _ _] => assert (R : r_many g (length ch) (concat (map (fun kt => p_str (fst kt) ++ p_tree (snd kt)) ch) ++ r) = Some (ch, r)) end.
  { clear v. induction ch as [|[k u] ch IHc]; [reflexivity|]. cbn [length r_many map concat fst snd fold_right] in *.
    apply Forall_inv in IH as I. apply Forall_inv_tail in IH. rewrite <- !app_assoc, r_p_str. cbn [snd] in I. rewrite I by lia. rewrite IHc by (auto; lia). reflexivity. }
  rewrite R. reflexivity.
Qed.
Lemma depth_len : forall t, depth t <= length (p_tree t).
Proof.
  intro t. induction t as [v ch IH] using tree_ind. cbn [depth p_tree]. rewrite app_length. cbn [length].
  enough (fold_right Nat.max 0 (map (fun kt => depth (snd kt)) ch) <= length (concat (map (fun kt => p_str (fst kt) ++ p_tree (snd kt)) ch))) by lia.
  induction ch as [|[k u] ch IHc]; [cbn; lia|]. apply Forall_inv in IH as I. apply Forall_inv_tail in IH. specialize (IHc IH). cbn [map fold_right concat fst snd] in *.
  rewrite !app_length. lia.
Qed.
Definition demo_print := p_tree.
Definition demo_parse (l : list Z) : option ptree := match r_tree (length l) l with Some (t, _) => Some t | None => None end.
Lemma demo_json : forall t, demo_parse (demo_print t) = Some t.
Proof.
  intro t. unfold demo_parse, demo_print. pose proof (@r_p_tree t (length (p_tree t)) []) as R. rewrite app_nil_r in R. rewrite R; auto. apply depth_len.
Qed.
