(** Proofs about LeRoyModel. *)
From Coq Require Import ZArith Reals Lra List Bool.
Import ListNotations.
From Verif Require Import Base LeRoyModel LeRoySpec.
Set Implicit Arguments.
Local Open Scope R_scope.

Section P.
Variable St : Type.
Variable seqb : St -> St -> bool.
Variable artificial : St -> bool.
Variable nstar : St -> res (R * R).
Variable ell : St -> Z * Z.
Variable r2 : St -> res (R * R).
Variable au2um : R.
Notation estimateX := (estimate nstar ell au2um).
Notation leroyX := (leroy r2).
Notation searchX := (search artificial nstar ell au2um).
Notation stepX := (step seqb artificial nstar ell r2 au2um).
Notation runX := (run seqb artificial nstar ell r2 au2um).
Notation lookX := (look_up artificial nstar ell r2 au2um).
Notation checkX := (checkDistance artificial nstar ell r2 au2um).
Notation has := (has_radius r2).
Notation hyd := (hydrogen_radius nstar ell au2um).

Lemma has_leroy : forall s x, has s x -> leroyX s = Ok (Num x).
Proof.
  intros s x (a & b & E & A & B & ->). unfold leroy. rewrite E. cbn [bind fst snd]. unfold twice_roots.
  destruct (Rlt_dec a 0); [lra|]. destruct (Rlt_dec b 0); [lra|]. reflexivity.
Qed.
Lemma has_pos : forall s x, has s x -> 0 < x.
Proof. intros s x (a & b & E & A & B & ->). apply sqrt_lt_R0 in A. apply sqrt_lt_R0 in B. lra. Qed.
Lemma hyd_estimate : forall s e, hyd s e -> estimateX s = Ok (Num e).
Proof.
  intros s e (n1 & n2 & E & A & B & ->). unfold estimate. rewrite E. cbn [bind fst snd]. unfold twice_roots.
  assert (M : forall n l, mean_sq n l = r2_hydrogen n l) by (intros; unfold mean_sq, r2_hydrogen; field). rewrite !M.
  destruct (Rlt_dec _ 0); [lra|]. destruct (Rlt_dec _ 0); [lra|]. reflexivity.
Qed.
Lemma below_num : forall a b, below a (Num b) = true <-> a < b.
Proof. intros. unfold below. destruct (Rlt_dec a b); split; intros; auto; congruence. Qed.

(** the search ends at a listed real state *)
Lemma search_from : forall l best cr best' s, searchX l best cr = (best', Some s, Ok tt) -> cr = Some s \/ (In s l /\ artificial s = false).
Proof.
  induction l as [|x l IH]; intros best cr best' s H; cbn [search] in H; [injection H as _ ->; auto|].
  destruct (artificial x) eqn:Ax; [destruct (IH _ _ _ _ H) as [?|[? ?]]; [left|right; split; [right|]]; auto|].
  destruct (estimateX x) as [[| |e]| |]; try discriminate H.
  1,2: destruct (IH _ _ _ _ H) as [?|[? ?]]; [left|right; split; [right|]]; auto.
  destruct (below e best).
  - destruct (IH _ _ _ _ H) as [E|[? ?]]; right; [injection E as ->; split; [left|]; auto|split; [right|]; auto].
  - destruct (IH _ _ _ _ H) as [?|[? ?]]; [left|right; split; [right|]]; auto.
Qed.
(** it ends at one with the smallest estimate *)
Lemma search_min : forall l, (forall s, In s l -> artificial s = false -> exists e, hyd s e) -> forall best cr,
  match best, cr with
  | Dmax, None => True
  | Num b, Some c => hyd c b
  | _, _ => False
  end ->
  exists best' cr', searchX l best cr = (best', cr', Ok tt) /\
  match best', cr' with
  | Dmax, None => best = Dmax /\ forall s, In s l -> artificial s = true
  | Num b, Some c => hyd c b /\ (forall s e, In s l -> artificial s = false -> hyd s e -> b <= e) /\ (forall b0, best = Num b0 -> b <= b0)
  | _, _ => False
  end.
Proof.
  induction l as [|x l IH]; intros K best cr I.
  - exists best, cr. split; [reflexivity|]. destruct best, cr; try contradiction; [split; [reflexivity|intros ? []]|].
    split; [exact I|]. split; [intros ? ? []|]. intros b0 [= ->]. lra.
  - assert (K' : forall s, In s l -> artificial s = false -> exists e, hyd s e) by (intros s Hs; apply K; right; exact Hs).
    cbn [search]. destruct (artificial x) eqn:Ax.
    + destruct (IH K' best cr I) as (b' & c' & E & H). exists b', c'. split; [exact E|]. destruct b' as [| |b'], c' as [c'|]; try contradiction.
      * destruct H as [H1 H2]. split; [exact H1|]. intros s [<-|Hs]; auto.
      * destruct H as (H1 & H2 & H3). split; [exact H1|]. split; [|exact H3]. intros s e [<-|Hs] As; [congruence|]. apply H2; assumption.
    + destruct (K x (or_introl eq_refl) Ax) as [e He]. rewrite (hyd_estimate He).
      assert (U : forall e', hyd x e' -> e' = e).
      { intros e' He'. apply hyd_estimate in He'. apply hyd_estimate in He. congruence. }
      destruct (below e best) eqn:Be.
      * destruct (IH K' (Num e) (Some x) He) as (b' & c' & E & H). exists b', c'. split; [exact E|]. destruct b' as [| |b'], c' as [c'|]; try contradiction.
        -- destruct H as [H _]. discriminate H.
        -- destruct H as (H1 & H2 & H3). specialize (H3 e eq_refl). split; [exact H1|]. split.
           ++ intros s e' [<-|Hs] As He'; [rewrite (U _ He'); lra|]. apply (H2 s); assumption.
           ++ intros b0 ->. apply below_num in Be. lra.
      * destruct (IH K' best cr I) as (b' & c' & E & H). exists b', c'. split; [exact E|]. destruct best as [| |b0]; [discriminate Be|destruct cr; contradiction|].
        destruct b' as [| |b'], c' as [c'|]; try contradiction.
        -- destruct H as [H _]. discriminate H.
        -- destruct H as (H1 & H2 & H3). split; [exact H1|]. split; [|exact H3]. intros s e' [<-|Hs] As He'; [|apply (H2 s); assumption].
           rewrite (U _ He'). specialize (H3 b0 eq_refl). cbn in Be. destruct (Rlt_dec e b0); [discriminate|lra].
Qed.

Lemma append_incl : forall new l s, In s l -> In s (append_new seqb l new).
Proof.
  intros new. unfold append_new. induction new as [|x new IH]; intros l s H; [exact H|]. cbn [fold_left].
  apply IH. destruct (existsb _ _); [exact H|]. apply in_or_app. auto.
Qed.

(** the remembered radius belongs to a listed state *)
Definition sound (o : system St) : Prop :=
  radius o = Dmax \/ radius o = Num 0 \/ exists s, In s (states o) /\ artificial s = false /\ leroyX s = Ok (radius o).
Lemma look_sound : forall o o', lookX o = (o', Ok tt) -> sound o -> sound o' /\ radius o' <> Dmax /\ states o' = states o.
Proof.
  intros o o' H I. unfold look_up in H. destruct (radius o) as [| |x] eqn:R.
  - destruct (searchX (states o) Dmax None) as [[best [s|]] [[]| |]] eqn:S; try discriminate H.
    + destruct (leroyX s) as [r| |] eqn:L; try discriminate H. injection H as <-. cbn [radius states].
      apply search_from in S as [S|[S1 S2]]; [discriminate S|]. split; [|split; [|reflexivity]].
      * right. right. exists s. auto.
      * intros ->. unfold leroy in L. destruct (r2 s) as [[a b]| |]; try discriminate L. cbn [bind fst snd] in L. unfold twice_roots in L.
        destruct (Rlt_dec a 0); [discriminate|]. destruct (Rlt_dec b 0); discriminate.
    + injection H as <-. cbn. split; [right; left; reflexivity|]. split; [discriminate|reflexivity].
  - injection H as <-. rewrite R. split; [exact I|]. split; [discriminate|reflexivity].
  - injection H as <-. rewrite R. split; [exact I|]. split; [discriminate|reflexivity].
Qed.
Lemma step_sound : forall o a o' w, no_unitarize a -> stepX o a = (o', Ok w) -> sound o -> sound o'.
Proof.
  intros o a o' w N H I. destruct a as [d| |l|keep|l|l]; cbn [step] in H.
  - destruct (states o) eqn:Es; [discriminate H|]. unfold checkDistance in H. destruct (lookX o) as [o1 [[]| |]] eqn:L; try discriminate H.
    injection H as <- _. apply (look_sound L I).
  - injection H as <- _. exact I.
  - destruct (states o) eqn:Es; injection H as <- _; [|exact I]. destruct I as [I|[I|(s & Hs & _)]]; [left|right; left|rewrite Es in Hs; destruct Hs]; exact I.
  - injection H as <- _. left. reflexivity.
  - injection H as <- _. destruct I as [I|[I|(s & Hs & As & L)]]; [left; exact I|right; left; exact I|]. right. right. exists s. cbn [states radius].
    split; [apply append_incl; exact Hs|]. auto.
  - destruct N.
Qed.
Lemma run_sound : forall h o o' rs, Forall (@no_unitarize St) h -> runX o h = (o', rs) -> Forall quiet rs -> sound o -> sound o'.
Proof.
  induction h as [|a h IH]; intros o o' rs N H Q I; cbn [run] in H; [injection H as <- <-; exact I|].
  inversion N; subst. destruct (stepX o a) as [o1 r] eqn:E. destruct (runX o1 h) as [o2 rs'] eqn:E2. injection H as <- <-. inversion Q as [|? ? [w Qw] Q']; subst.
  apply (IH _ _ _ H3 E2 Q'). apply (@step_sound _ a _ _ H2 E I).
Qed.

(** without add: it is the smallest one *)
Definition smallest (l : list St) (r : dbl) : Prop :=
  match r with
  | Dmax => True
  | Nan => False
  | Num x => (forall s, In s l -> artificial s = false -> exists y, has s y /\ x <= y) /\
             ((exists s, In s l /\ artificial s = false /\ has s x) \/ (x = 0 /\ forall s, In s l -> artificial s = true))
  end.
Lemma look_smallest : forall o, known artificial nstar ell r2 au2um -> same_order artificial nstar ell r2 au2um ->
  smallest (states o) (radius o) -> exists x, lookX o = (System (states o) (Num x), Ok tt) /\ smallest (states o) (Num x).
Proof.
  intros o K O I. unfold look_up. destruct (radius o) as [| |x] eqn:R; [|destruct I|].
  - destruct (@search_min (states o)) with (best := Dmax) (cr := @None St) as (b & c & E & H); [|exact Logic.I|].
    { intros s Hs As. destruct (K s As) as (_ & e & _ & He). eauto. }
    rewrite E. destruct b as [| |b], c as [c|]; try contradiction.
    + destruct H as [_ H]. exists 0. split; [reflexivity|]. split; [|right; auto]. intros s Hs As. rewrite (H s Hs) in As. discriminate.
    + destruct H as (H1 & H2 & _). apply search_from in E as [E|[Hc Ac]]; [discriminate E|].
      destruct (K c Ac) as (x & _ & Hx & _). rewrite (has_leroy Hx). exists x. split; [reflexivity|]. split.
      * intros s Hs As. destruct (K s As) as (y & f & Hy & Hf). exists y. split; [exact Hy|]. eapply (O c s); eauto.
      * left. exists c. auto.
  - exists x. split; [|exact I]. destruct o as [l r]. cbn in *. subst r. reflexivity.
Qed.
Lemma step_smallest : forall o a o' w , no_join a -> stepX o a = (o', Ok w) ->
  known artificial nstar ell r2 au2um -> same_order artificial nstar ell r2 au2um ->
  smallest (states o) (radius o) /\ (states o = [] -> radius o = Dmax) -> smallest (states o') (radius o') /\ (states o' = [] -> radius o' = Dmax).
Proof.
  intros o a o' w N H K O [I Z]. destruct a as [d| |l|keep|l|l]; cbn [step] in H; try destruct N.
  - destruct (states o) as [|s0 l0] eqn:Es; [discriminate H|]. rewrite <- Es in *. unfold checkDistance in H. destruct (@look_smallest o K O I) as (x & E & S). rewrite E in H. injection H as <- _.
    cbn [states radius]. split; [exact S|]. congruence.
  - injection H as <- _. auto.
  - destruct (states o) as [|s0 l0] eqn:Es; injection H as <- _.
    + rewrite Z by reflexivity. cbn. auto.
    + rewrite Es. auto.
  - injection H as <- _. cbn. auto.
Qed.
Lemma run_smallest : forall h o o' rs, Forall (@no_join St) h -> runX o h = (o', rs) -> Forall quiet rs ->
  known artificial nstar ell r2 au2um -> same_order artificial nstar ell r2 au2um ->
  smallest (states o) (radius o) /\ (states o = [] -> radius o = Dmax) -> smallest (states o') (radius o') /\ (states o' = [] -> radius o' = Dmax).
Proof.
  induction h as [|a h IH]; intros o o' rs N H Q K O I; cbn [run] in H; [injection H as <- <-; exact I|].
  inversion N; subst. destruct (stepX o a) as [o1 r] eqn:E. destruct (runX o1 h) as [o2 rs'] eqn:E2. injection H as <- <-. inversion Q as [|? ? [w Qw] Q']; subst.
  apply (IH _ _ _ H3 E2 Q' K O). apply (@step_smallest _ a _ _ H2 E K O I).
Qed.
End P.
