(** Rational values of what is written and read. *)
From Coq Require Import ZArith NArith Lia Bool String Ascii List QArith Qabs Qpower Qfield Lqa.
From Verif Require Import Base NumModel NumProofs.
Import ListNotations.
Set Implicit Arguments.
Local Open Scope Q_scope.

Lemma ten_pos : forall k, 0 < Qpower 10 k.
Proof. intro k. apply Qpower_0_lt. reflexivity. Qed.
Lemma ten_nz : ~ 10 == 0.
Proof. discriminate. Qed.
Lemma ten_Z : forall k, (0 <= k)%Z -> inject_Z (10 ^ k) == Qpower 10 k.
Proof. intros k H. rewrite Zpower_Qpower by auto. reflexivity. Qed.

Lemma value_scale : forall M j k, (0 <= j)%Z -> value (M, (k + j)%Z) == value ((M * 10 ^ j)%Z, k).
Proof.
  intros M j k H. unfold value. cbn [fst snd]. rewrite Qpower_plus by apply ten_nz. rewrite inject_Z_mult, ten_Z by auto. ring.
Qed.

Lemma inj_le : forall a b, (a <= b)%Z -> inject_Z a <= inject_Z b.
Proof. intros. rewrite <- Zle_Qle. auto. Qed.

Lemma near_value : forall p q m e, near p (Zpos q) m e -> Qabs (value (m, (e - 5)%Z) - (p # q)) <= (1 # 2) * Qpower 10 (e - 5).
Proof.
  intros p q m e N. unfold near, value in *. cbn [fst snd]. set (T := Qpower 10 (e - 5)).
  pose proof (ten_pos (e - 5)) as Tp. fold T in Tp.
  assert (X : p # q == inject_Z p / inject_Z (Zpos q)). { rewrite (Qmake_Qdiv p q). reflexivity. }
  assert (Qp : 0 < inject_Z (Zpos q)) by reflexivity.
  set (Y := inject_Z (Zpos q)) in *. set (pp := inject_Z p) in *. set (mm := inject_Z m) in *.
  assert (K : 2 * (mm * T * Y - pp) <= Y * T /\ 2 * (pp - mm * T * Y) <= Y * T).
  { destruct (Z.leb_spec 5 e) as [L|L].
    - assert (N1 : (2 * (m * (Z.pos q * 10 ^ (e - 5)) - p) <= Z.pos q * 10 ^ (e - 5))%Z) by lia.
      assert (N2 : (2 * (p - m * (Z.pos q * 10 ^ (e - 5))) <= Z.pos q * 10 ^ (e - 5))%Z) by lia.
      apply inj_le in N1. apply inj_le in N2. unfold Zminus in N1, N2. rewrite ?inject_Z_mult, ?inject_Z_plus, ?inject_Z_opp, ?inject_Z_mult, ?ten_Z in N1, N2 by lia.
      unfold T, Y, pp, mm, Qminus. unfold Zminus. change (inject_Z 2) with 2 in *.
      split; [eapply Qle_trans; [|exact N1]|eapply Qle_trans; [|exact N2]]; apply Qle_lteq; right; ring.
    - set (S := Qpower 10 (5 - e)).
      assert (ST : S * T == 1). { unfold S, T. rewrite <- Qpower_plus by apply ten_nz. replace (5 - e + (e - 5))%Z with 0%Z by lia. reflexivity. }
      assert (N1 : (2 * (m * Z.pos q - p * 10 ^ (5 - e)) <= Z.pos q)%Z) by lia.
      assert (N2 : (2 * (p * 10 ^ (5 - e) - m * Z.pos q) <= Z.pos q)%Z) by lia.
      apply inj_le in N1. apply inj_le in N2. unfold Zminus in N1, N2. rewrite ?inject_Z_mult, ?inject_Z_plus, ?inject_Z_opp, ?inject_Z_mult in N1, N2.
      assert (TZ : inject_Z (10 ^ (5 + - e)) == S). { rewrite ten_Z by lia. reflexivity. }
      rewrite TZ in N1, N2. fold pp mm Y in N1, N2. change (inject_Z 2) with 2 in *.
      assert (R1 : 2 * (mm * T * Y - pp) == 2 * (mm * Y + - (pp * S)) * T).
      { setoid_replace (2 * (mm * T * Y - pp)) with (2 * (mm * T * Y - pp * 1)) by ring. rewrite <- ST. ring. }
      assert (R2 : 2 * (pp - mm * T * Y) == 2 * (pp * S + - (mm * Y)) * T).
      { setoid_replace (2 * (pp - mm * T * Y)) with (2 * (pp * 1 - mm * T * Y)) by ring. rewrite <- ST. ring. }
      rewrite R1, R2. split; apply Qmult_le_compat_r; auto; apply Qlt_le_weak; auto. }
  destruct K as [K1 K2]. rewrite X. apply Qabs_Qle_condition.
  assert (Z0 : pp == (pp / Y) * Y) by (field; intro E; rewrite E in Qp; discriminate).
  set (x := pp / Y) in *. rewrite Z0 in K1, K2.
  split.
  - apply Qmult_le_r with (z := Y); auto. lra.
  - apply Qmult_le_r with (z := Y); auto. lra.
Qed.

(** What is written for a positive number. *)
Lemma six_value : forall p q, in_range p (Zpos q) -> let '(m, e) := six p (Zpos q) in
  Qabs (value (m, (e - 5)%Z) - (p # q)) <= (1 # 200000) * value (m, (e - 5)%Z).
Proof.
  intros p q R. pose proof (six_bounds R) as B. unfold six in *. destruct (exponent_spec R) as [X _]. destruct R as (Hq & Hp & _).
  destruct (scaled_spec Hq Hp X) as [B2 N]. apply near_value in N. set (e := exponent p (Zpos q)) in *. set (m := scaled p (Zpos q) e) in *.
  assert (G : forall m, (100000 <= m)%Z -> (1 # 2) * Qpower 10 (e - 5) <= (1 # 200000) * value (m, (e - 5)%Z)).
  { intros m' Hm'. unfold value. cbn [fst snd]. pose proof (ten_pos (e - 5)). apply inj_le in Hm'. change (inject_Z 100000) with 100000 in Hm'. nra. }
  destruct (Z.eqb_spec m 1000000) as [E|E].
  - assert (V : value (100000%Z, (e + 1 - 5)%Z) == value (m, (e - 5)%Z)).
    { rewrite E. replace (e + 1 - 5)%Z with (e - 5 + 1)%Z by lia. rewrite value_scale by lia. reflexivity. }
    rewrite V. eapply Qle_trans; [exact N|]. apply G. lia.
  - eapply Qle_trans; [exact N|]. apply G. lia.
Qed.

Definition double_range (x : Q) : Prop := x == 0 \/ in_range (Z.abs (Qnum x)) (Zpos (Qden x)).

Lemma fmt6_wf : forall x, double_range x -> Forall wf_tok (fmt6_toks x).
Proof.
  intros x R. unfold fmt6_toks. destruct (Z.eqb_spec (Qnum x) 0) as [E|E]. { repeat constructor; cbn; lia. }
  destruct R as [R|R]. { unfold Qeq in R. cbn in R. lia. }
  pose proof (six_bounds R) as B. destruct (six (Z.abs (Qnum x)) (Zpos (Qden x))) as [m e]. destruct (@render_reads m e) as [_ F]; try lia.
  destruct (Qnum x <? 0)%Z; cbn [app]; auto. constructor; auto. exact I.
Qed.

Lemma sign_digit : forall ts M K, stod ts = Some (M, K) -> (forall d ts', ts = D d :: ts' -> True) -> match ts with D _ :: _ => True | _ => False end ->
  stod (Minus :: ts) = Some ((- M)%Z, K).
Proof.
  intros ts M K E _ H. destruct ts as [|[d| | | | |] ts]; try (elim H; fail). unfold stod in *. cbn [sign] in *.
  destruct (digits 0 0 (D d :: ts)) as [[a n] r]. destruct (match r with Dot :: r => digits a 0 r | _ => (a, 0%Z, r) end) as [[a' k] r'].
  destruct (n + k =? 0)%Z; [discriminate|]. destruct r' as [|[| | | | |] r']; try (injection E as <- <-; reflexivity).
  destruct (sign r') as [en r2]. destruct (digits 0 0 r2) as [[x l] r3]. destruct (l =? 0)%Z; injection E as <- <-; reflexivity.
Qed.
Lemma render_digit : forall m e, (100000 <= m <= 999999)%Z -> match render m e with D _ :: _ => True | _ => False end.
Proof.
  intros m x Hm. destruct (digits6_spec Hm) as (a & b & c & d & e & f & Dm & _). unfold render. rewrite Dm.
  destruct ((-4 <=? x)%Z && (x <? 6)%Z); [|exact I]. destruct (Z.leb_spec 0 x); [|exact I].
  replace (Z.to_nat (x + 1)) with (S (Z.to_nat x)) by lia. exact I.
Qed.

(** Reading what was written gives the value up to a relative deviation of 5e-6. *)
Theorem fmt6_reads : forall x, double_range x ->
  exists v, stod (toks (fmt6 x)) = Some v /\ Qabs (value v - x) <= (1 # 200000) * Qabs (value v).
Proof.
  intros x R. unfold fmt6. rewrite toks_text by (apply fmt6_wf; auto). unfold fmt6_toks. destruct (Z.eqb_spec (Qnum x) 0) as [E|E].
  { exists (0%Z, 0%Z). split; [reflexivity|]. assert (X : x == 0) by (unfold Qeq; cbn; lia). rewrite X. discriminate. }
  destruct R as [R|R]. { unfold Qeq in R. cbn in R. lia. }
  pose proof (six_bounds R) as B. pose proof (six_value R) as V. destruct (six (Z.abs (Qnum x)) (Zpos (Qden x))) as [m e].
  destruct (@render_reads m e) as [(M & K & j & S & Hj & Em & Ek) _]; try lia.
  assert (Ev : value (M, K) == value (m, (e - 5)%Z)). { rewrite Ek, Em. apply value_scale. auto. }
  assert (Vp : 0 <= value (m, (e - 5)%Z)). { unfold value. cbn [fst snd]. pose proof (ten_pos (e - 5)). apply Qmult_le_0_compat; [|apply Qlt_le_weak; auto].
    change 0 with (inject_Z 0). apply inj_le. lia. }
  assert (Vm : value ((- M)%Z, K) == - value (M, K)). { unfold value. cbn [fst snd]. rewrite inject_Z_opp. ring. }
  destruct (Z.ltb_spec (Qnum x) 0) as [L|L].
  - exists ((- M)%Z, K). split. { apply sign_digit; auto. apply render_digit. lia. }
    rewrite Vm, Ev, Qabs_opp, (Qabs_pos _ Vp).
    assert (X : Z.abs (Qnum x) # Qden x == - x). { rewrite Z.abs_neq by lia. reflexivity. }
    rewrite X in V. eapply Qle_trans; [|exact V]. apply Qle_lteq. right. rewrite <- Qabs_opp. apply Qabs_wd. ring.
  - exists (M, K). split; auto. cbn [app]. rewrite Ev, (Qabs_pos _ Vp).
    assert (X : Z.abs (Qnum x) # Qden x == x). { rewrite Z.abs_eq by lia. destruct x; reflexivity. }
    rewrite X in V. exact V.
Qed.

(** Numbers written the same way are close. *)
Theorem fmt6_close : forall x y, double_range x -> double_range y -> fmt6 x = fmt6 y ->
  exists v, Qabs (v - x) <= (1 # 200000) * Qabs v /\ Qabs (v - y) <= (1 # 200000) * Qabs v.
Proof.
  intros x y Rx Ry E. destruct (fmt6_reads Rx) as (v & Sv & Hv). destruct (fmt6_reads Ry) as (w & Sw & Hw).
  rewrite E, Sw in Sv. injection Sv as <-. exists (value w). auto.
Qed.

(** Integers *)
Lemma digits_app : forall ds acc n, digits acc n (map D ds) = (fold_left (fun a d => 10 * a + d)%Z ds acc, (n + Z.of_nat (length ds))%Z, []).
Proof.
  induction ds as [|d ds IH]; intros acc n; cbn [map digits fold_left length]. { rewrite Z.add_0_r. reflexivity. }
  rewrite IH. replace (n + 1 + Z.of_nat (length ds))%Z with (n + Z.of_nat (S (length ds)))%Z by lia. reflexivity.
Qed.
Lemma dec_digits_spec : forall fuel n acc, (0 <= n < 10 ^ Z.of_nat fuel)%Z -> (0 < fuel)%nat -> exists ds, dec_digits fuel n (map D acc) = map D (ds ++ acc) /\
  (forall a, fold_left (fun a d => 10 * a + d)%Z ds a = a * 10 ^ Z.of_nat (length ds) + n)%Z /\ Forall (fun d => 0 <= d <= 9)%Z ds /\ ds <> [].
Proof.
  induction fuel as [|f IH]; intros n acc H F; [lia|]. cbn [dec_digits]. destruct (Z.ltb_spec n 10) as [L|L].
  - exists [n]. split; [reflexivity|]. split; [|split; [repeat constructor; lia|discriminate]]. intro a. cbn [fold_left length]. change (10 ^ Z.of_nat 1)%Z with 10%Z. lia.
  - destruct f as [|f]. { change (10 ^ Z.of_nat 1)%Z with 10%Z in H. lia. }
    destruct (IH (n / 10)%Z ((n mod 10)%Z :: acc)) as (ds & E & V & Fd & Nd); [|lia|].
    { split; [apply Z.div_pos; lia|]. apply Z.div_lt_upper_bound; [lia|]. rewrite Nat2Z.inj_succ, Z.pow_succ_r in H by lia. lia. }
    exists (ds ++ [n mod 10])%Z. split; [|split; [|split]].
    + cbn [map] in E. rewrite E. rewrite <- app_assoc. reflexivity.
    + intro a. rewrite fold_left_app, V. cbn [fold_left]. rewrite app_length. cbn [length]. rewrite Nat2Z.inj_add, Z.pow_add_r by lia.
      change (10 ^ Z.of_nat 1)%Z with 10%Z. pose proof (Z.div_mod n 10 ltac:(lia)). lia.
    + apply Forall_app. split; auto. repeat constructor; pose proof (Z.mod_pos_bound n 10 ltac:(lia)); lia.
    + destruct ds; discriminate.
Qed.
Theorem int_reads : forall n, (- 2 ^ 31 <= n < 2 ^ 31)%Z -> stoi (toks (fmt_int n)) = Ok n.
Proof.
  intros n H. unfold fmt_int. destruct (@dec_digits_spec 10 (Z.abs n) []) as (ds & E & V & F & N).
  { change (10 ^ Z.of_nat 10)%Z with 10000000000%Z. lia. } { lia. }
  cbn [map] in E. rewrite app_nil_r in E. rewrite E.
  assert (W : Forall wf_tok (map D ds)). { clear - F. induction F; constructor; auto. }
  rewrite toks_text. 2:{ destruct (n <? 0)%Z; cbn [app]; auto. constructor; auto. exact I. }
  assert (R : digits 0 0 (map D ds) = (Z.abs n, Z.of_nat (length ds), [])). { rewrite digits_app, V. reflexivity. }
  assert (L : Z.of_nat (length ds) <> 0%Z). { destruct ds; [congruence|cbn; lia]. }
  unfold stoi. destruct (Z.ltb_spec n 0) as [C|C].
  - cbn [app sign]. rewrite R. destruct (Z.eqb_spec (Z.of_nat (length ds)) 0); [congruence|].
    replace (- Z.abs n)%Z with n by lia.
    destruct (Z.leb_spec (- 2 ^ 31) n); [|lia]. destruct (Z.ltb_spec n (2 ^ 31)); [reflexivity|lia].
  - cbn [app]. assert (Sg : sign (map D ds) = (false, map D ds)) by (destruct ds; reflexivity). rewrite Sg, R.
    destruct (Z.eqb_spec (Z.of_nat (length ds)) 0); [congruence|]. rewrite Z.abs_eq by lia.
    destruct (Z.leb_spec (- 2 ^ 31) n); [|lia]. destruct (Z.ltb_spec n (2 ^ 31)); [reflexivity|lia].
Qed.
