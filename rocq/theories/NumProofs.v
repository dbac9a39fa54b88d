From Coq Require Import ZArith NArith Lia Bool String Ascii List QArith Lqa.
From Verif Require Import Base NumModel.
Import ListNotations.
Set Implicit Arguments.
Local Open Scope Z_scope.

(** text and toks *)
Definition wf_tok (t : tok) : Prop := match t with D d => 0 <= d <= 9 | Other => False | _ => True end.
Lemma lex_chr : forall t, wf_tok t -> lex (chr t) = t.
Proof.
  intros [d| | | | |] W; try reflexivity. cbn in W.
  assert (X : d = 0 \/ d = 1 \/ d = 2 \/ d = 3 \/ d = 4 \/ d = 5 \/ d = 6 \/ d = 7 \/ d = 8 \/ d = 9) by lia.
  repeat (destruct X as [-> | X]; [reflexivity|]). subst. reflexivity.
Qed.
Lemma toks_text : forall ts, Forall wf_tok ts -> toks (text ts) = ts.
Proof.
  intros ts F. unfold toks, text. rewrite list_ascii_of_string_of_list_ascii, map_map. induction F as [|t ts W F IH]; auto.
  cbn [map]. rewrite lex_chr, IH; auto.
Qed.

(** rounding *)
Lemma round_even_spec : forall x y, 0 < y -> 2 * Z.abs (round_even x y * y - x) <= y.
Proof.
  intros x y H. unfold round_even. pose proof (Z.div_mod x y ltac:(lia)) as E. pose proof (Z.mod_pos_bound x y H) as B.
  destruct (Z.compare_spec (2 * (x mod y)) y) as [C|C|C]; [destruct (Z.even (x / y))| |]; try nia.
Qed.
Lemma round_even_mono : forall x y a, 0 < y -> a * y <= x -> a <= round_even x y.
Proof.
  intros x y a H L. pose proof (round_even_spec x H) as S. destruct (Z.lt_ge_cases (round_even x y) a) as [C|C]; auto.
  assert (round_even x y * y <= (a - 1) * y) by nia. assert (2 * y <= 2 * (x - round_even x y * y)) by nia. lia.
Qed.
Lemma round_even_mono' : forall x y a, 0 < y -> x <= a * y -> round_even x y <= a.
Proof.
  intros x y a H L. pose proof (round_even_spec x H) as S. destruct (Z.lt_ge_cases a (round_even x y)) as [C|C]; auto.
  assert ((a + 1) * y <= round_even x y * y) by nia. assert (2 * y <= 2 * (round_even x y * y - x)) by nia. lia.
Qed.

(** exponent *)
Definition in_exp (p q e : Z) : Prop := ge10 p q e = true /\ ge10 p q (e + 1) = false.
Lemma find_exp_spec : forall n top p q, ge10 p q (top + 1) = false -> ge10 p q (top - Z.of_nat n) = true -> in_exp p q (find_exp n top p q) /\
  top - Z.of_nat n <= find_exp n top p q <= top.
Proof.
  induction n as [|n IH]; intros top p q H1 H2; cbn [find_exp].
  - rewrite Z.sub_0_r in H2. split; [split; auto|lia].
  - destruct (ge10 p q top) eqn:E. { split; [split; auto|lia]. }
    destruct (IH (top - 1) p q) as [I1 I2].
    + replace (top - 1 + 1) with top by lia. exact E.
    + replace (top - 1 - Z.of_nat n) with (top - Z.of_nat (S n)) by lia. exact H2.
    + split; auto. lia.
Qed.
(** numbers in the range of normal and subnormal doubles *)
Definition in_range (p q : Z) : Prop := 0 < q /\ 0 < p /\ ge10 p q (-360) = true /\ ge10 p q 320 = false.
Lemma ge10_step : forall p q e, 0 < p -> 0 < q -> ge10 p q e = false -> ge10 p q (e + 1) = false.
Proof.
  intros p q e Hp Hq H. unfold ge10 in *. destruct (Z.leb_spec 0 e) as [L|L].
  - replace (0 <=? e + 1) with true by (symmetry; apply Z.leb_le; lia). rewrite Z.leb_gt in *.
    rewrite Z.pow_add_r by lia. assert (0 < 10 ^ e) by (apply Z.pow_pos_nonneg; lia). nia.
  - rewrite Z.leb_gt in H. destruct (Z.leb_spec 0 (e + 1)) as [L'|L'].
    + replace e with (-1) in * by lia. cbn in *. rewrite Z.leb_gt. lia.
    + rewrite Z.leb_gt. replace (- e) with (- (e + 1) + 1) in H by lia. rewrite Z.pow_add_r in H by lia.
      assert (0 < 10 ^ (- (e + 1))) by (apply Z.pow_pos_nonneg; lia). nia.
Qed.
Lemma exponent_spec : forall p q, in_range p q -> in_exp p q (exponent p q) /\ -370 <= exponent p q <= 330.
Proof.
  intros p q (Hq & Hp & R1 & R2). apply find_exp_spec.
  - assert (G : forall n, ge10 p q (320 + Z.of_nat n) = false).
    { induction n as [|n IH]. { rewrite Z.add_0_r. auto. } replace (320 + Z.of_nat (S n)) with (320 + Z.of_nat n + 1) by lia. apply ge10_step; auto. }
    apply (G 11%nat).
  - change (330 - Z.of_nat 700) with (-370). destruct (ge10 p q (-370)) eqn:E; auto.
    assert (G : forall n, ge10 p q (-370 + Z.of_nat n) = false).
    { induction n as [|n IH]. { rewrite Z.add_0_r. auto. } replace (-370 + Z.of_nat (S n)) with (-370 + Z.of_nat n + 1) by lia. apply ge10_step; auto. }
    specialize (G 10%nat). change (-370 + Z.of_nat 10) with (-360) in G. congruence.
Qed.

(** six digits: 100000 <= m <= 999999 and |m * 10^(e-5) - p/q| <= 10^(e-5)/2; stated without division *)
Definition near (p q m e : Z) : Prop :=
  if 5 <=? e then 2 * Z.abs (m * (q * 10 ^ (e - 5)) - p) <= q * 10 ^ (e - 5)
  else 2 * Z.abs (m * q - p * 10 ^ (5 - e)) <= q.
Lemma scaled_spec : forall p q e, 0 < q -> 0 < p -> in_exp p q e -> 100000 <= scaled p q e <= 1000000 /\ near p q (scaled p q e) e.
Proof.
  intros p q e Hq Hp [E1 E2]. unfold scaled, near, ge10 in *. destruct (Z.leb_spec 5 e) as [L|L].
  - replace (0 <=? e) with true in E1 by (symmetry; apply Z.leb_le; lia).
    replace (0 <=? e + 1) with true in E2 by (symmetry; apply Z.leb_le; lia).
    rewrite Z.leb_le in E1. rewrite Z.leb_gt in E2.
    assert (P5 : 0 < 10 ^ (e - 5)) by (apply Z.pow_pos_nonneg; lia).
    assert (X : 10 ^ e = 100000 * 10 ^ (e - 5)). { replace e with (5 + (e - 5)) at 1 by lia. rewrite Z.pow_add_r by lia. reflexivity. }
    assert (Y : 10 ^ (e + 1) = 1000000 * 10 ^ (e - 5)). { replace (e + 1) with (6 + (e - 5)) at 1 by lia. rewrite Z.pow_add_r by lia. reflexivity. }
    rewrite X in E1. rewrite Y in E2. split; [split|].
    + apply round_even_mono; nia.
    + apply round_even_mono'; nia.
    + apply round_even_spec. nia.
  - assert (P5 : 0 < 10 ^ (5 - e)) by (apply Z.pow_pos_nonneg; lia).
    assert (A : 100000 * q <= p * 10 ^ (5 - e) <= 1000000 * q).
    { destruct (Z.leb_spec 0 e) as [L0|L0].
      - rewrite Z.leb_le in E1. replace (0 <=? e + 1) with true in E2 by (symmetry; apply Z.leb_le; lia). rewrite Z.leb_gt in E2.
        assert (X : 100000 = 10 ^ e * 10 ^ (5 - e)). { rewrite <- Z.pow_add_r by lia. replace (e + (5 - e)) with 5 by lia. reflexivity. }
        assert (Y : 1000000 = 10 ^ (e + 1) * 10 ^ (5 - e)). { rewrite <- Z.pow_add_r by lia. replace (e + 1 + (5 - e)) with 6 by lia. reflexivity. }
        rewrite X at 1. rewrite Y. nia.
      - rewrite Z.leb_le in E1. assert (X : 10 ^ (5 - e) = 100000 * 10 ^ (- e)). { replace (5 - e) with (5 + - e) by lia. rewrite Z.pow_add_r by lia. reflexivity. }
        rewrite X. split; [nia|]. destruct (Z.leb_spec 0 (e + 1)) as [L1|L1]; rewrite Z.leb_gt in E2.
        + replace e with (-1) in * by lia. change (10 ^ (-1 + 1)) with 1 in E2. change (10 ^ (- -1)) with 10. lia.
        + assert (Y : 10 ^ (- e) = 10 * 10 ^ (- (e + 1))). { replace (- e) with (1 + - (e + 1)) by lia. rewrite Z.pow_add_r by lia. reflexivity. }
          rewrite Y. nia. }
    split; [split|].
    + apply round_even_mono; nia.
    + apply round_even_mono'; nia.
    + apply round_even_spec. nia.
Qed.

Lemma six_bounds : forall p q, in_range p q -> let '(m, e) := six p q in 100000 <= m <= 999999 /\ -370 <= e <= 331.
Proof.
  intros p q R. unfold six. destruct (exponent_spec R) as [X Y]. destruct R as (Hq & Hp & _). destruct (scaled_spec Hq Hp X) as [B _].
  destruct (Z.eqb_spec (scaled p q (exponent p q)) 1000000); lia.
Qed.

(** The digits of m. *)
Lemma digits6_spec : forall m, 100000 <= m <= 999999 -> exists a b c d e f, digits6 m = [a; b; c; d; e; f] /\
  m = 100000 * a + 10000 * b + 1000 * c + 100 * d + 10 * e + f /\ 1 <= a <= 9 /\ 0 <= b <= 9 /\ 0 <= c <= 9 /\ 0 <= d <= 9 /\ 0 <= e <= 9 /\ 0 <= f <= 9.
Proof.
  intros m H. unfold digits6. do 6 eexists. split; [reflexivity|].
  assert (D1 : forall x, x = 10 * (x / 10) + x mod 10 /\ 0 <= x mod 10 <= 9).
  { intro x. pose proof (Z.div_mod x 10 ltac:(lia)). pose proof (Z.mod_pos_bound x 10 ltac:(lia)). lia. }
  destruct (D1 m) as [E0 B0], (D1 (m / 10)) as [E1 B1], (D1 (m / 100)) as [E2 B2], (D1 (m / 1000)) as [E3 B3], (D1 (m / 10000)) as [E4 B4].
  rewrite Z.div_div in E1, E2, E3, E4 by lia.
  change (10 * 10) with 100 in *. change (100 * 10) with 1000 in *. change (1000 * 10) with 10000 in *. change (10000 * 10) with 100000 in *.
  assert (1 <= m / 100000). { apply Z.div_le_lower_bound; lia. }
  assert (m / 100000 <= 9). { apply Z.lt_succ_r. apply Z.div_lt_upper_bound; lia. }
  lia.
Qed.

Definition reads_back (ts : list tok) (m e : Z) : Prop :=
  exists M K j, stod ts = Some (M, K) /\ 0 <= j /\ m = M * 10 ^ j /\ K = e - 5 + j.

Ltac stripped :=
  repeat match goal with |- context [?x =? 0] => destruct (Z.eqb_spec x 0); subst; cbn [strip frac map app firstn skipn repeat] end.
Lemma expo_reads : forall e, -1000 < e < 1000 -> exists s x l, 
  expo e = Exp :: s /\ (let '(eneg, ts) := sign s in digits 0 0 ts = (x, l, []) /\ e = if eneg then - x else x) /\ l <> 0 /\ Forall wf_tok s.
Proof.
  intros e H. unfold expo.
  assert (A : Z.abs e / 100 * 100 + Z.abs e / 10 mod 10 * 10 + Z.abs e mod 10 = Z.abs e /\ 0 <= Z.abs e mod 10 <= 9 /\ 0 <= Z.abs e / 10 mod 10 <= 9 /\ 0 <= Z.abs e / 100 <= 9).
  { pose proof (Z.div_mod (Z.abs e) 10 ltac:(lia)). pose proof (Z.div_mod (Z.abs e / 10) 10 ltac:(lia)).
    pose proof (Z.mod_pos_bound (Z.abs e) 10 ltac:(lia)). pose proof (Z.mod_pos_bound (Z.abs e / 10) 10 ltac:(lia)).
    rewrite Z.div_div in * by lia. change (10 * 10) with 100 in *.
    assert (0 <= Z.abs e / 100) by (apply Z.div_pos; lia). assert (Z.abs e / 100 < 10) by (apply Z.div_lt_upper_bound; lia). lia. }
  assert (A2 : Z.abs e < 100 -> 0 <= Z.abs e / 10 <= 9 /\ Z.abs e / 10 * 10 + Z.abs e mod 10 = Z.abs e).
  { intro. assert (0 <= Z.abs e / 10) by (apply Z.div_pos; lia). assert (Z.abs e / 10 < 10) by (apply Z.div_lt_upper_bound; lia).
    pose proof (Z.div_mod (Z.abs e) 10 ltac:(lia)). lia. }
  destruct A as (A & B1 & B2 & B3).
  destruct (Z.ltb_spec (Z.abs e) 100) as [C|C]; do 3 eexists; (split; [reflexivity|]).
  - destruct (A2 C) as [A3 A4]. destruct (Z.ltb_spec e 0); cbn [sign digits]; (split; [split; [reflexivity|lia]|split; [lia|]]); repeat constructor; cbn; lia.
  - destruct (Z.ltb_spec e 0); cbn [sign digits]; (split; [split; [reflexivity|lia]|split; [lia|]]); repeat constructor; cbn; lia.
Qed.


(** without exponent *)
Lemma reads_fixed : forall ts m e M K j, stod ts = Some (M, K) -> 0 <= j -> m = M * 10 ^ j -> K = e - 5 + j -> reads_back ts m e.
Proof. intros. exists M, K, j. auto. Qed.

Lemma frac_cases : forall b c d e f,
  (exists l, frac [b; c; d; e; f] = l /\
    ((l = [] /\ b = 0 /\ c = 0 /\ d = 0 /\ e = 0 /\ f = 0) \/
     (l = [Dot; D b] /\ c = 0 /\ d = 0 /\ e = 0 /\ f = 0) \/
     (l = [Dot; D b; D c] /\ d = 0 /\ e = 0 /\ f = 0) \/
     (l = [Dot; D b; D c; D d] /\ e = 0 /\ f = 0) \/
     (l = [Dot; D b; D c; D d; D e] /\ f = 0) \/
     l = [Dot; D b; D c; D d; D e; D f])).
Proof.
  intros. eexists. split; [reflexivity|]. unfold frac. cbn [strip].
  destruct (Z.eqb_spec f 0) as [->|]; [|tauto].
  destruct (Z.eqb_spec e 0) as [->|]; [|tauto].
  destruct (Z.eqb_spec d 0) as [->|]; [|tauto].
  destruct (Z.eqb_spec c 0) as [->|]; [|tauto].
  destruct (Z.eqb_spec b 0) as [->|]; tauto.
Qed.

Ltac fin j := let v := eval vm_compute in (10 ^ j) in eexists; eexists; exists j; split; [reflexivity|]; change (10 ^ j) with v; lia.
Ltac wf := repeat match goal with |- Forall _ [] => constructor | |- Forall _ (_ :: _) => constructor; [cbn; try exact I; try lia|] end.
Lemma render_reads : forall m e, 100000 <= m <= 999999 -> -1000 < e < 1000 -> reads_back (render m e) m e /\ Forall wf_tok (render m e).
Proof.
  intros m x Hm Hx. destruct (digits6_spec Hm) as (a & b & c & d & e & f & Dm & Em & Ha & Hb & Hc & Hd & He & Hf). unfold render. rewrite Dm.
  destruct ((-4 <=? x) && (x <? 6)) eqn:B.
  - apply andb_true_iff in B. destruct B as [B1 B2]. apply Z.leb_le in B1. apply Z.ltb_lt in B2.
    assert (X : x = -4 \/ x = -3 \/ x = -2 \/ x = -1 \/ x = 0 \/ x = 1 \/ x = 2 \/ x = 3 \/ x = 4 \/ x = 5) by lia.
    repeat (destruct X as [X|X]); subst x.
    all: match goal with |- context [if ?q then _ else _] => let v := eval vm_compute in q in change q with v end; cbv iota.
    all: repeat match goal with |- context [Z.to_nat ?z] => let v := eval vm_compute in (Z.to_nat z) in change (Z.to_nat z) with v end.
    all: unfold frac.
    all: cbn [Z.leb Z.compare firstn skipn map app repeat frac strip].
    all: repeat match goal with |- context [?z =? 0] => destruct (Z.eqb_spec z 0); subst; cbn [app map] end.
    all: try lia.
    all: split; [|wf].
    all: match goal with
         | |- reads_back ?ts _ _ => first [fin 0 | fin 1 | fin 2 | fin 3 | fin 4 | fin 5 | (idtac; match goal with |- ?G => idtac G end; fail 2)]
         end.
  - destruct (expo_reads Hx) as (s & y & l & -> & Hs & Hl & Fs). cbn [firstn skipn map app].
    destruct (frac_cases b c d e f) as (fr & -> & Hfr).
    destruct (sign s) as [eneg ts] eqn:Es. destruct Hs as [Hd1 He1].
    split.
    2:{ constructor; [cbn; lia|]. apply Forall_app. split; [|constructor; [exact I|exact Fs]].
        destruct Hfr as [(-> & _)|[(-> & _)|[(-> & _)|[(-> & _)|[(-> & _)| ->]]]]]; wf. }
    destruct Hfr as [(-> & Hr)|[(-> & Hr)|[(-> & Hr)|[(-> & Hr)|[(-> & Hr)| ->]]]]];
      unfold reads_back, stod; cbn [app sign digits]; cbn [Z.add Pos.add Pos.succ Z.eqb]; rewrite Es, Hd1;
      (destruct (Z.eqb_spec l 0); [congruence|]).
    + fin 5.
    + fin 4.
    + fin 3.
    + fin 2.
    + fin 1.
    + fin 0.
Qed.
