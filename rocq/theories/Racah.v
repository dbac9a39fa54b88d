(** The textbook (Racah) formulas for the Wigner 3j and 6j symbols over the reals, and their
    symmetries.  This file models nothing of the code: it is the specification of the external
    library functions WignerSymbols::wigner3j and wigner6j that MatrixElementCache.cpp 815-946
    calls.  All arguments are doubled. *)
From Coq Require Import ZArith Reals Lra Lia Bool.
Local Open Scope Z_scope.

Definition invfact (z : Z) : R := if z <? 0 then 0%R else (/ INR (fact (Z.to_nat z)))%R.
Definition zfact (z : Z) : R := INR (fact (Z.to_nat z)).
Definition rsgn (e : Z) : R := if Z.even e then 1%R else (-1)%R.

(** Sum over lo <= t < lo + len. *)
Fixpoint zsum (lo : Z) (len : nat) (f : Z -> R) : R :=
  match len with O => 0%R | S p => (f lo + zsum (lo + 1) p f)%R end.

(** Triangle condition on doubled arguments, with integral perimeter. *)
Definition triangle (a b c : Z) : bool :=
  (Z.abs (a - b) <=? c) && (c <=? a + b) && Z.even (a + b + c).
Definition proj (j m : Z) : bool := (Z.abs m <=? j) && Z.even (j - m).

Definition racah_term (a b c x y : Z) (t : Z) : R :=
  (rsgn t * (invfact t * invfact ((a + b - c) / 2 - t) * invfact ((a - x) / 2 - t) *
             invfact ((b + y) / 2 - t) * invfact ((c - b + x) / 2 + t) * invfact ((c - a - y) / 2 + t)))%R.

Definition norm3 (a b c x y z : Z) : R :=
  sqrt (zfact ((a + b - c) / 2) * zfact ((a - b + c) / 2) * zfact ((b + c - a) / 2)
        * invfact ((a + b + c) / 2 + 1)
        * (zfact ((a + x) / 2) * zfact ((a - x) / 2)) * (zfact ((b + y) / 2) * zfact ((b - y) / 2))
        * (zfact ((c + z) / 2) * zfact ((c - z) / 2))).

(** Number of terms: t runs over -(a+b+c) .. a+b+c; outside the support every term is zero. *)
Definition span (s : Z) (f : Z -> R) : R := zsum (- s) (Z.to_nat (2 * s + 1)) f.

Definition W3j (a b c x y z : Z) : R :=
  if triangle a b c && proj a x && proj b y && proj c z && (x + y + z =? 0)
  then (rsgn ((a - b - z) / 2) * (norm3 a b c x y z * span (a + b + c) (racah_term a b c x y)))%R
  else 0%R.

Definition delta (a b c : Z) : R :=
  (zfact ((a + b - c) / 2) * zfact ((a - b + c) / 2) * zfact ((b + c - a) / 2)
     * invfact ((a + b + c) / 2 + 1))%R.

Definition racah6_term (a b c d e f t : Z) : R :=
  (rsgn t * zfact (t + 1) *
   (invfact (t - (a + b + c) / 2) * invfact (t - (a + e + f) / 2) * invfact (t - (d + b + f) / 2) *
    invfact (t - (d + e + c) / 2)) *
   (invfact ((a + b + d + e) / 2 - t) * invfact ((b + c + e + f) / 2 - t) * invfact ((c + a + f + d) / 2 - t)))%R.

Definition W6j (a b c d e f : Z) : R :=
  if triangle a b c && triangle a e f && triangle d b f && triangle d e c
  then (sqrt (delta a b c * delta a e f * delta d b f * delta d e c)
        * zsum 0 (Z.to_nat (a + b + c + d + e + f)) (racah6_term a b c d e f))%R
  else 0%R.

(** ** Sums *)
Lemma zsum_ext : forall len lo f g, (forall t, lo <= t < lo + Z.of_nat len -> f t = g t) ->
  zsum lo len f = zsum lo len g.
Proof.
  induction len as [|p IH]; intros lo f g H; [reflexivity|]. cbn [zsum]. f_equal.
  - apply H. lia.
  - apply IH. intros t Ht. apply H. lia.
Qed.
Lemma zsum_zero : forall len lo f, (forall t, lo <= t < lo + Z.of_nat len -> f t = 0%R) ->
  zsum lo len f = 0%R.
Proof.
  induction len as [|p IH]; intros lo f H; [reflexivity|]. cbn [zsum].
  rewrite H, IH; [lra| |lia]. intros t Ht. apply H. lia.
Qed.
Lemma zsum_app : forall p q lo f, zsum lo (p + q) f = (zsum lo p f + zsum (lo + Z.of_nat p) q f)%R.
Proof.
  induction p as [|p IH]; intros q lo f; cbn [zsum Nat.add].
  - rewrite Z.add_0_r. lra.
  - rewrite IH. replace (lo + 1 + Z.of_nat p) with (lo + Z.of_nat (S p)) by lia. lra.
Qed.
Lemma zsum_last : forall p lo f, zsum lo (S p) f = (zsum lo p f + f (lo + Z.of_nat p)%Z)%R.
Proof. intros p lo f. rewrite <- Nat.add_1_r, zsum_app. cbn [zsum]. lra. Qed.
Lemma zsum_shift : forall len lo c f, zsum lo len (fun t => f (t + c)) = zsum (lo + c) len f.
Proof.
  induction len as [|p IH]; intros lo c f; [reflexivity|]. cbn [zsum]. f_equal.
  rewrite IH. f_equal. lia.
Qed.
Lemma zsum_reflect : forall len lo c f,
  zsum lo len (fun t => f (c - t)) = zsum (c - lo - Z.of_nat len + 1) len f.
Proof.
  induction len as [|p IH]; intros lo c f; [reflexivity|].
  rewrite zsum_last with (lo := c - lo - Z.of_nat (S p) + 1). cbn [zsum].
  rewrite IH. replace (c - (lo + 1) - Z.of_nat p + 1) with (c - lo - Z.of_nat (S p) + 1) by lia.
  replace (c - lo - Z.of_nat (S p) + 1 + Z.of_nat p) with (c - lo) by lia. lra.
Qed.
Lemma zsum_scale : forall len lo k f, zsum lo len (fun t => (k * f t)%R) = (k * zsum lo len f)%R.
Proof. induction len as [|p IH]; intros lo k f; cbn [zsum]; [lra|]. rewrite IH. lra. Qed.

(** Two ranges that both contain the support give the same sum. *)
Lemma zsum_grow : forall f lo len lo' len',
  (forall t, f t <> 0%R -> lo <= t < lo + Z.of_nat len) ->
  lo' <= lo -> lo + Z.of_nat len <= lo' + Z.of_nat len' ->
  zsum lo' len' f = zsum lo len f.
Proof.
  intros f lo len lo' len' S H1 H2.
  assert (Z0 : forall t, ~ (lo <= t < lo + Z.of_nat len) -> f t = 0%R).
  { intros t Ht. destruct (Req_dec (f t) 0) as [E|E]; [exact E|]. exfalso. auto. }
  replace len' with (Z.to_nat (lo - lo') + (len + Z.to_nat (lo' + Z.of_nat len' - lo - Z.of_nat len)))%nat by lia.
  rewrite !zsum_app. rewrite (zsum_zero (Z.to_nat (lo - lo'))).
  2:{ intros t Ht. apply Z0. lia. }
  replace (lo' + Z.of_nat (Z.to_nat (lo - lo'))) with lo by lia.
  rewrite (zsum_zero (Z.to_nat (lo' + Z.of_nat len' - lo - Z.of_nat len))).
  2:{ intros t Ht. apply Z0. lia. }
  lra.
Qed.

Lemma span_reflect : forall s f c, (forall t, f t <> 0%R -> - s <= t <= s /\ - s <= c - t <= s) ->
  0 <= s -> span s (fun t => f (c - t)) = span s f.
Proof.
  intros s f c S H. unfold span. rewrite zsum_reflect.
  set (N := Z.to_nat (2 * s + 1)).
  assert (EN : Z.of_nat N = 2 * s + 1) by (unfold N; lia).
  destruct (Z_le_gt_dec 0 c) as [Hc|Hc].
  - (* both equal to the sum over [c - s, s] *)
    destruct (Z_le_gt_dec (c - s) s) as [Hs|Hs].
    + rewrite (zsum_grow f (c - s) (Z.to_nat (2 * s - c + 1))).
      * symmetry. apply zsum_grow; [|lia|lia]. intros t Ht. apply S in Ht. lia.
      * intros t Ht. apply S in Ht. lia.
      * lia.
      * lia.
    + rewrite !zsum_zero; [reflexivity| |].
      all: intros t _; destruct (Req_dec (f t) 0) as [E|E]; [exact E|apply S in E; lia].
  - destruct (Z_le_gt_dec (- s) (c + s)) as [Hs|Hs].
    + rewrite (zsum_grow f (- s) (Z.to_nat (2 * s + c + 1))).
      * symmetry. apply zsum_grow; [|lia|lia]. intros t Ht. apply S in Ht. lia.
      * intros t Ht. apply S in Ht. lia.
      * lia.
      * lia.
    + rewrite !zsum_zero; [reflexivity| |].
      all: intros t _; destruct (Req_dec (f t) 0) as [E|E]; [exact E|apply S in E; lia].
Qed.
Lemma span_ext : forall s f g, (forall t, f t = g t) -> span s f = span s g.
Proof. intros. apply zsum_ext. auto. Qed.
Lemma span_scale : forall s k f, span s (fun t => (k * f t)%R) = (k * span s f)%R.
Proof. intros. apply zsum_scale. Qed.
Lemma span_shift : forall s f c, (forall t, f t <> 0%R -> - s <= t <= s /\ - s <= t - c <= s) ->
  0 <= s -> span s (fun t => f (t + c)) = span s f.
Proof.
  intros s f c S H.
  transitivity (span s (fun t => f (c - t))).
  - (* reflect f(t + c) around 0 *)
    symmetry. rewrite <- (span_reflect s (fun t => f (t + c)) 0).
    + apply span_ext. intros t. f_equal. lia.
    + intros t Ht. apply S in Ht. lia.
    + exact H.
  - apply span_reflect; [|exact H]. intros t Ht. apply S in Ht. lia.
Qed.

Lemma invfact_neg : forall z, z < 0 -> invfact z = 0%R.
Proof. intros z H. unfold invfact. destruct (Z.ltb_spec z 0); [reflexivity|lia]. Qed.
Lemma invfact_nz : forall z, invfact z <> 0%R -> 0 <= z.
Proof. intros z H. destruct (Z_lt_le_dec z 0) as [L|L]; [|exact L]. now rewrite invfact_neg in H. Qed.

Lemma rsgn_add : forall a b, rsgn (a + b) = (rsgn a * rsgn b)%R.
Proof. intros a b. unfold rsgn. rewrite Z.even_add. destruct (Z.even a), (Z.even b); cbn; lra. Qed.
Lemma rsgn_opp : forall a, rsgn (- a) = rsgn a.
Proof. intros a. unfold rsgn. now rewrite Z.even_opp. Qed.
Lemma rsgn_sub : forall a b, rsgn (a - b) = (rsgn a * rsgn b)%R.
Proof. intros a b. unfold Z.sub. now rewrite rsgn_add, rsgn_opp. Qed.
Lemma rsgn_sq : forall a, (rsgn a * rsgn a = 1)%R.
Proof. intros a. unfold rsgn. destruct (Z.even a); lra. Qed.
Lemma rsgn_even : forall a, Z.even a = true -> rsgn a = 1%R.
Proof. intros a H. unfold rsgn. now rewrite H. Qed.

Lemma term_support : forall a b c x y t, racah_term a b c x y t <> 0%R ->
  0 <= t /\ 0 <= (a + b - c) / 2 - t /\ 0 <= (a - x) / 2 - t /\ 0 <= (b + y) / 2 - t /\
  0 <= (c - b + x) / 2 + t /\ 0 <= (c - a - y) / 2 + t.
Proof.
  intros a b c x y t H. unfold racah_term in H.
  repeat split; apply invfact_nz; intro E; apply H; rewrite E; lra.
Qed.

(** Halving: introduce the halves of the even combinations. *)
Lemma half : forall z, Z.even z = true -> exists h, z = 2 * h.
Proof. intros z H. apply Z.even_spec in H. exact H. Qed.
Lemma div2_of : forall z h, z = 2 * h -> z / 2 = h.
Proof. intros z h ->. now rewrite Z.mul_comm, Z.div_mul. Qed.

Lemma triangle_rot : forall a b c, triangle a b c = triangle c b a.
Proof.
  intros a b c. apply eq_true_iff_eq. unfold triangle. rewrite !andb_true_iff, !Z.leb_le.
  replace (c + b + a) with (a + b + c) by lia. intuition lia.
Qed.
Lemma triangle_swap : forall a b c, triangle a b c = triangle b a c.
Proof.
  intros a b c. apply eq_true_iff_eq. unfold triangle. rewrite !andb_true_iff, !Z.leb_le.
  replace (b + a + c) with (a + b + c) by lia. intuition lia.
Qed.
Lemma proj_opp : forall j m, proj j (- m) = proj j m.
Proof.
  intros j m. unfold proj. rewrite Z.abs_opp. f_equal.
  replace (j - - m) with (j - m + 2 * m) by lia. rewrite Z.even_add, Z.even_mul. cbn.
  now destruct (Z.even (j - m)).
Qed.

Definition valid3 (a b c x y z : Z) : bool :=
  triangle a b c && proj a x && proj b y && proj c z && (x + y + z =? 0).

Lemma valid3_halves : forall a b c x y z, valid3 a b c x y z = true ->
  exists p q r u v w, a = p + q /\ b = r + u /\ c = v + w /\ x = p - q /\ y = r - u /\ z = v - w /\
    p + r + v = q + u + w /\ 0 <= p /\ 0 <= q /\ 0 <= r /\ 0 <= u /\ 0 <= v /\ 0 <= w /\
    (exists h, p + q + r + u + v + w = 2 * h) /\
    Z.abs (a - b) <= c <= a + b.
Proof.
  intros a b c x y z H. unfold valid3, triangle, proj in H.
  repeat rewrite andb_true_iff in H. rewrite !Z.leb_le, !Z.eqb_eq in H.
  destruct H as [[[[[[T1 T2] T3] [P1 P2]] [P3 P4]] [P5 P6]] S].
  destruct (half _ T3) as [ht Et], (half _ P2) as [ha Ea], (half _ P4) as [hb Eb], (half _ P6) as [hc Ec].
  exists (a - ha), ha, (b - hb), hb, (c - hc), hc. repeat split; try lia. exists ht. lia.
Qed.

Lemma term_halves : forall p q r u v w h t, p + r + v = h -> q + u + w = h ->
  racah_term (p + q) (r + u) (v + w) (p - q) (r - u) t =
  (rsgn t * (invfact t * invfact (h - v - w - t) * invfact (q - t) * invfact (r - t) *
             invfact (w - r + t) * invfact (v - q + t)))%R.
Proof.
  intros p q r u v w h t H1 H2. unfold racah_term.
  rewrite (div2_of (p + q + (r + u) - (v + w)) (h - v - w)) by lia.
  rewrite (div2_of (p + q - (p - q)) q) by lia.
  rewrite (div2_of (r + u + (r - u)) r) by lia.
  rewrite (div2_of (v + w - (r + u) + (p - q)) (w - r)) by lia.
  rewrite (div2_of (v + w - (p + q) - (r - u)) (v - q)) by lia.
  reflexivity.
Qed.

Lemma valid3_swap : forall a b c x y z, valid3 a b c x y z = valid3 c b a z y x.
Proof.
  intros a b c x y z. unfold valid3. rewrite (triangle_rot c b a).
  replace (z + y + x) with (x + y + z) by lia.
  destruct (triangle a b c), (proj a x), (proj b y), (proj c z); reflexivity.
Qed.
Lemma valid3_flip : forall a b c x y z, valid3 a b c (- x) (- y) (- z) = valid3 a b c x y z.
Proof.
  intros a b c x y z. unfold valid3. rewrite !proj_opp. f_equal.
  apply eq_true_iff_eq. rewrite !Z.eqb_eq. lia.
Qed.

(** *** Exchange of the first and third column *)
Theorem W3j_swap : forall a b c x y z,
  W3j a b c x y z = (rsgn ((a + b + c) / 2) * W3j c b a z y x)%R.
Proof.
  intros a b c x y z. unfold W3j. fold (valid3 a b c x y z). fold (valid3 c b a z y x).
  rewrite (valid3_swap c b a z y x). destruct (valid3 a b c x y z) eqn:V; [|ring].
  apply valid3_halves in V.
  destruct V as (p & q & r & u & v & w & -> & -> & -> & -> & -> & -> & S & P1 & P2 & P3 & P4 & P5 & P6 & [h Eh] & T).
  assert (H1 : p + r + v = h) by lia. assert (H2 : q + u + w = h) by lia.
  rewrite (div2_of (p + q + (r + u) + (v + w)) h) by lia.
  rewrite (div2_of (p + q - (r + u) - (v - w)) (q + w - r - v)) by lia.
  rewrite (div2_of (v + w - (r + u) - (p - q)) (w + q - r - p)) by lia.
  assert (EN : norm3 (v + w) (r + u) (p + q) (v - w) (r - u) (p - q) =
               norm3 (p + q) (r + u) (v + w) (p - q) (r - u) (v - w)).
  { unfold norm3. f_equal.
    replace (v + w + (r + u) + (p + q)) with (p + q + (r + u) + (v + w)) by lia.
    replace (v + w + (r + u) - (p + q)) with (r + u + (v + w) - (p + q)) by lia.
    replace (v + w - (r + u) + (p + q)) with (p + q - (r + u) + (v + w)) by lia.
    replace (r + u + (p + q) - (v + w)) with (p + q + (r + u) - (v + w)) by lia.
    ring. }
  rewrite EN.
  assert (ES : span (v + w + (r + u) + (p + q)) (racah_term (v + w) (r + u) (p + q) (v - w) (r - u)) =
               (rsgn r * span (p + q + (r + u) + (v + w)) (racah_term (p + q) (r + u) (v + w) (p - q) (r - u)))%R).
  { rewrite <- span_scale. replace (v + w + (r + u) + (p + q)) with (p + q + (r + u) + (v + w)) by lia.
    rewrite <- (span_reflect _ (racah_term (v + w) (r + u) (p + q) (v - w) (r - u)) r).
    - apply span_ext. intros t.
      rewrite (term_halves v w r u p q h) by lia. rewrite (term_halves p q r u v w h) by lia.
      replace (r - (r - t)) with t by lia.
      replace (h - p - q - (r - t)) with (v - q + t) by lia.
      replace (w - (r - t)) with (w - r + t) by lia.
      replace (q - r + (r - t)) with (q - t) by lia.
      replace (p - w + (r - t)) with (h - v - w - t) by lia.
      rewrite rsgn_sub. ring.
    - intros t Ht. rewrite (term_halves v w r u p q h) in Ht by lia.
      assert (0 <= t) by (apply invfact_nz; intro E; apply Ht; rewrite E; lra).
      assert (0 <= r - t) by (apply invfact_nz; intro E; apply Ht; rewrite E; lra).
      lia.
    - lia. }
  rewrite ES.
  replace h with (p + r + v) by lia. unfold Z.sub. rewrite !rsgn_add, !rsgn_opp.
  pose proof (rsgn_sq p). pose proof (rsgn_sq r). pose proof (rsgn_sq v).
  set (X := norm3 _ _ _ _ _ _). set (Y := span _ _).
  generalize (rsgn p) (rsgn q) (rsgn r) (rsgn v) (rsgn w) H H0 H3. intros P Q R0 V W HP HR HV.
  replace (P * R0 * V * (W * Q * R0 * P * (X * (R0 * Y))))%R with
          ((P * P) * (R0 * R0) * (Q * W * R0 * V * (X * Y)))%R by ring.
  rewrite HP, HR. ring.
Qed.

(** *** Reversal of all projections *)
Theorem W3j_flip : forall a b c x y z,
  W3j a b c (- x) (- y) (- z) = (rsgn ((a + b + c) / 2) * W3j a b c x y z)%R.
Proof.
  intros a b c x y z. unfold W3j. fold (valid3 a b c x y z). fold (valid3 a b c (- x) (- y) (- z)).
  rewrite valid3_flip. destruct (valid3 a b c x y z) eqn:V; [|ring].
  apply valid3_halves in V.
  destruct V as (p & q & r & u & v & w & -> & -> & -> & -> & -> & -> & S & P1 & P2 & P3 & P4 & P5 & P6 & [h Eh] & T).
  assert (H1 : p + r + v = h) by lia. assert (H2 : q + u + w = h) by lia.
  replace (- (p - q)) with (q - p) by lia. replace (- (r - u)) with (u - r) by lia.
  replace (- (v - w)) with (w - v) by lia.
  rewrite (div2_of (p + q + (r + u) + (v + w)) h) by lia.
  rewrite (div2_of (p + q - (r + u) - (v - w)) (q + w - r - v)) by lia.
  rewrite (div2_of (p + q - (r + u) - (w - v)) (p + v - u - w)) by lia.
  assert (EN : norm3 (p + q) (r + u) (v + w) (q - p) (u - r) (w - v) =
               norm3 (p + q) (r + u) (v + w) (p - q) (r - u) (v - w)).
  { unfold norm3. f_equal.
    replace (p + q + (q - p)) with (p + q - (p - q)) by lia.
    replace (p + q - (q - p)) with (p + q + (p - q)) by lia.
    replace (r + u + (u - r)) with (r + u - (r - u)) by lia.
    replace (r + u - (u - r)) with (r + u + (r - u)) by lia.
    replace (v + w + (w - v)) with (v + w - (v - w)) by lia.
    replace (v + w - (w - v)) with (v + w + (v - w)) by lia.
    ring. }
  rewrite EN.
  assert (ES : span (p + q + (r + u) + (v + w)) (racah_term (p + q) (r + u) (v + w) (q - p) (u - r)) =
               (rsgn (h - v - w) * span (p + q + (r + u) + (v + w)) (racah_term (p + q) (r + u) (v + w) (p - q) (r - u)))%R).
  { rewrite <- span_scale.
    rewrite <- (span_reflect _ (racah_term (p + q) (r + u) (v + w) (q - p) (u - r)) (h - v - w)).
    - apply span_ext. intros t.
      replace (racah_term (p + q) (r + u) (v + w) (q - p) (u - r) (h - v - w - t)) with
        (racah_term (q + p) (u + r) (w + v) (q - p) (u - r) (h - v - w - t)) by (f_equal; lia).
      rewrite (term_halves q p u r w v h) by lia. rewrite (term_halves p q r u v w h) by lia.
      replace (h - w - v - (h - v - w - t)) with t by lia.
      replace (p - (h - v - w - t)) with (w - r + t) by lia.
      replace (u - (h - v - w - t)) with (v - q + t) by lia.
      replace (v - u + (h - v - w - t)) with (q - t) by lia.
      replace (w - p + (h - v - w - t)) with (r - t) by lia.
      rewrite (rsgn_sub (h - v - w) t). ring.
    - intros t Ht.
      replace (racah_term (p + q) (r + u) (v + w) (q - p) (u - r) t) with
        (racah_term (q + p) (u + r) (w + v) (q - p) (u - r) t) in Ht by (f_equal; lia).
      rewrite (term_halves q p u r w v h) in Ht by lia.
      assert (0 <= t) by (apply invfact_nz; intro E; apply Ht; rewrite E; lra).
      assert (0 <= h - w - v - t) by (apply invfact_nz; intro E; apply Ht; rewrite E; lra).
      lia.
    - lia. }
  rewrite ES.
  replace (h - v - w) with (p + r - w) by lia. replace h with (p + r + v) by lia.
  replace u with (p + r + v - q - w) by lia.
  unfold Z.sub. rewrite !rsgn_add, !rsgn_opp, !rsgn_add, !rsgn_opp.
  set (X := norm3 _ _ _ _ _ _). set (Y := span _ _).
  pose proof (rsgn_sq p) as HP. pose proof (rsgn_sq r) as HR. pose proof (rsgn_sq v) as HV.
  pose proof (rsgn_sq w) as HW.
  generalize dependent (rsgn p). generalize dependent (rsgn q). generalize dependent (rsgn r).
  generalize dependent (rsgn v). generalize dependent (rsgn w). intros W HW V HV R0 HR Q P HP.
  replace (P * V * (P * R0 * V * Q * W) * W * (X * (P * R0 * W * Y)))%R with
    ((P * P) * (V * V) * (R0 * R0) * (W * W) * (P * Q * W * (X * Y)))%R by ring.
  replace (P * R0 * V * (Q * W * R0 * V * (X * Y)))%R with
    ((R0 * R0) * (V * V) * (P * Q * W * (X * Y)))%R by ring.
  rewrite HP, HV, HR, HW. ring.
Qed.

(** *** Zeros *)
Lemma W3j_zero : forall a b c x y z, valid3 a b c x y z = false -> W3j a b c x y z = 0%R.
Proof. intros a b c x y z H. unfold W3j. fold (valid3 a b c x y z). now rewrite H. Qed.
Lemma W3j_odd_zero : forall a b c, Z.odd ((a + b + c) / 2) = true -> W3j a b c 0 0 0 = 0%R.
Proof.
  intros a b c H. pose proof (W3j_flip a b c 0 0 0) as F. cbn [Z.opp] in F.
  unfold rsgn in F. rewrite <- Z.negb_odd, H in F. cbn in F. lra.
Qed.

(** *** 6j: exchange of the first two columns, and of upper and lower rows in them *)
Theorem W6j_cols : forall a b c d e f, W6j a b c d e f = W6j b a c e d f.
Proof.
  intros a b c d e f. unfold W6j.
  rewrite (triangle_swap b a c), (triangle_swap e d c).
  replace (triangle a b c && triangle b d f && triangle e a f && triangle d e c) with
          (triangle a b c && triangle a e f && triangle d b f && triangle d e c).
  2:{ rewrite (triangle_swap e a f), (triangle_swap b d f).
      destruct (triangle a b c), (triangle d b f), (triangle a e f); reflexivity. }
  destruct (_ && _); [|reflexivity].
  replace (delta b a c) with (delta a b c).
  2:{ unfold delta. replace (b + a - c) with (a + b - c) by lia. replace (b + a + c) with (a + b + c) by lia.
      replace (b - a + c) with (b + c - a) by lia. replace (a + c - b) with (a - b + c) by lia. ring. }
  replace (delta b d f) with (delta d b f).
  2:{ unfold delta. replace (b + d - f) with (d + b - f) by lia. replace (b + d + f) with (d + b + f) by lia.
      replace (b - d + f) with (b + f - d) by lia. replace (d + f - b) with (d - b + f) by lia. ring. }
  replace (delta e a f) with (delta a e f).
  2:{ unfold delta. replace (e + a - f) with (a + e - f) by lia. replace (e + a + f) with (a + e + f) by lia.
      replace (e - a + f) with (e + f - a) by lia. replace (a + f - e) with (a - e + f) by lia. ring. }
  replace (delta e d c) with (delta d e c).
  2:{ unfold delta. replace (e + d - c) with (d + e - c) by lia. replace (e + d + c) with (d + e + c) by lia.
      replace (e - d + c) with (e + c - d) by lia. replace (d + c - e) with (d - e + c) by lia. ring. }
  f_equal; [f_equal; ring|].
  replace (b + a + c + e + d + f) with (a + b + c + d + e + f) by lia.
  apply zsum_ext. intros t _. unfold racah6_term.
  replace (b + a + c) with (a + b + c) by lia. replace (b + d + f) with (d + b + f) by lia.
  replace (e + a + f) with (a + e + f) by lia. replace (e + d + c) with (d + e + c) by lia.
  replace (b + a + e + d) with (a + b + d + e) by lia. replace (a + c + d + f) with (c + a + f + d) by lia.
  replace (c + b + f + e) with (b + c + e + f) by lia. ring.
Qed.

Theorem W6j_rows : forall a b c d e f, W6j a b c d e f = W6j d e c a b f.
Proof.
  intros a b c d e f. unfold W6j.
  replace (triangle d e c && triangle d b f && triangle a e f && triangle a b c) with
          (triangle a b c && triangle a e f && triangle d b f && triangle d e c).
  2:{ destruct (triangle a b c), (triangle d b f), (triangle a e f), (triangle d e c); reflexivity. }
  destruct (_ && _); [|reflexivity].
  f_equal; [f_equal; ring|].
  replace (d + e + c + a + b + f) with (a + b + c + d + e + f) by lia.
  apply zsum_ext. intros t _. unfold racah6_term.
  replace (d + e + a + b) with (a + b + d + e) by lia.
  replace (e + c + b + f) with (b + c + e + f) by lia. replace (c + d + f + a) with (c + a + f + d) by lia.
  ring.
Qed.

