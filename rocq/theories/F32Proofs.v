(* f32 parsing is correctly rounded. *)
From Coq Require Import ZArith Lia List Bool.
From Verif Require Import Chars F32 SpecLex SpecF32 LexBase.
Open Scope Z_scope.

Lemma pow_pos : forall k, 0 <= k -> 0 < 2 ^ k. Proof. intros. apply Z.pow_pos_nonneg; lia. Qed.
Lemma ilog2_spec : forall n d, 0 < n -> 0 < d -> let e := ilog2_ratio n d in
  (0 <= e -> 2 ^ e * d <= n < 2 ^ (e + 1) * d) /\ (e < 0 -> d <= n * 2 ^ (- e) /\ n * 2 ^ (- e) < 2 * d).
Proof.
  intros n d Hn Hd. unfold ilog2_ratio. pose proof (Z.log2_spec n Hn) as (N1 & N2). pose proof (Z.log2_spec d Hd) as (D1 & D2).
  pose proof (Z.log2_nonneg n). pose proof (Z.log2_nonneg d). set (a := Z.log2 n) in *. set (b := Z.log2 d) in *. clearbody a b.
  rewrite Z.pow_succ_r in N2, D2 by lia.
  destruct (0 <=? a - b) eqn:E.
  - apply Z.leb_le in E. assert (P : 2 ^ a = 2 ^ (a - b) * 2 ^ b) by (rewrite <- Z.pow_add_r by lia; f_equal; lia).
    pose proof (pow_pos (a - b) ltac:(lia)). pose proof (pow_pos b ltac:(lia)).
    destruct (2 ^ (a - b) * d <=? n) eqn:E2.
    + apply Z.leb_le in E2. cbv zeta. split; [intros _ | lia]. split; [exact E2 |]. rewrite Z.pow_add_r by lia. change (2 ^ 1) with 2. nia.
    + apply Z.leb_gt in E2. cbv zeta. split.
      * intro K. split; [| now replace (a - b - 1 + 1) with (a - b) by lia]. assert (Q : 2 ^ (a - b) = 2 * 2 ^ (a - b - 1)) by (rewrite <- Z.pow_succ_r by lia; f_equal; lia). nia.
      * intro K. assert (a = b) by lia. subst b. rewrite Z.sub_diag in *. change (2 ^ 0) with 1 in *. change (2 ^ (- (0 - 1))) with 2. lia.
  - apply Z.leb_gt in E. assert (P : 2 ^ b = 2 ^ (- (a - b)) * 2 ^ a) by (rewrite <- Z.pow_add_r by lia; f_equal; lia).
    pose proof (pow_pos (- (a - b)) ltac:(lia)). pose proof (pow_pos a ltac:(lia)). set (k := - (a - b)) in *.
    destruct (d <=? n * 2 ^ k) eqn:E2.
    + apply Z.leb_le in E2. cbv zeta. fold k. split; [lia | intros _]. split; [exact E2 |]. nia.
    + apply Z.leb_gt in E2. cbv zeta. replace (- (a - b - 1)) with (k + 1) by (unfold k; lia). rewrite (Z.pow_add_r 2 k 1) by (unfold k; lia). change (2 ^ 1) with 2. split; [unfold k in *; lia | intros _]. nia.
Qed.

Lemma round_div_spec : forall n d, 0 <= n -> 0 < d -> let m := round_div n d in
  forall k, k <> m -> Z.abs (m * d - n) < Z.abs (k * d - n) \/ (Z.abs (m * d - n) = Z.abs (k * d - n) /\ Z.even m = true).
Proof.
  intros n d Hn Hd m k Hk. unfold m, round_div in *. pose proof (Z.div_mod n d ltac:(lia)) as E. pose proof (Z.mod_pos_bound n d Hd) as B.
  set (q := n / d) in *. set (r := n mod d) in *. clearbody q r. subst n.
  assert (EV : Z.even (q + 1) = negb (Z.even q)) by (rewrite Z.even_add; destruct (Z.even q); reflexivity).
  destruct (Z.compare_spec (2 * r) d) as [C | C | C].
  - destruct (Z.even q) eqn:Q.
    + assert (k <= q - 1 \/ k = q + 1 \/ q + 2 <= k) as [K | [K | K]] by lia; [left; nia | right; split; [nia | exact Q] | left; nia].
    + assert (k <= q - 1 \/ k = q \/ q + 2 <= k) as [K | [K | K]] by lia; [left; nia | right; split; [nia | rewrite EV; reflexivity] | left; nia].
  - left. assert (k <= q - 1 \/ q + 1 <= k) as [K | K] by lia; nia.
  - left. assert (k <= q \/ q + 2 <= k) as [K | K] by lia; nia.
Qed.
Lemma round_div_bounds : forall n d lo hi, 0 <= n -> 0 < d -> lo * d <= n -> n <= hi * d -> lo <= round_div n d <= hi.
Proof.
  intros n d lo hi Hn Hd L H. unfold round_div. pose proof (Z.div_mod n d ltac:(lia)) as E. pose proof (Z.mod_pos_bound n d Hd) as B.
  set (q := n / d) in *. set (r := n mod d) in *. clearbody q r. subst n.
  assert (lo <= q) by nia. assert (q <= hi) by nia. assert (q = hi -> r = 0) by nia.
  destruct (Z.compare_spec (2 * r) d); [destruct (Z.even q) | |]; lia.
Qed.

(* unbounded-exponent view of f32_units *)
Lemma units_sub : forall m, 0 <= m <= 2 ^ 24 -> f32_units m = m.
Proof.
  intros m H. unfold f32_units. assert (m < 2 ^ 23 \/ 2 ^ 23 <= m < 2 ^ 24 \/ m = 2 ^ 24) as [C | [C | C]] by lia.
  - rewrite Z.div_small, Z.mod_small by lia. reflexivity.
  - replace (m / 2 ^ 23) with 1 by (apply Z.div_unique with (m - 2 ^ 23); lia).
    replace (m mod 2 ^ 23) with (m - 2 ^ 23) by (apply Z.mod_unique with 1; lia). cbn [Z.eqb]. change (2 ^ (1 - 1)) with 1. lia.
  - subst m. reflexivity.
Qed.
Lemma units_norm : forall k m, 0 <= k -> 2 ^ 23 <= m <= 2 ^ 24 -> f32_units (k * 2 ^ 23 + m) = m * 2 ^ k.
Proof.
  intros k m Hk Hm. unfold f32_units. assert (2 ^ 23 <= m < 2 ^ 24 \/ m = 2 ^ 24) as [C | C] by lia.
  - replace ((k * 2 ^ 23 + m) / 2 ^ 23) with (k + 1) by (apply Z.div_unique with (m - 2 ^ 23); lia).
    replace ((k * 2 ^ 23 + m) mod 2 ^ 23) with (m - 2 ^ 23) by (apply Z.mod_unique with (k + 1); lia).
    replace (k + 1 =? 0) with false by (symmetry; apply Z.eqb_neq; lia). replace (k + 1 - 1) with k by lia. lia.
  - subst m. replace ((k * 2 ^ 23 + 2 ^ 24) / 2 ^ 23) with (k + 2) by (apply Z.div_unique with 0; lia).
    replace ((k * 2 ^ 23 + 2 ^ 24) mod 2 ^ 23) with 0 by (apply Z.mod_unique with (k + 2); lia).
    replace (k + 2 =? 0) with false by (symmetry; apply Z.eqb_neq; lia). replace (k + 2 - 1) with (Z.succ k) by lia.
    rewrite Z.pow_succ_r by lia. change (2 ^ 24) with (2 * 2 ^ 23). lia.
Qed.
(* every pattern at or above 2^23 is k * 2^23 + m with m in [2^23, 2^24) *)
Lemma pattern_split : forall b, 2 ^ 23 <= b -> exists k m, 0 <= k /\ 2 ^ 23 <= m < 2 ^ 24 /\ b = k * 2 ^ 23 + m.
Proof.
  intros b H. exists (b / 2 ^ 23 - 1), (b mod 2 ^ 23 + 2 ^ 23). pose proof (Z.div_mod b (2 ^ 23) ltac:(lia)). pose proof (Z.mod_pos_bound b (2 ^ 23) ltac:(lia)).
  assert (1 <= b / 2 ^ 23) by (apply Z.div_le_lower_bound; lia). lia.
Qed.
Lemma units_step : forall b, 0 <= b -> f32_units b < f32_units (b + 1).
Proof.
  intros b H. assert (b < 2 ^ 23 \/ 2 ^ 23 <= b) as [C | C] by lia.
  - rewrite !units_sub by lia. lia.
  - destruct (pattern_split b C) as (k & m & Hk & Hm & ->). replace (k * 2 ^ 23 + m + 1) with (k * 2 ^ 23 + (m + 1)) by lia.
    rewrite !units_norm by lia. pose proof (pow_pos k Hk). nia.
Qed.
Lemma units_mono : forall a b, 0 <= a <= b -> f32_units a <= f32_units b.
Proof.
  intros a b (Ha & Hb). replace b with (a + Z.of_nat (Z.to_nat (b - a))) by lia. induction (Z.to_nat (b - a)) as [| n IH].
  - replace (a + Z.of_nat 0) with a by lia. lia.
  - pose proof (units_step (a + Z.of_nat n) ltac:(lia)). replace (a + Z.of_nat (S n)) with (a + Z.of_nat n + 1) by lia. lia.
Qed.
Lemma units_smono : forall a b, 0 <= a < b -> f32_units a < f32_units b.
Proof. intros a b H. pose proof (units_step a ltac:(lia)). pose proof (units_mono (a + 1) b ltac:(lia)). lia. Qed.

(* any pattern is a multiple of the ulp, or below the binade *)
Lemma units_multiple : forall j b, 0 <= j -> 0 <= b -> (exists k, f32_units b = k * 2 ^ j /\ (j * 2 ^ 23 + 2 ^ 23 <= b -> True)) \/ f32_units b < 2 ^ 23 * 2 ^ j.
Proof.
  intros j b Hj Hb. destruct (Z_lt_ge_dec b (j * 2 ^ 23 + 2 ^ 23)) as [C | C].
  - assert (j = 0 \/ 0 < j) as [-> | J] by lia.
    + left. exists b. rewrite units_sub by lia. change (2 ^ 0) with 1. split; [lia | trivial].
    + right. pose proof (units_smono b (j * 2 ^ 23 + 2 ^ 23) ltac:(lia)) as M. rewrite units_norm in M by lia. exact M.
  - left. destruct (pattern_split b ltac:(lia)) as (k & m & Hk & Hm & ->). assert (j <= k) by nia.
    exists (m * 2 ^ (k - j)). rewrite units_norm by lia. split; [| trivial]. rewrite <- Z.mul_assoc, <- Z.pow_add_r by lia. do 2 f_equal. lia.
Qed.

Definition better (n d b b' : Z) : Prop :=
  Z.abs (f32_units b * d - n * 2 ^ 149) < Z.abs (f32_units b' * d - n * 2 ^ 149) \/
  (Z.abs (f32_units b * d - n * 2 ^ 149) = Z.abs (f32_units b' * d - n * 2 ^ 149) /\ Z.even b = true).

(* rounding in the binade with ulp 2^j (in units), m the rounded significand *)
Lemma round_core : forall n d j m, 0 <= n -> 0 < d -> 0 <= j -> 0 <= m <= 2 ^ 24 -> (0 < j -> 2 ^ 23 <= m) ->
  (0 < j -> 2 ^ 23 * 2 ^ j * d <= n * 2 ^ 149) ->
  (forall k, k <> m -> Z.abs (m * (2 ^ j * d) - n * 2 ^ 149) < Z.abs (k * (2 ^ j * d) - n * 2 ^ 149) \/
     (Z.abs (m * (2 ^ j * d) - n * 2 ^ 149) = Z.abs (k * (2 ^ j * d) - n * 2 ^ 149) /\ Z.even m = true)) ->
  f32_units (j * 2 ^ 23 + m) = m * 2 ^ j /\ forall b', 0 <= b' -> b' <> j * 2 ^ 23 + m -> better n d (j * 2 ^ 23 + m) b'.
Proof.
  intros n d j m Hn Hd Hj Hm Hm' HN R.
  assert (U : f32_units (j * 2 ^ 23 + m) = m * 2 ^ j).
  { assert (j = 0 \/ 0 < j) as [-> | J] by lia; [rewrite Z.mul_0_l, Z.add_0_l, units_sub by lia; change (2 ^ 0) with 1; lia | apply units_norm; [lia |]; specialize (Hm' J); lia]. }
  split; [exact U |]. intros b' Hb' Hne. unfold better. rewrite U.
  assert (EV : Z.even (j * 2 ^ 23 + m) = Z.even m). { rewrite Z.even_add, Z.even_mul. change (Z.even (2 ^ 23)) with true. rewrite orb_true_r. destruct (Z.even m); reflexivity. }
  rewrite EV. destruct (units_multiple j b' Hj Hb') as [(k & K & _) | K].
  - rewrite K. assert (NK : k <> m).
    { intros ->. assert (f32_units b' = f32_units (j * 2 ^ 23 + m)) as E by lia. destruct (Z_lt_ge_dec b' (j * 2 ^ 23 + m)) as [C | C].
      - pose proof (units_smono b' (j * 2 ^ 23 + m) ltac:(lia)). lia.
      - pose proof (units_smono (j * 2 ^ 23 + m) b' ltac:(lia)). lia. }
    specialize (R k NK). rewrite !Z.mul_assoc in R. exact R.
  - assert (j = 0 \/ 0 < j) as [-> | J] by lia.
    + rewrite Z.mul_0_l, Z.add_0_l in Hne. change (2 ^ 0) with 1 in *.
      assert (b' < 2 ^ 23). { destruct (Z_lt_ge_dec b' (2 ^ 23)) as [C | C]; [exact C |]. pose proof (units_mono (2 ^ 23) b' ltac:(lia)) as M. rewrite units_sub in M by lia. lia. }
      rewrite (units_sub b') by lia. specialize (R b' Hne). rewrite !Z.mul_assoc, !Z.mul_1_r in R. rewrite Z.mul_1_r. exact R.
    + left. specialize (HN J). specialize (Hm' J).
      destruct (Z.eq_dec m (2 ^ 23)) as [-> | NE]; [rewrite Z.abs_neq by nia; rewrite Z.abs_neq by nia; nia |].
      specialize (R (2 ^ 23) ltac:(lia)). rewrite !Z.mul_assoc in R.
      rewrite (Z.abs_neq (2 ^ 23 * 2 ^ j * d - n * 2 ^ 149)) in R by lia. rewrite (Z.abs_neq (f32_units b' * d - n * 2 ^ 149)) by nia. nia.
Qed.

Lemma ilog2_scaled : forall n d s, 0 < n -> 0 < d -> 0 <= s -> 0 <= ilog2_ratio n d + s ->
  2 ^ (ilog2_ratio n d + s) * d <= n * 2 ^ s /\ n * 2 ^ s < 2 ^ (ilog2_ratio n d + s + 1) * d.
Proof.
  intros n d s Hn Hd Hs He. destruct (ilog2_spec n d Hn Hd) as (P & Q). set (e := ilog2_ratio n d) in *. clearbody e.
  destruct (Z_lt_ge_dec e 0) as [C | C].
  - destruct (Q C) as (A & B). assert (E : 2 ^ s = 2 ^ (- e) * 2 ^ (e + s)) by (rewrite <- Z.pow_add_r by lia; f_equal; lia).
    rewrite (Z.pow_add_r 2 (e + s) 1) by lia. change (2 ^ 1) with 2. pose proof (pow_pos (e + s) He). rewrite E. nia.
  - destruct (P ltac:(lia)) as (A & B). replace (e + s + 1) with (e + 1 + s) by lia. rewrite !(Z.pow_add_r 2 _ s) by lia. pose proof (pow_pos s Hs). nia.
Qed.

Lemma round_scale : forall n d q m, 0 <= n -> 0 < d -> -149 <= q ->
  m = (if 0 <=? q then round_div n (d * 2 ^ q) else round_div (n * 2 ^ (- q)) d) ->
  (forall k, k <> m -> Z.abs (m * (2 ^ (q + 149) * d) - n * 2 ^ 149) < Z.abs (k * (2 ^ (q + 149) * d) - n * 2 ^ 149) \/
     (Z.abs (m * (2 ^ (q + 149) * d) - n * 2 ^ 149) = Z.abs (k * (2 ^ (q + 149) * d) - n * 2 ^ 149) /\ Z.even m = true)) /\
  forall lo hi, lo * (2 ^ (q + 149) * d) <= n * 2 ^ 149 -> n * 2 ^ 149 <= hi * (2 ^ (q + 149) * d) -> lo <= m <= hi.
Proof.
  intros n d q m Hn Hd Hq Em. destruct (0 <=? q) eqn:E.
  - apply Z.leb_le in E. pose proof (pow_pos q E). pose proof (pow_pos 149 ltac:(lia)). rewrite Z.pow_add_r by lia. set (P := 2 ^ 149) in *. clearbody P. set (S := 2 ^ q) in *. clearbody S.
    split.
    + intros k Hk. pose proof (round_div_spec n (d * S) Hn ltac:(nia) k) as R. cbv zeta in R. rewrite <- Em in R. specialize (R Hk).
      replace (m * (S * P * d) - n * P) with (P * (m * (d * S) - n)) by ring. replace (k * (S * P * d) - n * P) with (P * (k * (d * S) - n)) by ring.
      rewrite !Z.abs_mul, (Z.abs_eq P) by lia. destruct R as [R | (R & R')]; [left; nia | right; split; [now rewrite R | exact R']].
    + intros lo hi L U. subst m. apply round_div_bounds; nia.
  - apply Z.leb_gt in E. pose proof (pow_pos (q + 149) ltac:(lia)). pose proof (pow_pos (- q) ltac:(lia)).
    replace (2 ^ 149) with (2 ^ (- q) * 2 ^ (q + 149)) by (rewrite <- Z.pow_add_r by lia; f_equal; lia). set (P := 2 ^ (q + 149)) in *. set (S := 2 ^ (- q)) in *. clearbody P S.
    split.
    + intros k Hk. pose proof (round_div_spec (n * S) d ltac:(nia) Hd k) as R. cbv zeta in R. rewrite <- Em in R. specialize (R Hk).
      replace (m * (P * d) - n * (S * P)) with (P * (m * d - n * S)) by ring. replace (k * (P * d) - n * (S * P)) with (P * (k * d - n * S)) by ring.
      rewrite !Z.abs_mul, (Z.abs_eq P) by lia. destruct R as [R | (R & R')]; [left; nia | right; split; [now rewrite R | exact R']].
    + intros lo hi L U. subst m. apply round_div_bounds; nia.
Qed.

Lemma f32_inf_eq : F32_INF = f32_infinity. Proof. reflexivity. Qed.
Lemma better_clamp : forall n d c, 0 <= n -> 0 < d -> f32_infinity <= c ->
  (forall b', 0 <= b' -> b' <> c -> better n d c b') -> forall b', 0 <= b' <= f32_infinity -> b' <> f32_infinity -> better n d f32_infinity b'.
Proof.
  intros n d c Hn Hd Hc B b' Hb Hne. pose proof (units_mono f32_infinity c ltac:(unfold f32_infinity in *; lia)) as M1.
  pose proof (units_smono b' f32_infinity ltac:(lia)) as M2. unfold better in *.
  change (Z.even f32_infinity) with true.
  destruct (Z_lt_ge_dec (n * 2 ^ 149) (f32_units f32_infinity * d)) as [C | C].
  - specialize (B b' ltac:(lia) ltac:(lia)). set (X := f32_units f32_infinity) in *. set (Y := f32_units c) in *. set (Z0 := f32_units b') in *. set (N0 := n * 2 ^ 149) in *. clearbody X Y Z0 N0.
    assert (X * d <= Y * d) by nia. assert (Z0 * d < X * d) by nia. lia.
  - left. set (X := f32_units f32_infinity) in *. set (Z0 := f32_units b') in *. set (N0 := n * 2 ^ 149) in *. clearbody X Z0 N0. assert (Z0 * d < X * d) by nia. lia.
Qed.
Lemma f32_round_nearest : forall n d, 0 <= n -> 0 < d -> nearest_f32 n d (f32_round n d).
Proof.
  intros n d Hn Hd. unfold f32_round. destruct (n =? 0) eqn:E0.
  - apply Z.eqb_eq in E0. subst n. split; [unfold f32_infinity; lia |]. intros b' Hb Hne. left. pose proof (units_smono 0 b' ltac:(lia)) as M. change (f32_units 0) with 0 in *. nia.
  - apply Z.eqb_neq in E0. cbv zeta. set (e := ilog2_ratio n d). set (q := Z.max (e - 23) (-149)).
    set (m := if 0 <=? q then round_div n (d * 2 ^ q) else round_div (n * 2 ^ (- q)) d).
    destruct (round_scale n d q m Hn Hd ltac:(unfold q; lia) eq_refl) as (R & BND).
    assert (LO : 0 < q + 149 -> 2 ^ 23 * 2 ^ (q + 149) * d <= n * 2 ^ 149).
    { intro J. assert (Eq : q = e - 23) by (unfold q in *; lia). pose proof (ilog2_scaled n d 149 ltac:(lia) Hd ltac:(lia) ltac:(fold e; unfold q in *; lia)) as (A & _). fold e in A.
      rewrite <- Z.pow_add_r by lia. replace (23 + (q + 149)) with (e + 149) by lia. exact A. }
    assert (HI : n * 2 ^ 149 <= 2 ^ 24 * 2 ^ (q + 149) * d).
    { assert (P0 : 0 < 2 ^ (q + 149)) by (apply pow_pos; unfold q; lia). destruct (Z_lt_ge_dec (e + 149) 0) as [C | C].
      - destruct (ilog2_spec n d ltac:(lia) Hd) as (_ & Q). fold e in Q. destruct (Q ltac:(lia)) as (_ & B).
        replace (- e) with (149 + (- e - 149)) in B by lia. rewrite Z.pow_add_r in B by lia. pose proof (pow_pos (- e - 149) ltac:(lia)). set (P := 2 ^ 149) in *. assert (0 < P) by (unfold P; lia). clearbody P.
        assert (n * P <= n * (P * 2 ^ (- e - 149))) by nia. assert (2 * d <= 2 ^ 24 * 2 ^ (q + 149) * d) by nia. lia.
      - destruct (ilog2_scaled n d 149 ltac:(lia) Hd ltac:(lia) ltac:(fold e; lia)) as (_ & B). fold e in B.
        rewrite <- (Z.pow_add_r 2 24) by (unfold q; lia). assert (2 ^ (e + 149 + 1) <= 2 ^ (24 + (q + 149))) by (apply Z.pow_le_mono_r; unfold q; lia). nia. }
    assert (M24 : 0 <= m <= 2 ^ 24). { apply BND; [lia | rewrite Z.mul_assoc; exact HI]. }
    assert (M23 : 0 < q + 149 -> 2 ^ 23 <= m). { intro J. apply (BND (2 ^ 23) (2 ^ 24)); [rewrite Z.mul_assoc; now apply LO | rewrite Z.mul_assoc; exact HI]. }
    destruct (round_core n d (q + 149) m Hn Hd ltac:(unfold q; lia) M24 M23 LO R) as (_ & B).
    rewrite f32_inf_eq. set (c := (q + 149) * 2 ^ 23 + m) in *. assert (0 <= c) by (unfold c, q in *; lia).
    destruct (f32_infinity <=? c) eqn:E.
    + apply Z.leb_le in E. split; [unfold f32_infinity; lia |]. intros b' Hb Hne. exact (better_clamp n d c Hn Hd E B b' Hb Hne).
    + apply Z.leb_gt in E. split; [lia |]. intros b' Hb Hne. apply B; lia.
Qed.

Lemma nearest_big : forall n d, 0 < d -> f32_units f32_infinity * d <= n * 2 ^ 149 -> nearest_f32 n d f32_infinity.
Proof.
  intros n d Hd H. split; [unfold f32_infinity; lia |]. intros b' Hb Hne. left. pose proof (units_smono b' f32_infinity ltac:(lia)).
  set (X := f32_units f32_infinity) in *. set (Z0 := f32_units b') in *. set (N0 := n * 2 ^ 149) in *. clearbody X Z0 N0. assert (Z0 * d < X * d) by nia. lia.
Qed.
Lemma nearest_zero : forall n d, 0 <= n -> 0 < d -> 2 * (n * 2 ^ 149) < d -> nearest_f32 n d 0.
Proof.
  intros n d Hn Hd H. split; [unfold f32_infinity; lia |]. intros b' Hb Hne. left. pose proof (units_mono 1 b' ltac:(lia)) as M. change (f32_units 1) with 1 in M. change (f32_units 0) with 0.
  set (Z0 := f32_units b') in *. set (N0 := n * 2 ^ 149) in *. assert (0 <= N0) by (unfold N0; lia). clearbody Z0 N0. assert (d <= Z0 * d) by nia. lia.
Qed.
Lemma f32_of_decimal_nearest : forall m e, 0 <= m -> nearest_f32 (numerator m e) (denominator e) (f32_of_decimal m e).
Proof.
  intros m e Hm. unfold f32_of_decimal, numerator, denominator. destruct (m =? 0) eqn:E0.
  - apply Z.eqb_eq in E0. subst m. replace (if 0 <=? e then 0 * 10 ^ e else 0) with 0 by (destruct (0 <=? e); reflexivity).
    split; [unfold f32_infinity; lia |]. intros b' Hb Hne. left. pose proof (units_smono 0 b' ltac:(lia)) as M. change (f32_units 0) with 0 in *.
    assert (0 < (if 0 <=? e then 1 else 10 ^ (- e))) by (destruct (0 <=? e) eqn:E; [lia | apply Z.leb_gt in E; apply Z.pow_pos_nonneg; lia]). nia.
  - apply Z.eqb_neq in E0. destruct (0 <=? e) eqn:Ee.
    + apply Z.leb_le in Ee. assert (0 < 10 ^ e) by (apply Z.pow_pos_nonneg; lia). destruct (60 <? e) eqn:E6.
      * apply Z.ltb_lt in E6. rewrite f32_inf_eq. apply nearest_big; [lia |].
        assert (10 ^ 60 <= 10 ^ e) by (apply Z.pow_le_mono_r; lia).
        assert (f32_units f32_infinity * 1 <= 10 ^ 60 * 2 ^ 149) by (vm_compute; discriminate).
        assert (10 ^ 60 <= m * 10 ^ e) by nia. set (P := 2 ^ 149) in *. assert (0 < P) by (unfold P; lia). set (T := 10 ^ 60) in *. set (F := f32_units f32_infinity) in *. clearbody P T F. nia.
      * apply f32_round_nearest; nia.
    + apply Z.leb_gt in Ee. assert (0 < 10 ^ (- e)) by (apply Z.pow_pos_nonneg; lia).
      destruct (Z.log2 m + 1 <=? 3 * (- e - 60)) eqn:E6.
      * apply Z.leb_le in E6. apply nearest_zero; [lia | lia |]. destruct (Z.log2_spec m ltac:(lia)) as (_ & L). pose proof (Z.log2_nonneg m).
        assert (A : 2 ^ Z.succ (Z.log2 m) <= 2 ^ (3 * (- e - 60))) by (apply Z.pow_le_mono_r; lia).
        rewrite (Z.pow_mul_r 2 3) in A by lia. change (2 ^ 3) with 8 in A.
        assert (B : 8 ^ (- e - 60) <= 10 ^ (- e - 60)) by (apply Z.pow_le_mono_l; lia).
        replace (- e) with (60 + (- e - 60)) at 1 by lia. rewrite Z.pow_add_r by lia.
        set (Y := 10 ^ (- e - 60)) in *. assert (0 < Y) by (apply Z.pow_pos_nonneg; lia).
        assert (C : 2 * 2 ^ 149 < 10 ^ 60) by (vm_compute; reflexivity). set (P := 2 ^ 149) in *. set (T := 10 ^ 60) in *. assert (0 < P) by (unfold P; lia). clearbody P T Y.
        assert (m < Y) by lia. nia.
      * apply f32_round_nearest; lia.
Qed.

(* ---- reading the text ---- *)
Open Scope list_scope.
Lemma digits_val_fold : forall l a, digits_val a l = fold_left (fun a c => a * 10 + (Z.of_N c - 48)) l a.
Proof. induction l as [| c l IH]; intro a; cbn [digits_val fold_left]; [reflexivity | apply IH]. Qed.
Lemma digits_val_int : forall l, digits_val 0 l = int_of l. Proof. intro l. apply digits_val_fold. Qed.
Lemma int_of_nonneg : forall l, digits l -> 0 <= int_of l.
Proof.
  intros l. unfold int_of. assert (G : forall a, 0 <= a -> digits l -> 0 <= fold_left (fun a c => a * 10 + (Z.of_N c - 48)) l a).
  { induction l as [| c l IH]; intros a Ha D; cbn [fold_left]; [exact Ha |]. inversion D as [| ? ? Hc D']; subst. apply IH; [unfold digit in Hc; lia | exact D']. }
  intro D. apply G; [lia | exact D].
Qed.
Lemma take_digits_app : forall d r, digits d -> ~ starts digit r -> take_digits (d ++ r) = (d, r).
Proof.
  induction d as [| c d IH]; intros r D H; cbn [app].
  - destruct r as [| c r]; cbn [take_digits]; [reflexivity |]. destruct (is_ascii_digit c) eqn:E; [| reflexivity]. apply is_digit_spec in E. exfalso. apply H. exists c, r. auto.
  - inversion D as [| ? ? Hc D']; subst. cbn [take_digits]. apply is_digit_spec in Hc. rewrite Hc, IH; auto.
Qed.
Lemma read_sign_app : forall s r, opt_sign s -> ~ starts sign r -> read_sign (s ++ r) = ((if list_eq_dec N.eq_dec s [45%N] then true else false), r).
Proof.
  intros s r [-> | [-> | ->]] H; cbn [app read_sign]; try reflexivity.
  destruct r as [| c r]; [reflexivity |]. cbn [read_sign]. destruct (c =? 45)%N eqn:E1; [exfalso; apply H; exists c, r; split; [reflexivity |]; unfold sign; apply N.eqb_eq in E1; auto |].
  destruct (c =? 43)%N eqn:E2; [exfalso; apply H; exists c, r; split; [reflexivity |]; unfold sign; apply N.eqb_eq in E2; auto |]. reflexivity.
Qed.
Lemma digit_not_sign : forall c, digit c -> ~ sign c. Proof. unfold digit, sign. intros. lia. Qed.
Lemma starts_app_ne : forall P a b, a <> [] -> (starts P (a ++ b) <-> starts P a).
Proof. intros P [| c a] b H; [congruence |]. cbn [app]. rewrite !starts_cons. tauto. Qed.
Definition read_exp (l : list N) : Z :=
  match l with
  | c :: r => if ((c =? 101) || (c =? 69))%N then
                let (eneg, r) := read_sign r in let (ed, _) := take_digits r in (if eneg then - digits_val 0 ed else digits_val 0 ed)
              else 0
  | [] => 0 end.
Lemma read_exp_spec : forall x e, exp_of x e -> read_exp x = e.
Proof.
  intros x e H. destruct H as [| c s d Hc Hs (Hd & D)]; [reflexivity |]. unfold read_exp.
  replace ((c =? 101) || (c =? 69))%N with true by (symmetry; apply orb_true_iff; rewrite !N.eqb_eq; tauto).
  assert (NS : ~ starts sign d). { intros (k & r & -> & K). inversion D; subst. now apply (digit_not_sign k). }
  rewrite read_sign_app by assumption. rewrite <- (app_nil_r d) at 1. rewrite take_digits_app by (try assumption; intros (k & r & E & _); discriminate).
  rewrite digits_val_int. destruct (list_eq_dec N.eq_dec s [45%N]); reflexivity.
Qed.
Lemma exp_no_digit : forall x e, exp_of x e -> ~ starts digit x /\ ~ starts (eq 46%N) x.
Proof. intros x e H. destruct H as [| c s d Hc Hs Hd]; split; intros (k & r & E & K); try discriminate; assert (k = c) by congruence; unfold digit in K; lia. Qed.
Lemma read_decimal_spec : forall p neg m e, decimal_of p neg m e -> read_decimal p = (neg, m, e).
Proof.
  intros p neg m e H. destruct H as [s i x e Hs (Hi & D) Hx | s i f x e Hs D (Hf & F) Hx]; unfold read_decimal; destruct (exp_no_digit _ _ Hx) as (X1 & X2).
  - rewrite read_sign_app; [| exact Hs |].
    2:{ rewrite starts_app_ne by exact Hi. intros (k & r & -> & K). inversion D; subst. now apply (digit_not_sign k). }
    rewrite take_digits_app by assumption. pose proof (read_exp_spec _ _ Hx) as RE. unfold read_exp in RE.
    destruct x as [| c r].
    + cbn [length]. rewrite app_nil_r, digits_val_int. inversion Hx; subst. reflexivity.
    + destruct (c =? 46)%N eqn:E; [exfalso; apply X2; exists c, r; split; [reflexivity |]; apply N.eqb_eq in E; auto |].
      cbn [length]. rewrite app_nil_r, digits_val_int, RE. now rewrite Z.sub_0_r.
  - rewrite read_sign_app; [| exact Hs |].
    2:{ destruct i as [| c i]; cbn [app]; rewrite starts_cons; [unfold sign; lia | inversion D; subst; now apply digit_not_sign]. }
    rewrite take_digits_app; [| exact D | rewrite starts_cons; unfold digit; lia].
    cbv iota. change (46 =? 46)%N with true. cbv iota. rewrite take_digits_app by assumption.
    pose proof (read_exp_spec _ _ Hx) as RE. unfold read_exp in RE. rewrite RE, digits_val_int. reflexivity.
Qed.
Lemma decimal_nonneg : forall p neg m e, decimal_of p neg m e -> 0 <= m.
Proof. intros p neg m e H. destruct H as [s i x e _ (_ & D) _ | s i f x e _ D (_ & F) _]; apply int_of_nonneg; [exact D | apply Forall_app; auto]. Qed.
Lemma parse_f32_nearest : forall p neg m e, decimal_of p neg m e ->
  exists b, parse_f32 p = signed neg b /\ nearest_f32 (numerator m e) (denominator e) b.
Proof.
  intros p neg m e H. exists (f32_of_decimal m e). unfold parse_f32. rewrite (read_decimal_spec _ _ _ _ H). split; [unfold signed; destruct neg; reflexivity |].
  apply f32_of_decimal_nearest. now apply decimal_nonneg in H.
Qed.
Lemma decimal_total : forall p, css_number p -> exists neg m e, decimal_of p neg m e.
Proof.
  intros p (s & m & x & -> & Hs & Hm & Hx).
  assert (E : exists e, exp_of x e). { destruct Hx as [-> | (c & s' & d & -> & Hc & Hs' & Hd)]; eexists; [apply ex_none | now apply ex_some]. }
  destruct E as (e & He). destruct Hm as [Hm | (i & f & -> & Hi & Hf)].
  - do 3 eexists. eapply dc_int; eauto.
  - do 3 eexists. rewrite <- app_assoc. cbn [app]. eapply dc_frac; eauto.
Qed.
Lemma decimal_det : forall p n m e n' m' e', decimal_of p n m e -> decimal_of p n' m' e' -> n = n' /\ m = m' /\ e = e'.
Proof. intros p n m e n' m' e' H H'. apply read_decimal_spec in H. apply read_decimal_spec in H'. rewrite H in H'. inversion H'. auto. Qed.

Lemma nearest_exact : forall n d b b', 0 < d -> nearest_f32 n d b -> 0 <= b' <= f32_infinity -> f32_units b' * d = n * 2 ^ 149 -> b = b'.
Proof.
  intros n d b b' Hd (Hb & H) Hb' E. destruct (Z.eq_dec b' b) as [-> | N]; [reflexivity |]. specialize (H b' Hb' N). rewrite E, Z.sub_diag in H. cbn [Z.abs] in H.
  destruct H as [H | (H & _)]; [lia |]. assert (E2 : f32_units b * d = f32_units b' * d) by lia. assert (E3 : f32_units b = f32_units b') by nia.
  destruct (Z_lt_ge_dec b b') as [C | C]; [pose proof (units_smono b b' ltac:(lia)) | pose proof (units_smono b' b ltac:(lia))]; lia.
Qed.
Lemma nearest_unique : forall n d b b', 0 < d -> nearest_f32 n d b -> nearest_f32 n d b' -> b = b'.
Proof.
  intros n d b b' Hd (Hb & H) (Hb' & H'). destruct (Z.eq_dec b' b) as [-> | N]; [reflexivity |]. destruct (H b' Hb' N) as [A | (A & A')], (H' b Hb ltac:(congruence)) as [B | (B & B')]; try lia.
  exfalso. assert (P : forall x y, 0 <= x -> x < y -> y <= f32_infinity -> Z.even x = true -> Z.even y = true ->
     Z.abs (f32_units x * d - n * 2 ^ 149) = Z.abs (f32_units y * d - n * 2 ^ 149) ->
     (forall z, 0 <= z <= f32_infinity -> z <> x -> Z.abs (f32_units x * d - n * 2 ^ 149) < Z.abs (f32_units z * d - n * 2 ^ 149) \/
       Z.abs (f32_units x * d - n * 2 ^ 149) = Z.abs (f32_units z * d - n * 2 ^ 149)) -> False).
  { intros x y Hx Hxy Hy Ex Ey Eq Hn. assert (y <> x + 1). { intros ->. rewrite Z.even_add, Ex in Ey. discriminate. }
    pose proof (units_smono x (x + 1) ltac:(lia)) as U1. pose proof (units_smono (x + 1) y ltac:(lia)) as U2.
    specialize (Hn (x + 1) ltac:(lia) ltac:(lia)). set (X := f32_units x) in *. set (Y := f32_units y) in *. set (M := f32_units (x + 1)) in *. set (N0 := n * 2 ^ 149) in *. clearbody X Y M N0.
    assert (X * d < M * d) by nia. assert (M * d < Y * d) by nia. lia. }
  destruct (Z_lt_ge_dec b b') as [C | C].
  - apply (P b b'); try lia; try assumption. intros z Hz Nz. destruct (H z Hz Nz) as [Q | (Q & _)]; [left; exact Q | right; exact Q].
  - apply (P b' b); try lia; try assumption. intros z Hz Nz. destruct (H' z Hz Nz) as [Q | (Q & _)]; [left; exact Q | right; exact Q].
Qed.
Lemma small_int_representable : forall m, 0 <= m <= 2 ^ 24 -> exists b, 0 <= b < f32_infinity /\ f32_units b = m * 2 ^ 149.
Proof.
  intros m Hm. destruct (Z.eq_dec m 0) as [-> | N]; [exists 0; split; [unfold f32_infinity; lia | reflexivity] |].
  destruct (Z.eq_dec m (2 ^ 24)) as [-> | N2]; [exists (150 * 2 ^ 23 + 2 ^ 23); split; [unfold f32_infinity; lia | vm_compute; reflexivity] |].
  destruct (Z.log2_spec m ltac:(lia)) as (L & U). pose proof (Z.log2_nonneg m) as L0. assert (L1 : Z.log2 m <= 23) by (apply Z.lt_succ_r; apply Z.log2_lt_pow2; lia).
  set (k := Z.log2 m) in *. clearbody k. exists ((126 + k) * 2 ^ 23 + m * 2 ^ (23 - k)).
  assert (E : 2 ^ 23 = 2 ^ k * 2 ^ (23 - k)) by (rewrite <- Z.pow_add_r by lia; f_equal; lia). rewrite Z.pow_succ_r in U by lia. pose proof (pow_pos (23 - k) ltac:(lia)).
  assert (B : 2 ^ 23 <= m * 2 ^ (23 - k) < 2 ^ 24) by (change (2 ^ 24) with (2 * 2 ^ 23); rewrite E; nia).
  split; [unfold f32_infinity; lia |]. rewrite units_norm by lia. rewrite <- Z.mul_assoc, <- Z.pow_add_r by lia. do 2 f_equal. lia.
Qed.
Lemma int_exact : forall p neg m e, decimal_of p neg m e -> e = 0 -> m <= 2 ^ 24 ->
  exists b, parse_f32 p = signed neg b /\ 0 <= b < f32_infinity /\ f32_units b = m * 2 ^ 149.
Proof.
  intros p neg m e H -> Hm. destruct (parse_f32_nearest p neg m 0 H) as (b & E & NB). pose proof (decimal_nonneg _ _ _ _ H) as M0.
  destruct (small_int_representable m ltac:(lia)) as (b' & Hb' & U). exists b. split; [exact E |].
  assert (b = b'). { refine (nearest_exact _ _ b b' _ NB _ _); [reflexivity | lia |]. unfold numerator, denominator. cbn [Z.leb Z.compare]. rewrite Z.pow_0_r, !Z.mul_1_r. exact U. }
  subst b'. split; [lia | exact U].
Qed.
