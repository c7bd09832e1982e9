(* The text of a displayed f32 reads back as the same f32. *)
From Coq Require Import ZArith Lia List Bool.
From Coq Require Import ZifyBool ZifyNat ZifyN.
From Verif Require Import Chars F32 SpecLex SpecF32 LexBase F32Proofs NumProofs Write.
Open Scope Z_scope.
Open Scope list_scope.

(* ---- digits ---- *)
Lemma int_of_snoc : forall l c, int_of (l ++ [c]) = int_of l * 10 + (Z.of_N c - 48).
Proof. intros. unfold int_of. rewrite fold_left_app. reflexivity. Qed.
Lemma dec_digits_spec : forall f x, 0 <= x -> (Z.to_nat (Z.log2 x) < f)%nat -> digits1 (dec_digits f x) /\ int_of (dec_digits f x) = x /\ (length (dec_digits f x) <= f)%nat.
Proof.
  induction f as [| f IH]; intros x Hx L; [lia |]. cbn [dec_digits]. destruct (x <? 10) eqn:B.
  - repeat split; [discriminate | constructor; [unfold digit; lia | constructor] | unfold int_of; cbn [fold_left]; lia | cbn; lia].
  - assert (L' : (Z.to_nat (Z.log2 (x / 10)) < f)%nat).
    { assert (Q : Z.log2 (x / 10) < Z.log2 x); [| pose proof (Z.log2_nonneg (x / 10)); lia].
      assert (P : 0 < x / 10) by (apply Z.div_str_pos; lia). apply Z.lt_le_trans with (Z.succ (Z.log2 (x / 10))); [lia |].
      rewrite <- Z.log2_double by lia. apply Z.log2_le_mono. pose proof (Z.mul_div_le x 10 ltac:(lia)). lia. }
    assert (P0 : 0 <= x / 10) by (apply Z.div_pos; lia). destruct (IH _ P0 L') as ((NE & F) & V & Ln). pose proof (Z.mod_pos_bound x 10 ltac:(lia)) as M.
    repeat split.
    + now destruct (dec_digits f (x / 10)).
    + apply Forall_app. split; [exact F |]. constructor; [unfold digit; lia | constructor].
    + rewrite int_of_snoc, V. pose proof (Z.div_mod x 10 ltac:(lia)). lia.
    + rewrite app_length. cbn [length]. lia.
Qed.
Lemma dec_of_spec : forall x, 0 <= x -> digits1 (dec_of x) /\ int_of (dec_of x) = x /\ Z.of_nat (length (dec_of x)) <= Z.log2 x + 1.
Proof.
  intros x Hx. unfold dec_of. destruct (dec_digits_spec (S (Z.to_nat (Z.log2 x))) x Hx) as (A & B & C); [lia |]. split; [exact A |]. split; [exact B |].
  pose proof (Z.log2_nonneg x). lia.
Qed.
Lemma zeros_digits : forall n, digits (zeros n).
Proof. intro n. unfold zeros, digits. apply Forall_forall. intros c I. apply repeat_spec in I. subst. unfold digit. lia. Qed.
Lemma zeros_len : forall n, 0 <= n -> Z.of_nat (length (zeros n)) = n.
Proof. intros. unfold zeros. rewrite repeat_length. lia. Qed.
Lemma fold_zeros : forall n a, fold_left (fun a c => a * 10 + (Z.of_N c - 48)) (repeat 48%N n) a = a * 10 ^ Z.of_nat n.
Proof. induction n as [| n IH]; intro a; cbn [repeat fold_left]; [cbn; lia |]. rewrite IH, Nat2Z.inj_succ, Z.pow_succ_r by lia. lia. Qed.
Lemma int_of_zeros_after : forall l n, 0 <= n -> int_of (l ++ zeros n) = int_of l * 10 ^ n.
Proof. intros l n H. unfold int_of, zeros. rewrite fold_left_app, fold_zeros. now rewrite Z2Nat.id. Qed.
Lemma int_of_zeros_before : forall l n, int_of ((48%N :: zeros n) ++ l) = int_of l.
Proof. intros l n. unfold int_of, zeros. rewrite fold_left_app. cbn [fold_left]. rewrite fold_zeros. reflexivity. Qed.

(* ---- placing the point ---- *)
(* the shape of a displayed magnitude: an integer part and perhaps a fraction, no exponent *)
Definition plain_magnitude (w : list N) : Prop := digits1 w \/ exists i f, w = i ++ 46%N :: f /\ digits1 i /\ digits1 f.
Lemma digits1_cons : forall c l, digit c -> digits l -> digits1 (c :: l).
Proof. intros. split; [discriminate | now constructor]. Qed.
Lemma place_point_spec : forall d p, 0 <= d -> plain_magnitude (place_point d p) /\
  (forall s, opt_sign s -> exists m e, decimal_of (s ++ place_point d p) (if list_eq_dec N.eq_dec s [45%N] then true else false) m e /\
     (e = 0 \/ e = - p) /\ (m = d /\ e = - p \/ p <= 0 /\ e = 0 /\ m = d * 10 ^ (- p))) /\
  Z.of_nat (length (place_point d p)) <= Z.log2 d + 4 + Z.abs p.
Proof.
  intros d p Hd. unfold place_point. destruct (dec_of_spec d Hd) as (D1 & V & Ln). pose proof (Z.log2_nonneg d) as L0. destruct D1 as (NE & D).
  destruct (p <=? 0) eqn:E.
  - assert (W : digits1 (dec_of d ++ zeros (- p))). { split; [now destruct (dec_of d) |]. apply Forall_app. split; [exact D | apply zeros_digits]. }
    split; [now left |]. split.
    + intros s Hs. exists (d * 10 ^ (- p)), 0. split; [| split; [now left | right; repeat split; lia]].
      rewrite <- V at 2. rewrite <- int_of_zeros_after by lia. rewrite <- (app_nil_r (dec_of d ++ zeros (- p))) at 1. apply dc_int; [exact Hs | exact W | apply ex_none].
    + rewrite app_length, Nat2Z.inj_add, zeros_len by lia. lia.
  - cbv zeta. set (ds := dec_of d) in *. destruct (Z.of_nat (length ds) - p <=? 0) eqn:E2.
    + set (k := - (Z.of_nat (length ds) - p)). assert (Hk : 0 <= k) by (unfold k; lia).
      assert (F1 : digits1 (zeros k ++ ds)). { split; [destruct (zeros k); [exact NE | discriminate] |]. apply Forall_app. split; [apply zeros_digits | exact D]. }
      assert (LF : Z.of_nat (length (zeros k ++ ds)) = p) by (rewrite app_length, Nat2Z.inj_add, zeros_len by lia; unfold k; lia).
      split; [right; exists [48%N], (zeros k ++ ds); repeat split; try apply F1; [discriminate | constructor; [unfold digit; lia | constructor]] |]. split.
      * intros s Hs. exists d, (- p). split; [| split; [now right | now left]].
        rewrite <- V. rewrite <- (int_of_zeros_before ds k). cbn [app]. replace (- p) with (0 - Z.of_nat (length (zeros k ++ ds))) by lia.
        rewrite <- (app_nil_r (zeros k ++ ds)) at 1. apply (dc_frac s [48%N] (zeros k ++ ds) [] 0); [exact Hs | constructor; [unfold digit; lia | constructor] | exact F1 | apply ex_none].
      * cbn [app length]. rewrite !Nat2Z.inj_succ. rewrite LF. lia.
    + set (n := Z.to_nat (Z.of_nat (length ds) - p)). assert (Hn : (0 < n <= length ds)%nat) by (unfold n; lia).
      pose proof (firstn_skipn n ds) as FS. assert (LF : length (firstn n ds) = n) by (apply firstn_length_le; lia). assert (LS : Z.of_nat (length (skipn n ds)) = p) by (rewrite skipn_length; unfold n; lia).
      assert (DF : Forall digit (firstn n ds) /\ Forall digit (skipn n ds)) by (rewrite <- FS in D; now apply Forall_app in D).
      assert (F1 : digits1 (firstn n ds)) by (split; [intro Q; rewrite Q in LF; cbn in LF; lia | tauto]).
      assert (F2 : digits1 (skipn n ds)) by (split; [intro Q; rewrite Q in LS; cbn in LS; lia | tauto]).
      split; [right; exists (firstn n ds), (skipn n ds); repeat split; try apply F1; apply F2 |]. split.
      * intros s Hs. exists d, (- p). split; [| split; [now right | now left]].
        rewrite <- V. rewrite <- FS at 3. replace (- p) with (0 - Z.of_nat (length (skipn n ds))) by lia. cbn [app].
        rewrite <- (app_nil_r (skipn n ds)) at 1. apply (dc_frac s (firstn n ds) (skipn n ds) [] 0); [exact Hs | tauto | exact F2 | apply ex_none].
      * rewrite !app_length. cbn [length]. rewrite LF. rewrite skipn_length. lia.
Qed.

(* ---- the search ends ---- *)
Lemma mag_units_eq : forall b, mag_units b = f32_units b. Proof. reflexivity. Qed.
Lemma units_pos : forall b, 0 < b -> 0 < f32_units b.
Proof. intros b H. pose proof (units_smono 0 b ltac:(lia)) as U. change (f32_units 0) with 0 in U. lia. Qed.
Lemma units_nonneg : forall b, 0 <= b -> 0 <= f32_units b.
Proof. intros b H. pose proof (units_mono 0 b ltac:(lia)) as U. change (f32_units 0) with 0 in U. lia. Qed.
Lemma units_bound : forall b, 0 <= b <= f32_infinity -> f32_units b <= 2 ^ 277.
Proof.
  intros b H. pose proof (units_mono b f32_infinity ltac:(lia)) as U. replace (f32_units f32_infinity) with (2 ^ 277) in U by (vm_compute; reflexivity). exact U.
Qed.
Lemma down_at_149 : forall b, 0 <= b <= f32_infinity -> f32_of_decimal (f32_units b * 10 ^ 149 / 2 ^ 149) (-149) = b.
Proof.
  intros b H. assert (E : f32_units b * 10 ^ 149 / 2 ^ 149 = f32_units b * 5 ^ 149).
  { replace (10 ^ 149) with (5 ^ 149 * 2 ^ 149) by (rewrite <- Z.pow_mul_l; reflexivity). rewrite Z.mul_assoc. apply Z.div_mul. lia. }
  rewrite E. pose proof (units_nonneg b ltac:(lia)) as U. assert (U5 : 0 <= f32_units b * 5 ^ 149) by (apply Z.mul_nonneg_nonneg; [exact U | apply Z.pow_nonneg; lia]).
  pose proof (f32_of_decimal_nearest (f32_units b * 5 ^ 149) (-149) U5) as NB.
  refine (nearest_exact _ _ _ b _ NB H _); [reflexivity |]. unfold numerator, denominator. cbn [Z.leb Z.compare]. change (- -149) with 149.
  replace (10 ^ 149) with (5 ^ 149 * 2 ^ 149) by (rewrite <- Z.pow_mul_l; reflexivity). lia.
Qed.
Lemma shortest_found : forall f b p, 0 <= b <= f32_infinity -> -39 <= p <= 149 -> (Z.to_nat (150 - p) <= f)%nat ->
  exists d q, shortest f b p = place_point d q /\ 0 <= d <= 2 ^ 800 /\ -39 <= q <= 149 /\ f32_of_decimal d (- q) = b.
Proof.
  induction f as [| f IH]; intros b p Hb Hp Hf; [lia |]. cbn [shortest]. cbv zeta. rewrite mag_units_eq.
  pose proof (units_nonneg b ltac:(lia)) as U0. pose proof (units_bound b Hb) as UB.
  set (num := if 0 <=? p then f32_units b * 10 ^ p else f32_units b). set (den := if 0 <=? p then 2 ^ 149 else 2 ^ 149 * 10 ^ (- p)).
  assert (Hnum : 0 <= num <= 2 ^ 777).
  { unfold num. destruct (0 <=? p) eqn:E; [| split; [lia |]; apply Z.le_trans with (2 ^ 277); [exact UB | apply Z.pow_le_mono_r; lia]].
    assert (P10 : 10 ^ p <= 2 ^ 500). { apply Z.le_trans with (10 ^ 149); [apply Z.pow_le_mono_r; lia |]. vm_compute. discriminate. }
    assert (P0 : 0 < 10 ^ p) by (apply Z.pow_pos_nonneg; lia). split; [apply Z.mul_nonneg_nonneg; lia |].
    replace (2 ^ 777) with (2 ^ 277 * 2 ^ 500) by (rewrite <- Z.pow_add_r by lia; reflexivity). apply Z.mul_le_mono_nonneg; lia. }
  assert (Hden : 1 <= den). { unfold den. destruct (0 <=? p) eqn:E; [lia |]. assert (0 < 10 ^ (- p)) by (apply Z.pow_pos_nonneg; lia). lia. }
  assert (Hlo : 0 <= num / den <= 2 ^ 777). { split; [apply Z.div_pos; lia |]. apply Z.le_trans with num; [| lia]. apply Z.div_le_upper_bound; [lia |]. nia. }
  assert (Hhi : num / den + 1 <= 2 ^ 800). { apply Z.le_trans with (2 ^ 777 + 1); [lia |]. vm_compute. discriminate. }
  assert (Hlo8 : num / den <= 2 ^ 800) by lia.
  destruct (f32_of_decimal (num / den + 1) (- p) =? b) eqn:UP; destruct (f32_of_decimal (num / den) (- p) =? b) eqn:DN; cbn [andb negb orb].
  - destruct (den <=? 2 * (num mod den)); [exists (num / den + 1), p | exists (num / den), p]; repeat split; lia.
  - exists (num / den + 1), p; repeat split; lia.
  - exists (num / den), p; repeat split; lia.
  - destruct (Z.eq_dec p 149) as [-> | Np].
    + exfalso. unfold num, den in DN. change (0 <=? 149) with true in DN. cbv iota in DN. rewrite down_at_149 in DN by exact Hb. lia.
    + apply IH; lia.
Qed.

Lemma decimal_shift : forall d p, 0 <= d -> p <= 0 -> f32_of_decimal (d * 10 ^ (- p)) 0 = f32_of_decimal d (- p).
Proof.
  intros d p Hd Hp. assert (P : 0 < 10 ^ (- p)) by (apply Z.pow_pos_nonneg; lia).
  pose proof (f32_of_decimal_nearest (d * 10 ^ (- p)) 0 ltac:(nia)) as A. pose proof (f32_of_decimal_nearest d (- p) Hd) as B.
  unfold numerator, denominator in A, B. replace (0 <=? - p) with true in B by lia. change (0 <=? 0) with true in A. cbv iota in A. rewrite Z.pow_0_r, Z.mul_1_r in A.
  refine (nearest_unique _ 1 _ _ _ A B); reflexivity.
Qed.
Lemma parse_place_point : forall s d p, 0 <= d -> opt_sign s -> parse_f32 (s ++ place_point d p) = signed (if list_eq_dec N.eq_dec s [45%N] then true else false) (f32_of_decimal d (- p)).
Proof.
  intros s d p Hd Hs. destruct (place_point_spec d p Hd) as (_ & H & _). destruct (H s Hs) as (m & e & D & _ & C). unfold parse_f32. rewrite (read_decimal_spec _ _ _ _ D).
  destruct C as [(-> & ->) | (Hp & -> & ->)]; [| rewrite decimal_shift by lia]; unfold signed; destruct (list_eq_dec N.eq_dec s [45%N]); reflexivity.
Qed.

Lemma magnitude_spec : forall b, 0 <= b < f32_infinity -> plain_magnitude (display_magnitude b) /\
  Z.of_nat (length (display_magnitude b)) <= 1000 /\
  forall s, opt_sign s -> parse_f32 (s ++ display_magnitude b) = signed (if list_eq_dec N.eq_dec s [45%N] then true else false) b.
Proof.
  intros b Hb. unfold display_magnitude. rewrite f32_inf_eq. replace (f32_infinity <? b) with false by lia. replace (b =? f32_infinity) with false by lia.
  destruct (b =? 0) eqn:E.
  - assert (b = 0) by lia. subst b. split; [left; apply digits1_cons; [unfold digit; lia | constructor] |]. split; [cbn; lia |].
    intros s [-> | [-> | ->]]; vm_compute; reflexivity.
  - destruct (shortest_found 200 b (-39) ltac:(lia) ltac:(lia) ltac:(lia)) as (d & q & -> & Hd & Hq & P).
    destruct (place_point_spec d q ltac:(lia)) as (A & _ & L). split; [exact A |]. split.
    + assert (Z.log2 d <= 800); [| lia]. destruct (Z.eq_dec d 0) as [-> | Nd]; [cbn; lia |]. pose proof (Z.log2_le_mono _ _ (proj2 Hd)) as LD. rewrite Z.log2_pow2 in LD by lia. lia.
    + intros s Hs. rewrite parse_place_point by (try exact Hs; lia). now rewrite P.
Qed.
