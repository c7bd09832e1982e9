(* Lemmas about the bit layout of tokens (proofs for PropToken.v). *)
From Coq Require Import ZifyBool ZifyNat ZifyN.
From Verif Require Import Token.
Open Scope N_scope.
Ltac Zify.zify_post_hook ::= Z.div_mod_to_equations.

Lemma lor_disjoint_add : forall n f low, low < 2 ^ n -> N.lor (f * 2 ^ n) low = f * 2 ^ n + low.
Proof.
  intros n f low H.
  assert (HL : N.land (f * 2 ^ n) low = 0).
  { apply N.bits_inj_iff. intro i. rewrite N.land_spec, N.bits_0.
    destruct (N.lt_ge_cases i n) as [L | L].
    - rewrite N.mul_pow2_bits_low by assumption. reflexivity.
    - destruct (N.eq_dec low 0) as [-> | NZ]; [ now rewrite N.bits_0, andb_false_r |].
      rewrite (N.bits_above_log2 low i), andb_false_r; [reflexivity |].
      apply N.log2_lt_pow2; [lia |]. eapply N.lt_le_trans; [exact H |]. apply N.pow_le_mono_r; lia. }
  rewrite <- (N.lxor_lor _ _ HL). symmetry. apply N.add_nocarry_lxor. exact HL.
Qed.

Lemma land_mask : forall n x, N.land x (2 ^ n - 1) = x mod 2 ^ n.
Proof. intros. rewrite N.sub_1_r, <- N.ones_equiv. apply N.land_ones. Qed.

Lemma land_length_mask : forall x, N.land x LENGTH_MASK = x mod 16777216.
Proof. intro x. exact (land_mask 24 x). Qed.
Lemma land_u32 : forall x, N.land x u32_mask = x mod 4294967296.
Proof. intro x. exact (land_mask 32 x). Qed.
Lemma land_4095 : forall x, N.land x 4095 = x mod 4096.
Proof. intro x. exact (land_mask 12 x). Qed.
Lemma land_255 : forall x, N.land x 255 = x mod 256.
Proof. intro x. exact (land_mask 8 x). Qed.
Lemma land_31 : forall x, N.land x 31 = x mod 32.
Proof. intro x. exact (land_mask 5 x). Qed.
Lemma land_1 : forall x, N.land x 1 = x mod 2.
Proof. intro x. exact (land_mask 1 x). Qed.
Lemma land_7 : forall x, N.land x 7 = x mod 8.
Proof. intro x. exact (land_mask 3 x). Qed.

Lemma lor24 : forall f low, low < 16777216 -> N.lor (f * 16777216) low = f * 16777216 + low.
Proof. intros f low H. exact (lor_disjoint_add 24 f low H). Qed.
Lemma lor12 : forall f low, low < 4096 -> N.lor (f * 4096) low = f * 4096 + low.
Proof. intros f low H. exact (lor_disjoint_add 12 f low H). Qed.

(* the word a token constructor builds *)
Definition word (f low : N) : N := f * 16777216 + low.

Section Acc.
  Variables f low v : N.
  Hypothesis Hf : f < 256.
  Hypothesis Hl : low < 16777216.
  Let t := Tok (word f low) v.

  Lemma shiftr24 : N.shiftr (word f low) 24 = f.
  Proof. rewrite N.shiftr_div_pow2. change (2 ^ 24) with 16777216. unfold word. lia. Qed.
  Lemma acc_kind_bits : kind_bits t = f mod 32.
  Proof. unfold kind_bits, t; cbn [w0]. rewrite shiftr24. apply land_31. Qed.
  Lemma acc_shiftr29 : N.shiftr (w0 t) 29 = f / 32.
  Proof. unfold t; cbn [w0]. rewrite N.shiftr_div_pow2. change (2 ^ 29) with 536870912. unfold word. lia. Qed.
  Lemma acc_shiftr30 : N.shiftr (w0 t) 30 = f / 64.
  Proof. unfold t; cbn [w0]. rewrite N.shiftr_div_pow2. change (2 ^ 30) with 1073741824. unfold word. lia. Qed.
  Lemma acc_shiftr31 : N.shiftr (w0 t) 31 = f / 128.
  Proof. unfold t; cbn [w0]. rewrite N.shiftr_div_pow2. change (2 ^ 31) with 2147483648. unfold word. lia. Qed.
  Lemma acc_first : first_bit t = (f / 128 =? 1).
  Proof. unfold first_bit. now rewrite acc_shiftr31. Qed.
  Lemma acc_second : second_bit t = (f / 64 mod 2 =? 1).
  Proof. unfold second_bit. now rewrite acc_shiftr30, land_1. Qed.
  Lemma acc_third : third_bit t = (f / 32 mod 2 =? 1).
  Proof. unfold third_bit. now rewrite acc_shiftr29, land_1. Qed.
  Lemma acc_low : N.land (w0 t) LENGTH_MASK = low.
  Proof. rewrite land_length_mask. unfold t, word; cbn [w0]. lia. Qed.
  Lemma acc_low12 : N.land (w0 t) 4095 = low mod 4096.
  Proof. rewrite land_4095. unfold t, word; cbn [w0]. lia. Qed.
End Acc.

Lemma word0 : forall f, f * 16777216 = word f 0.
Proof. intro. unfold word. lia. Qed.

Lemma shl12 : forall n, n < 4096 -> N.land (shl32 n 12) HALF_LENGTH_MASK = n * 4096.
Proof.
  intros n H. unfold shl32. rewrite land_u32, N.shiftl_mul_pow2. change (2 ^ 12) with 4096.
  rewrite N.mod_small by lia.
  apply N.bits_inj_iff. intro i. rewrite N.land_spec.
  destruct (N.lt_ge_cases i 12) as [L | L].
  - change 4096 with (2 ^ 12). rewrite N.mul_pow2_bits_low by assumption. reflexivity.
  - destruct (N.lt_ge_cases i 32) as [L2 | L2].
    + assert (HT : N.testbit HALF_LENGTH_MASK i = true).
      { replace HALF_LENGTH_MASK with (N.ldiff (N.ones 32) (N.ones 12)) by reflexivity.
        rewrite N.ldiff_spec, N.ones_spec_low, N.ones_spec_high by lia. reflexivity. }
      rewrite HT. apply andb_true_r.
    + replace (N.testbit (n * 4096) i) with false; [reflexivity |].
      symmetry. destruct (N.eq_dec n 0) as [-> | NZ]; [apply N.bits_0 |].
      apply N.bits_above_log2. apply N.log2_lt_pow2; [lia |].
      apply N.lt_le_trans with (2 ^ 32); [lia | apply N.pow_le_mono_r; lia].
Qed.

(* Constructors as words *)
Ltac flagword f := change (N.land (shl32 f 24) KIND_MASK) with (f * 16777216).

Lemma ident_like_word : forall k a b c,
  N.land (shl32 (flags3 k a b c) 24) KIND_MASK = word (kind_code k + 32 * b2n a + 64 * b2n b + 128 * b2n c) 0.
Proof. intros k a b c. destruct k, a, b, c; reflexivity. Qed.

Lemma number_word : forall fl s len v, len < 16777216 ->
  new_number fl s len v = Tok (word (4 + 32 * b2n fl + 64 * b2n s) len) v.
Proof.
  intros fl s len v H. unfold new_number. rewrite land_length_mask, N.mod_small by assumption.
  f_equal. unfold word. rewrite <- lor24 by assumption. f_equal. destruct fl, s; reflexivity.
Qed.

Lemma dimension_word : forall fl s n ul v u, n < 4096 ->
  (unit_eqb u U_Unknown = true -> ul < 4096) ->
  new_dimension fl s n ul v u =
  Tok (word (5 + 32 * b2n fl + 64 * b2n s + (if unit_eqb u U_Unknown then 0 else 128))
            (n * 4096 + (if unit_eqb u U_Unknown then ul else unit_code u))) v.
Proof.
  intros fl s n ul v u Hn Hu. unfold new_dimension. rewrite shl12 by assumption.
  assert (Hx : (if unit_eqb u U_Unknown then ul else unit_code u) < 4096).
  { destruct (unit_eqb u U_Unknown) eqn:E; [now apply Hu |]. destruct u; reflexivity. }
  rewrite lor12 by assumption.
  rewrite land_length_mask, N.mod_small by lia.
  f_equal. unfold word. rewrite <- lor24 by lia. f_equal.
  destruct (unit_eqb u U_Unknown), fl, s; reflexivity.
Qed.

Lemma url_word : forall p w e ld tr len, ld < 4096 -> tr < 4096 ->
  new_url p w e ld tr len = Tok (word (13 + 32 * b2n p + 64 * b2n w + 128 * b2n e) (ld * 4096 + tr)) len.
Proof.
  intros p w e ld tr len Hl Ht. unfold new_url. rewrite shl12 by assumption. rewrite lor12 by assumption.
  rewrite land_length_mask, N.mod_small by lia. rewrite ident_like_word. unfold word.
  rewrite N.add_0_r, lor24 by lia. f_equal.
Qed.

(* without limits on leading/trailing, the high byte of a url is still right *)
Lemma url_word_gen : forall p w e ld tr len, exists low, low < 16777216 /\
  new_url p w e ld tr len = Tok (word (13 + 32 * b2n p + 64 * b2n w + 128 * b2n e) low) len.
Proof.
  intros. unfold new_url. rewrite land_length_mask, ident_like_word.
  eexists. split; [apply N.mod_lt; discriminate |].
  unfold word at 1. rewrite N.add_0_r, lor24 by (apply N.mod_lt; discriminate). reflexivity.
Qed.

Ltac accs :=
  rewrite ?acc_kind_bits, ?acc_first, ?acc_second, ?acc_third, ?acc_shiftr29, ?acc_low, ?acc_low12 by lia.

Definition b2n_ub : forall b, b2n b <= 1. Proof. destruct b; simpl; lia. Qed.

(* ---- readable forms: one lemma per constructor ---- *)
Ltac flags_cases :=
  repeat match goal with b : bool |- _ => destruct b end.

Lemma ident_read : forall nl d e len, let t := new_ident nl d e len in
  tkind t = K_Ident /\ tlen t = len /\ is_lower_case t = negb nl /\ is_dashed_ident t = d /\ contains_escape_chars t = e.
Proof. intros; flags_cases; repeat split; reflexivity. Qed.
Lemma function_read : forall nl d e len, let t := new_function nl d e len in
  tkind t = K_Function /\ tlen t = len /\ is_lower_case t = negb nl /\ is_dashed_ident t = d /\ contains_escape_chars t = e.
Proof. intros; flags_cases; repeat split; reflexivity. Qed.
Lemma atkeyword_read : forall nl d e len, let t := new_atkeyword nl d e len in
  tkind t = K_AtKeyword /\ tlen t = len /\ is_lower_case t = negb nl /\ is_dashed_ident t = d /\ contains_escape_chars t = e.
Proof. intros; flags_cases; repeat split; reflexivity. Qed.
Lemma hash_read : forall nl i e len, let t := new_hash nl i e len in
  tkind t = K_Hash /\ tlen t = len /\ is_lower_case t = negb nl /\ hash_is_id_like t = i /\ contains_escape_chars t = e.
Proof. intros; flags_cases; repeat split; reflexivity. Qed.
Lemma string_read : forall q cl e len, let t := new_string q cl e len in
  tkind t = K_String /\ tlen t = len /\ has_close_quote t = cl /\ contains_escape_chars t = e /\
  (q = QS_Double -> tquote_style t = QS_Double) /\ (q = QS_Single -> cl = true -> tquote_style t = QS_Single).
Proof. intros; destruct q; flags_cases; repeat split; intros; try discriminate; reflexivity. Qed.
Lemma whitespace_read : forall st len, st < 8 -> let t := new_whitespace st len in
  tkind t = K_Whitespace /\ tlen t = len /\ whitespace_style t = st.
Proof.
  intros st len H.
  assert (C : st = 0 \/ st = 1 \/ st = 2 \/ st = 3 \/ st = 4 \/ st = 5 \/ st = 6 \/ st = 7) by lia.
  repeat (destruct C as [-> | C]; [repeat split; reflexivity |]). subst. repeat split; reflexivity.
Qed.
Lemma comment_read : forall st len, let t := new_comment st len in
  tkind t = K_Comment /\ tlen t = len /\ comment_style_of t = Some st.
Proof. intros st len; destruct st; repeat split; reflexivity. Qed.
Lemma bad_string_read : forall len, let t := new_bad_string len in tkind t = K_BadString /\ tlen t = len.
Proof. split; reflexivity. Qed.
Lemma bad_url_read : forall len, let t := new_bad_url len in tkind t = K_BadUrl /\ tlen t = len.
Proof. split; reflexivity. Qed.

Lemma number_read : forall fl s len v, len < 16777216 -> let t := new_number fl s len v in
  tkind t = K_Number /\ tlen t = len /\ numeric_len t = len /\ is_float t = fl /\ is_int t = negb fl /\
  has_sign t = s /\ tvalue t = v.
Proof.
  intros fl s len v H t. unfold t. rewrite number_word by assumption.
  unfold tkind, tlen, numeric_len, is_float, is_int, has_sign, is_numeric_kind, is_delim_like, tvalue.
  destruct fl, s; simpl b2n; accs; cbn [N.modulo]; repeat split; try reflexivity.
Qed.

Lemma unit_unknown : forall u, unit_eqb u U_Unknown = true <-> u = U_Unknown.
Proof. destruct u; split; intro H; try discriminate; reflexivity. Qed.
Lemma unit_roundtrip : forall u, unit_of_u8 (unit_code u) = u.
Proof. destruct u; reflexivity. Qed.

Lemma dimension_read : forall fl s n ul v u, n < 4096 -> (u = U_Unknown -> ul < 4096) ->
  let t := new_dimension fl s n ul v u in
  tkind t = K_Dimension /\ numeric_len t = n /\ is_float t = fl /\ is_int t = negb fl /\ has_sign t = s /\
  tvalue t = v /\ dimension_unit t = u /\ leading_len t = n /\
  tlen t = n + (if unit_eqb u U_Unknown then ul else unit_len u).
Proof.
  intros fl s n ul v u Hn Hu t. unfold t.
  rewrite dimension_word; [| assumption | intro E; apply Hu; now apply unit_unknown].
  set (low := n * 4096 + _).
  assert (Hlow : low < 16777216 /\ low / 4096 = n /\ low mod 4096 = (if unit_eqb u U_Unknown then ul else unit_code u)).
  { assert (Hx : (if unit_eqb u U_Unknown then ul else unit_code u) < 4096).
    { destruct (unit_eqb u U_Unknown) eqn:E; [apply Hu; now apply unit_unknown |]. destruct u; reflexivity. }
    unfold low. lia. }
  clearbody low. destruct Hlow as (H1 & H2 & H3).
  assert (Hcode : unit_eqb u U_Unknown = false -> N.land (unit_code u) 255 = unit_code u)
    by (intros _; destruct u; reflexivity).
  assert (Hs : N.shiftr low 12 = n) by (rewrite N.shiftr_div_pow2; exact H2).
  unfold tkind, tlen, leading_len, tkind, numeric_len, is_float, is_int, has_sign, is_numeric_kind, is_delim_like,
    tvalue, dimension_unit.
  destruct (unit_eqb u U_Unknown) eqn:E.
  - apply unit_unknown in E. subst u.
    destruct fl, s; simpl b2n; accs; rewrite H3;
      repeat match goal with |- context [?a + ?b] => match a with 5 => fail 1 | _ => fail end end;
      (repeat split; try reflexivity; try exact Hs;
       cbn -[N.shiftr N.add]; rewrite Hs; reflexivity).
  - destruct fl, s; simpl b2n; accs; rewrite H3, Hcode by reflexivity; cbn -[N.shiftr N.add unit_of_u8 unit_len];
      rewrite ?unit_roundtrip, ?Hs; repeat split; reflexivity.
Qed.

Lemma url_read : forall p w e ld tr len, ld < 4096 -> tr < 4096 -> let t := new_url p w e ld tr len in
  tkind t = K_Url /\ tlen t = len /\ url_has_closing_paren t = p /\ url_has_leading_space t = w /\
  contains_escape_chars t = e /\ leading_len t = ld /\ trailing_len t = tr.
Proof.
  intros p w e ld tr len Hl Ht t. unfold t. rewrite url_word by assumption.
  set (low := ld * 4096 + tr).
  assert (H : low < 16777216 /\ low / 4096 = ld /\ low mod 4096 = tr) by (unfold low; lia).
  clearbody low. destruct H as (H1 & H2 & H3).
  assert (Hs : N.shiftr low 12 = ld) by (rewrite N.shiftr_div_pow2; exact H2).
  unfold leading_len, trailing_len, tlen, contains_escape_chars, can_escape, is_ident_like, is_delim_like,
    url_has_closing_paren, url_has_leading_space, tkind.
  assert (K : kind_bits (Tok (word (13 + 32 * b2n p + 64 * b2n w + 128 * b2n e) low) len) = 13)
    by (rewrite acc_kind_bits by (destruct p, w, e; simpl b2n; lia); destruct p, w, e; reflexivity).
  rewrite !K. rewrite acc_first, acc_second, acc_third, acc_low, acc_low12, Hs, H3
    by (destruct p, w, e; simpl b2n; lia).
  destruct p, w, e; repeat split; reflexivity.
Qed.
Lemma url_read_gen : forall p w e ld tr len, let t := new_url p w e ld tr len in
  tkind t = K_Url /\ tlen t = len /\ url_has_closing_paren t = p /\ url_has_leading_space t = w /\
  contains_escape_chars t = e.
Proof.
  intros p w e ld tr len t. unfold t. destruct (url_word_gen p w e ld tr len) as (low & H1 & ->).
  unfold tlen, contains_escape_chars, can_escape, is_ident_like, is_delim_like,
    url_has_closing_paren, url_has_leading_space, tkind.
  assert (K : kind_bits (Tok (word (13 + 32 * b2n p + 64 * b2n w + 128 * b2n e) low) len) = 13)
    by (rewrite acc_kind_bits by (destruct p, w, e; simpl b2n; lia); destruct p, w, e; reflexivity).
  rewrite !K. rewrite acc_first, acc_second, acc_third
    by (destruct p, w, e; simpl b2n; lia).
  destruct p, w, e; repeat split; reflexivity.
Qed.

Lemma len_utf8_cases : forall c, len_utf8 c = 1 \/ len_utf8 c = 2 \/ len_utf8 c = 3 \/ len_utf8 c = 4.
Proof. intro c. unfold len_utf8. destruct (c <? 128), (c <? 2048), (c <? 65536); auto. Qed.

Lemma delim_read : forall c, valid_char c = true -> let t := new_delim c in
  tkind t = K_Delim /\ tlen t = len_utf8 c /\ tchar t = Some c.
Proof.
  intros c V t. unfold t, tchar, new_delim; cbn [w1]. rewrite V.
  destruct (len_utf8_cases c) as [-> | [-> | [-> | ->]]]; repeat split; reflexivity.
Qed.
Lemma delim_len : forall c, tlen (new_delim c) = len_utf8 c /\ tkind (new_delim c) = K_Delim.
Proof.
  intros c. unfold new_delim.
  destruct (len_utf8_cases c) as [-> | [-> | [-> | ->]]]; split; reflexivity.
Qed.
