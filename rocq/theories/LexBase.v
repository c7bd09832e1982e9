(* Basic lemmas on characters, texts and slices. *)
From Coq Require Import ZifyBool ZifyNat ZifyN.
From Verif Require Import Lexer SpecLex.
Open Scope N_scope.
Ltac Zify.zify_post_hook ::= Z.div_mod_to_equations.

Lemma is_newline_spec : forall c, is_newline c = true <-> newline c.
Proof. intro c. unfold is_newline, newline, CR, LF, FF. lia. Qed.
Lemma is_whitespace_spec : forall c, is_whitespace c = true <-> white c.
Proof. intro c. unfold is_whitespace, white, SPACE, TAB. rewrite !orb_true_iff, is_newline_spec. unfold newline. lia. Qed.
Lemma is_digit_spec : forall c, is_ascii_digit c = true <-> digit c.
Proof. intro c. unfold is_ascii_digit, digit. lia. Qed.
Lemma is_hex_spec : forall c, is_ascii_hexdigit c = true <-> hex c.
Proof. intro c. unfold is_ascii_hexdigit, is_ascii_digit, hex, digit. lia. Qed.
Lemma is_quote_spec : forall c, is_quote c = true <-> quote c.
Proof. intro c. unfold is_quote, quote. lia. Qed.
Lemma is_sign_spec : forall c, is_sign c = true <-> sign c.
Proof. intro c. unfold is_sign, sign. lia. Qed.
Lemma is_upper_spec : forall c, is_ascii_upper c = true <-> upper c.
Proof. intro c. unfold is_ascii_upper, upper. lia. Qed.
Lemma is_non_ascii_spec : forall c, is_non_ascii c = true <-> non_ascii_ident c.
Proof. intro c. unfold is_non_ascii, non_ascii_ident, in_range. destruct (65536 <=? c) eqn:E; lia. Qed.
Lemma is_non_printable_spec : forall c, is_non_printable c = true <-> c = 0 \/ non_printable c.
Proof. intro c. unfold is_non_printable, non_printable, in_range. lia. Qed.

Definition ascii_all : list N := map N.of_nat (seq 0 128).
Lemma ascii_all_in : forall c, c < 128 -> In c ascii_all.
Proof.
  intros c H. unfold ascii_all. apply in_map_iff. exists (N.to_nat c). split; [lia |]. apply in_seq. lia.
Qed.
Lemma ascii_sweep : forall f : N -> bool, forallb f ascii_all = true -> forall c, c < 128 -> f c = true.
Proof. intros f H c L. rewrite forallb_forall in H. apply H. now apply ascii_all_in. Qed.

Lemma is_ident_ascii_start_spec : forall c, c < 128 ->
  is_ident_ascii_start c = (in_range 65 90 c || in_range 97 122 c || (c =? 95)).
Proof.
  intros c H. apply Bool.eqb_prop.
  exact (ascii_sweep (fun c => Bool.eqb (is_ident_ascii_start c) (in_range 65 90 c || in_range 97 122 c || (c =? 95))) eq_refl c H).
Qed.
Lemma is_ident_ascii_spec : forall c, c < 128 ->
  is_ident_ascii c = (in_range 65 90 c || in_range 97 122 c || (c =? 95) || in_range 48 57 c || (c =? 45)).
Proof.
  intros c H. apply Bool.eqb_prop.
  exact (ascii_sweep (fun c => Bool.eqb (is_ident_ascii c) (in_range 65 90 c || in_range 97 122 c || (c =? 95) || in_range 48 57 c || (c =? 45))) eq_refl c H).
Qed.
Lemma is_lower_spec : forall c, is_ident_ascii_lower c = true <-> lower c.
Proof.
  intros c. unfold is_ident_ascii_lower, is_ascii, lower. destruct (c <? 128) eqn:E; cbn [andb]; [| lia].
  replace (nth (N.to_nat c) ASCII_LOWER false) with (in_range 97 122 c); [unfold in_range; lia |].
  apply Bool.eqb_prop.
  refine (ascii_sweep (fun c => Bool.eqb (in_range 97 122 c) (nth (N.to_nat c) ASCII_LOWER false)) eq_refl c _). lia.
Qed.
Lemma is_ident_spec : forall c, is_ident c = true <-> ident_cp c /\ c <> 0.
Proof.
  intro c. unfold is_ident, is_ascii, ident_cp, ident_start_cp, letter, upper, lower, digit.
  destruct (c <? 128) eqn:E.
  - rewrite is_ident_ascii_spec by lia. unfold in_range, non_ascii_ident. lia.
  - rewrite is_non_ascii_spec. unfold non_ascii_ident. lia.
Qed.
Lemma is_ident_start_spec : forall c, is_ident_start c = true <-> ident_start_cp c /\ c <> 0.
Proof.
  intro c. unfold is_ident_start, is_ascii, ident_start_cp, letter, upper, lower.
  destruct (c <? 128) eqn:E.
  - rewrite is_ident_ascii_start_spec by lia. unfold in_range, non_ascii_ident. lia.
  - rewrite is_non_ascii_spec. unfold non_ascii_ident. lia.
Qed.

(* ---- texts ---- *)
Lemma blen_app : forall a b, blen (a ++ b) = blen a + blen b.
Proof. induction a as [| c a IH]; intro b; cbn [app blen]; [reflexivity |]. rewrite IH. lia. Qed.
Lemma len_utf8_pos : forall c, 1 <= len_utf8 c <= 4.
Proof. intro c. unfold len_utf8. destruct (c <? 128), (c <? 2048), (c <? 65536); lia. Qed.
Lemma len_utf8_ascii : forall c, c < 128 -> len_utf8 c = 1.
Proof. intros c H. unfold len_utf8. replace (c <? 128) with true by lia. reflexivity. Qed.
Lemma blen_pos : forall l, l <> [] -> 0 < blen l.
Proof. intros [| c l] H; [congruence |]. cbn [blen]. pose proof (len_utf8_pos c). lia. Qed.
Lemma blen_zero : forall l, blen l = 0 -> l = [].
Proof. intros [| c l] H; [reflexivity |]. cbn [blen] in H. pose proof (len_utf8_pos c). lia. Qed.
Lemma blen_ascii : forall l, Forall (fun c => c < 128) l -> blen l = N.of_nat (length l).
Proof. induction l as [| c l IH]; intro H; [reflexivity |]. inversion H; subst. cbn [blen length].
  rewrite len_utf8_ascii by assumption. rewrite IH by assumption. lia. Qed.
Lemma length_le_blen : forall l, N.of_nat (length l) <= blen l.
Proof. induction l as [| c l IH]; [cbn; lia |]. cbn [length blen]. pose proof (len_utf8_pos c). lia. Qed.

Lemma drop_bytes_app : forall a b, drop_bytes (blen a) (a ++ b) = Some b.
Proof.
  induction a as [| c a IH]; intro b; cbn [app blen].
  - now destruct b.
  - pose proof (len_utf8_pos c). cbn [drop_bytes].
    replace (len_utf8 c + blen a =? 0) with false by lia.
    replace (len_utf8 c + blen a <? len_utf8 c) with false by lia.
    replace (len_utf8 c + blen a - len_utf8 c) with (blen a) by lia. apply IH.
Qed.
Lemma take_bytes_app : forall a b, take_bytes (blen a) (a ++ b) = Some a.
Proof.
  induction a as [| c a IH]; intro b; cbn [app blen].
  - now destruct b.
  - pose proof (len_utf8_pos c). cbn [take_bytes].
    replace (len_utf8 c + blen a =? 0) with false by lia.
    replace (len_utf8 c + blen a <? len_utf8 c) with false by lia.
    replace (len_utf8 c + blen a - len_utf8 c) with (blen a) by lia. now rewrite IH.
Qed.
Lemma drop_bytes_inv : forall l n r, drop_bytes n l = Some r -> exists a, l = a ++ r /\ blen a = n.
Proof.
  induction l as [| c l IH]; intros n r H; cbn [drop_bytes] in H.
  - destruct (n =? 0) eqn:E; [| discriminate]. inversion H; subst. exists []. split; [reflexivity | cbn; lia].
  - destruct (n =? 0) eqn:E; [inversion H; subst; exists []; split; [reflexivity | cbn; lia] |].
    destruct (n <? len_utf8 c) eqn:E2; [discriminate |].
    apply IH in H. destruct H as (a & -> & Hb). exists (c :: a). split; [reflexivity |]. cbn [blen]. lia.
Qed.
Lemma take_bytes_inv : forall l n a, take_bytes n l = Some a -> exists r, l = a ++ r /\ blen a = n.
Proof.
  induction l as [| c l IH]; intros n a H; cbn [take_bytes] in H.
  - destruct (n =? 0) eqn:E; [| discriminate]. inversion H; subst. exists []. split; [reflexivity | cbn; lia].
  - destruct (n =? 0) eqn:E; [inversion H; subst; exists (c :: l); split; [reflexivity | cbn; lia] |].
    destruct (n <? len_utf8 c) eqn:E2; [discriminate |].
    destruct (take_bytes (n - len_utf8 c) l) as [t |] eqn:T; [| discriminate]. inversion H; subst.
    apply IH in T. destruct T as (r & -> & Hb). exists r. split; [reflexivity |]. cbn [blen]. lia.
Qed.
Lemma slice_app : forall a b c, slice (a ++ b ++ c) (blen a) (blen a + blen b) = Some b.
Proof.
  intros. unfold slice. replace (blen a + blen b <? blen a) with false by lia.
  rewrite drop_bytes_app. replace (blen a + blen b - blen a) with (blen b) by lia. apply take_bytes_app.
Qed.

Lemma peek0 : forall c l, peek_nth (c :: l) 0 = c. Proof. reflexivity. Qed.
Lemma peek1 : forall c l, peek_nth (c :: l) 1 = peek_nth l 0. Proof. reflexivity. Qed.
Lemma peek2 : forall c l, peek_nth (c :: l) 2 = peek_nth l 1. Proof. reflexivity. Qed.
Lemma peek_nil : forall n, peek_nth [] n = 0. Proof. intros [| n]; reflexivity. Qed.

(* a class of characters that excludes NUL is decided by the peeked character *)
Lemma peek_starts : forall (P : char -> Prop) l, ~ P 0 -> (P (peek_nth l 0) <-> starts P l).
Proof.
  intros P l H. destruct l as [| c l].
  - rewrite peek_nil. split; [tauto |]. intros (c & r & E & _). discriminate.
  - rewrite peek0. split; [intro; exists c, l; auto |]. intros (c' & r & E & Hc). inversion E; now subst.
Qed.
Lemma starts_cons : forall P c l, starts P (c :: l) <-> P c.
Proof. intros. split; [intros (c' & r & E & H); inversion E; now subst | intro; exists c, l; auto]. Qed.
Lemma starts_nil : forall P, ~ starts P [].
Proof. intros P (c & r & E & _). discriminate. Qed.

Lemma starts_escape_peek : forall l, starts_escape l <-> l <> [] /\ is_escape_sequence (peek_nth l 0) (peek_nth l 1) = true.
Proof.
  intros l. unfold starts_escape, is_escape_sequence. split.
  - intros [-> | (c & r & -> & H)].
    + split; [discriminate | reflexivity].
    + split; [discriminate |]. rewrite peek0, peek1, peek0. rewrite <- is_newline_spec in H.
      destruct (is_newline c); [congruence | reflexivity].
  - intros (Hn & H). destruct l as [| c l]; [congruence |]. rewrite peek0, peek1 in H.
    apply andb_true_iff in H. destruct H as (H1 & H2). apply N.eqb_eq in H1. subst c.
    destruct l as [| d l]; [now left |]. right. exists d, l. split; [reflexivity |].
    rewrite <- is_newline_spec. rewrite peek0 in H2. destruct (is_newline d); [discriminate | congruence].
Qed.

(* ---- no escape of a non-ASCII character ---- *)
Lemma esc_ok_suffix : forall a l, esc_ok (a ++ l) -> esc_ok l.
Proof. intros a l H x c b E. apply (H (a ++ x) c b). rewrite E, app_assoc. reflexivity. Qed.
Lemma esc_ok_tl : forall c l, esc_ok (c :: l) -> esc_ok l.
Proof. intros c l H. exact (esc_ok_suffix [c] l H). Qed.
Lemma esc_ok_prefix : forall a l, esc_ok (a ++ l) -> esc_ok a.
Proof. intros a l H x c b E. apply (H x c (b ++ l)). rewrite E. now rewrite <- app_assoc. Qed.
