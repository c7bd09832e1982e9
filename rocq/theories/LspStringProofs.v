(* JSON strings are read as RFC 8259 spells them. *)
From Coq Require Import ZifyBool ZifyNat ZifyN.
From Coq Require Import List Arith.
From Verif Require Import LspJson SpecLspString.
Open Scope N_scope.
Open Scope list_scope.
Ltac Zify.zify_post_hook ::= Z.div_mod_to_equations.

Lemma hex_val_spec : forall c n, hex_val c = Some n <-> hex_digit c n.
Proof.
  intros c n. unfold hex_val, is_ascii_digit, between. split.
  - intros H. destruct ((48 <=? c) && (c <=? 57)) eqn:A; [| destruct ((97 <=? c) && (c <=? 102)) eqn:B; [| destruct ((65 <=? c) && (c <=? 70)) eqn:C; [| discriminate]]]; injection H as <-.
    + replace c with (48 + (c - 48)) at 1 by lia. constructor. lia.
    + replace c with (97 + ((c - 87) - 10)) at 1 by lia. constructor. lia.
    + replace c with (65 + ((c - 55) - 10)) at 1 by lia. constructor. lia.
  - intros [m H | m H | m H].
    + replace ((48 <=? 48 + m) && (48 + m <=? 57)) with true by lia. f_equal. lia.
    + replace ((48 <=? 97 + (m - 10)) && (97 + (m - 10) <=? 57)) with false by lia. replace ((97 <=? 97 + (m - 10)) && (97 + (m - 10) <=? 102)) with true by lia. f_equal. lia.
    + replace ((48 <=? 65 + (m - 10)) && (65 + (m - 10) <=? 57)) with false by lia. replace ((97 <=? 65 + (m - 10)) && (65 + (m - 10) <=? 102)) with false by lia.
      replace ((65 <=? 65 + (m - 10)) && (65 + (m - 10) <=? 70)) with true by lia. f_equal. lia.
Qed.
Lemma hex_small : forall c n, hex_digit c n -> n < 16.
Proof. intros c n []; lia. Qed.
Lemma hex4_spec : forall a b c d n, hex4 a b c d = Some n <-> unit_spelled [92; 117; a; b; c; d] n.
Proof.
  intros a b c d n. unfold hex4. split.
  - intro H. destruct (hex_val a) as [h |] eqn:A; [| discriminate]. destruct (hex_val b) as [i |] eqn:B; [| discriminate]. destruct (hex_val c) as [j |] eqn:C; [| discriminate]. destruct (hex_val d) as [k |] eqn:D; [| discriminate].
    injection H as <-. apply hex_val_spec in A, B, C, D. replace (h * 4096 + i * 256 + j * 16 + k) with (((h * 16 + i) * 16 + j) * 16 + k) by lia. now constructor.
  - intro H. inversion H as [? ? ? ? h i j k A B C D]; subst. apply hex_val_spec in A, B, C, D. rewrite A, B, C, D. f_equal. lia.
Qed.
Lemma short_spec : forall e c, simple_escape e = Some c <-> In (e, c) [(34, 34); (92, 92); (47, 47); (98, 8); (102, 12); (110, 10); (114, 13); (116, 9)].
Proof.
  intros e c. split.
  - unfold simple_escape. intro H.
    repeat match type of H with (if ?e =? ?k then _ else _) = _ => let E := fresh in destruct (e =? k) eqn:E; [apply N.eqb_eq in E; injection H as <-; subst e; cbn; tauto |] end. discriminate.
  - intro H. cbn [In] in H. repeat (destruct H as [H | H]; [injection H as <- <-; reflexivity |]). destruct H.
Qed.
Lemma unit_inv : forall p n, unit_spelled p n -> exists a b c d, p = [92; 117; a; b; c; d] /\ hex4 a b c d = Some n.
Proof. intros p n H. pose proof H as H'. destruct H as [a b c d h i j k]. exists a, b, c, d. split; [reflexivity | now apply hex4_spec]. Qed.
Lemma read_char : forall p c l, char_spelled p c -> read_str (p ++ l) = put c (read_str l).
Proof.
  intros p c l [c' H1 H2 H3 | e c' H | p' c' H S | p' q hi lo c' H H' P].
  - cbn [app read_str]. replace (c' =? 34) with false by lia. replace (c' <? 32) with false by lia. replace (c' =? 92) with false by lia. reflexivity.
  - assert (E : (e =? 117) = false) by (cbn [In] in H; repeat (destruct H as [H | H]; [injection H as <- <-; reflexivity |]); destruct H).
    apply short_spec in H. cbn [app read_str]. change (92 =? 34) with false. change (92 <? 32) with false. change (92 =? 92) with true. cbn match. rewrite E, H. reflexivity.
  - apply unit_inv in H. destruct H as (a & b & x & d & -> & H). cbn [app read_str]. change (92 =? 34) with false. change (92 <? 32) with false. change (92 =? 92) with true. change (117 =? 117) with true. cbn match.
    rewrite H. unfold surrogate in S. unfold between. replace ((56320 <=? c') && (c' <=? 57343)) with false by lia. replace ((55296 <=? c') && (c' <=? 56319)) with false by lia. reflexivity.
  - apply unit_inv in H, H'. destruct H as (a & b & x & d & -> & H). destruct H' as (a' & b' & x' & d' & -> & H'). destruct P as (R & Eh & El).
    cbn [app read_str]. change (92 =? 34) with false. change (92 <? 32) with false. change (92 =? 92) with true. change (117 =? 117) with true. cbn match. cbn [andb]. rewrite H, H'. unfold between.
    replace ((56320 <=? hi) && (hi <=? 57343)) with false by lia. replace ((55296 <=? hi) && (hi <=? 56319)) with true by lia. replace ((56320 <=? lo) && (lo <=? 57343)) with true by lia.
    f_equal. lia.
Qed.
Lemma read_spelled : forall p s l, string_spelled p s -> read_str (p ++ 34 :: l) = Some (s, l).
Proof.
  intros p s l H. induction H as [| p c ps cs Hc H IH]; [reflexivity |]. rewrite <- app_assoc, (read_char p c _ Hc), IH. reflexivity.
Qed.
Lemma spelled_read : forall n l s r, (length l <= n)%nat -> read_str l = Some (s, r) -> exists p, l = p ++ 34 :: r /\ string_spelled p s.
Proof.
  induction n as [| n IH]; intros l s r L H; [destruct l; [discriminate H | cbn in L; lia] |]. destruct l as [| c l]; [discriminate H |]. cbn [length] in L.
  assert (Pu : forall q ch l', read_str (c :: l) = put ch (read_str l') -> c :: l = q ++ l' -> (length l' <= n)%nat -> char_spelled q ch -> exists p, c :: l = p ++ 34 :: r /\ string_spelled p s).
  { intros q ch l' E El L' Hq. rewrite E in H. destruct (read_str l') as [(s', r') |] eqn:E'; [| discriminate H]. cbn [put] in H. injection H as <- <-. destruct (IH l' s' r' L' E') as (p & -> & Hp).
    exists (q ++ p). split; [rewrite El, <- app_assoc; reflexivity | now constructor]. }
  pose proof H as H0. cbn [read_str] in H0. destruct (c =? 34) eqn:A; [apply N.eqb_eq in A; subst c; injection H0 as <- <-; exists []; split; [reflexivity | constructor] |].
  destruct (c <? 32) eqn:B; [discriminate H0 |]. destruct (c =? 92) eqn:C.
  2: { assert (S : char_spelled [c] c) by (constructor; lia). apply (Pu [c] c l); [exact (read_char [c] c l S) | reflexivity | lia | exact S]. }
  apply N.eqb_eq in C. subst c. destruct l as [| e l]; [discriminate H0 |]. cbn [length] in L. destruct (e =? 117) eqn:E.
  2: { destruct (simple_escape e) as [ch |] eqn:Se; [| discriminate H0]. assert (S : char_spelled [92; e] ch) by (apply cs_short; now apply short_spec).
       apply (Pu [92; e] ch l); [exact (read_char _ _ l S) | reflexivity | lia | exact S]. }
  apply N.eqb_eq in E. subst e. destruct l as [| a [| b [| x [| d l]]]]; try discriminate H0. cbn [length] in L. destruct (hex4 a b x d) as [u |] eqn:U; [| discriminate H0].
  unfold between in H0. destruct ((56320 <=? u) && (u <=? 57343)) eqn:Lo; [discriminate H0 |]. destruct ((55296 <=? u) && (u <=? 56319)) eqn:Hi.
  2: { assert (S : char_spelled [92; 117; a; b; x; d] u) by (apply cs_unit; [now apply hex4_spec | unfold surrogate; lia]).
       apply (Pu [92; 117; a; b; x; d] u l); [exact (read_char _ _ l S) | reflexivity | lia | exact S]. }
  destruct l as [| y [| z [| a' [| b' [| x' [| d' l]]]]]]; try discriminate H0. cbn [length] in L. destruct ((y =? 92) && (z =? 117)) eqn:YZ; [| discriminate H0]. assert (y = 92 /\ z = 117) as (-> & ->) by lia.
  destruct (hex4 a' b' x' d') as [m |] eqn:M; [| discriminate H0]. destruct ((56320 <=? m) && (m <=? 57343)) eqn:Lm; [| discriminate H0].
  assert (S : char_spelled ([92; 117; a; b; x; d] ++ [92; 117; a'; b'; x'; d']) (65536 + (u - 55296) * 1024 + (m - 56320))).
  { apply cs_pair with (hi := u) (lo := m); [now apply hex4_spec | now apply hex4_spec |]. unfold utf16_pair. lia. }
  apply (Pu ([92; 117; a; b; x; d] ++ [92; 117; a'; b'; x'; d']) _ l (read_char _ _ l S)); [reflexivity | lia | exact S].
Qed.
