(* Proofs behind PropLex: identifiers, numbers, dimensions, urls, punctuation. *)
From Coq Require Import ZifyBool ZifyNat ZifyN.
From Verif Require Import Lexer SpecToken SpecLex SpecTrace LexBase TokenProofs KindProofs ScanProofs ScanProofs2 ScanProofs3 NumProofs DimProofs LexProofs LexFacts LexTrace LexKinds LexProps.
Open Scope N_scope.
Open Scope list_scope.
Ltac Zify.zify_post_hook ::= Z.div_mod_to_equations.

(* ---- the grammar relations are functions ---- *)
Lemma app_class_unique : forall (P : N -> Prop) a b a' b', Forall P a -> Forall P a' -> ~ starts P b -> ~ starts P b' ->
  a ++ b = a' ++ b' -> a = a' /\ b = b'.
Proof.
  intros P a. induction a as [| c a IH]; intros b a' b' Fa Fa' Hb Hb' E; destruct a' as [| c' a']; cbn in E.
  - auto.
  - subst b. exfalso. apply Hb. inversion Fa'; subst. exists c', (a' ++ b'). auto.
  - subst b'. exfalso. apply Hb'. inversion Fa; subst. exists c, (a ++ b). auto.
  - inversion E; subst c'. inversion Fa; subst. inversion Fa'; subst. destruct (IH b a' b') as (-> & ->); auto.
Qed.
Lemma run_det : forall P l p r p' r', run P l p r -> run P l p' r' -> p = p' /\ r = r'.
Proof. intros P l p r p' r' (E & F & H) (E' & F' & H'). apply (app_class_unique P); auto. congruence. Qed.
Lemma opt_space_det : forall ws r ws' r', opt_space ws r -> opt_space ws' r' -> ws ++ r = ws' ++ r' -> ws = ws' /\ r = r'.
Proof.
  intros ws r ws' r' H H' E. destruct H as [r H | r | w r H H1], H' as [r' H' | r' | w' r' H' H1']; cbn in E.
  - auto.
  - subst r. exfalso. apply H. exists 13, (10 :: r'). split; [reflexivity | unfold white, newline; auto].
  - subst r. exfalso. apply H. exists w', r'. auto.
  - subst r'. exfalso. apply H'. exists 13, (10 :: r). split; [reflexivity | unfold white, newline; auto].
  - inversion E; auto.
  - inversion E; subst. exfalso. apply H1'. split; [reflexivity |]. exists 10, r. auto.
  - subst r'. exfalso. apply H'. exists w, r. auto.
  - inversion E; subst. exfalso. apply H1. split; [reflexivity |]. exists 10, r'. auto.
  - inversion E; auto.
Qed.
Lemma hex_prefix_unique : forall hs hs' x x', Forall hex hs -> Forall hex hs' -> (length hs <= 6)%nat -> (length hs' <= 6)%nat ->
  length hs = 6%nat \/ ~ starts hex x -> length hs' = 6%nat \/ ~ starts hex x' -> hs ++ x = hs' ++ x' -> hs = hs' /\ x = x'.
Proof.
  intros hs hs' x x' F F' L L' M M' E.
  assert (EL : length hs = length hs').
  { destruct (Nat.lt_trichotomy (length hs) (length hs')) as [C | [C | C]]; [| exact C |].
    - exfalso. destruct M as [M | M]; [lia |]. apply M.
      assert (Q : skipn (length hs) (hs ++ x) = skipn (length hs) (hs' ++ x')) by now rewrite E.
      rewrite skipn_app, skipn_all, Nat.sub_diag in Q. cbn in Q. rewrite skipn_app in Q.
      replace (length hs - length hs')%nat with 0%nat in Q by lia. cbn [skipn] in Q.
      destruct (skipn (length hs) hs') as [| c y] eqn:S.
      { assert (Z : length (skipn (length hs) hs') = 0%nat) by now rewrite S. rewrite skipn_length in Z. lia. }
      exists c, (y ++ x'). split; [exact Q |]. rewrite Forall_forall in F'. apply F'.
      rewrite <- (firstn_skipn (length hs) hs'). apply in_or_app. right. rewrite S. now left.
    - exfalso. destruct M' as [M' | M']; [lia |]. apply M'.
      assert (Q : skipn (length hs') (hs ++ x) = skipn (length hs') (hs' ++ x')) by now rewrite E.
      rewrite (skipn_app _ hs'), skipn_all, Nat.sub_diag in Q. cbn in Q. rewrite skipn_app in Q.
      replace (length hs' - length hs)%nat with 0%nat in Q by lia. cbn [skipn] in Q.
      destruct (skipn (length hs') hs) as [| c y] eqn:S.
      { assert (Z : length (skipn (length hs') hs) = 0%nat) by now rewrite S. rewrite skipn_length in Z. lia. }
      exists c, (y ++ x). split; [now symmetry |]. rewrite Forall_forall in F. apply F.
      rewrite <- (firstn_skipn (length hs') hs). apply in_or_app. right. rewrite S. now left. }
  clear - EL E. revert hs' EL E. induction hs as [| c hs IH]; intros [| c' hs'] EL E; try discriminate; [auto |].
  cbn in E. inversion E; subst. destruct (IH hs') as (-> & ->); auto.
Qed.
Lemma escape_det : forall l e r e' r', escape_at l e r -> escape_at l e' r' -> e = e' /\ r = r'.
Proof.
  intros l e r e' r' H H'. destruct H as [| c r Hh Hn | hs ws r Hl Hf Hm Ho].
  - inversion H' as [| | hs ws r Hl Hf Hm Ho E]; subst; [auto |]. destruct hs; [cbn in Hl; lia | discriminate].
  - inversion H' as [| c0 r0 Hh0 Hn0 E | hs ws r0 Hl Hf Hm Ho E]; subst; [auto |].
    destruct hs as [| c0 hs]; [cbn in Hl; lia |]. cbn in E. inversion E; subst. inversion Hf; subst. contradiction.
  - inversion H' as [E | c r0 Hh Hn E | hs' ws' r0 Hl' Hf' Hm' Ho' E]; subst.
    + destruct hs; [cbn in Hl; lia | discriminate].
    + destruct hs as [| c0 hs]; [cbn in Hl; lia |]. cbn in E. inversion E; subst. inversion Hf; subst. contradiction.
    + destruct (hex_prefix_unique hs hs' (ws ++ r) (ws' ++ r')) as (-> & E2); auto; try lia; try congruence.
      destruct (opt_space_det ws r ws' r') as (-> & ->); auto.
Qed.
Lemma ident_pieces_det : forall l ps r, ident_pieces l ps r -> forall ps' r', ident_pieces l ps' r' -> ps = ps' /\ r = r'.
Proof.
  intros l ps r H. induction H as [l N1 N2 | c l ps r Hc H IH | l e l' ps r He H IH]; intros ps' r' H'.
  - inversion H'; subst; [auto | exfalso; apply N1; eexists; eexists; eauto |].
    exfalso. apply N2. now apply escape_at_starts in H.
  - inversion H'; subst.
    + exfalso. apply H0. exists c, l. auto.
    + destruct (IH ps0 r') as (-> & ->); auto.
    + exfalso. apply escape_at_starts in H0. apply starts_escape_92 in H0. subst. now apply not_ident_92 in Hc.
  - inversion H'; subst.
    + exfalso. apply H1. now apply escape_at_starts in He.
    + exfalso. apply escape_at_starts in He. apply starts_escape_92 in He. subst. now apply not_ident_92 in H0.
    + destruct (escape_det _ _ _ _ _ He H0) as (-> & ->). destruct (IH ps0 r') as (-> & ->); auto.
Qed.
Lemma longest_det : forall l p r p' r', longest_number l p r -> longest_number l p' r' -> p = p' /\ r = r'.
Proof.
  intros l p r p' r' (E & C & M) (E' & C' & M'). pose proof (M _ _ E' C'). pose proof (M' _ _ E C).
  assert (L : length p = length p') by lia. rewrite E in E'. clear - E' L. revert p' L E'.
  induction p as [| c p IH]; intros [| c' p'] L E; try discriminate; [auto |]. cbn in E. inversion E; subst.
  destruct (IH p') as (-> & ->); auto.
Qed.
Lemma one_newline_det : forall l n r n' r', one_newline l n r -> one_newline l n' r' -> n = n' /\ r = r'.
Proof.
  intros l n r n' r' H H'. destruct H as [r | c r Hc Hn]; inversion H' as [r0 E | c0 r0 Hc0 Hn0 E]; subst; auto.
  - exfalso. apply Hn0. split; [reflexivity | exists 10, r; auto].
  - exfalso. apply Hn. split; [reflexivity | exists 10, r'; auto].
Qed.
Lemma one_newline_starts : forall l n r, one_newline l n r -> starts newline l /\ l = n ++ r.
Proof. intros l n r H. destruct H; split; try reflexivity; [exists 13, (10 :: r) | exists c, r]; split; auto. unfold newline; auto. Qed.
Lemma string_body_det : forall q l p e r, quote q -> string_body q l p e r -> forall p' e' r', string_body q l p' e' r' -> p = p' /\ e = e' /\ r = r'.
Proof.
  intros q l p e r Hq H. assert (Q : q = 34 \/ q = 39) by exact Hq.
  assert (NE : forall x y z, escape_at x y z -> exists w, x = 92 :: w /\ ~ starts newline w).
  { intros x y z X. pose proof (escape_at_starts _ _ _ X) as S. destruct S as [-> | (c & w & -> & Hc)].
    - exists []. split; [reflexivity | apply starts_nil].
    - exists (c :: w). split; [reflexivity |]. now rewrite starts_cons. }
  assert (NN : forall x y z, one_newline x y z -> starts newline x) by (intros x y z X; now apply one_newline_starts in X).
  induction H as [r | | c r Hn | c l p e r Hc1 Hc2 Hc3 H IH | l n l' p e r Hn H IH | l x l' p e r Hx H IH]; intros p' e' r' H';
  inversion H' as [r0 E | E | c0 r0 Hn0 E | c0 l0 p0 e0 r0 Hd1 Hd2 Hd3 H0 E | l0 n0 l0' p0 e0 r0 Hn0 H0 E | l0 x0 l0' p0 e0 r0 Hx0 H0 E]; subst; auto;
    try (exfalso; unfold newline in *; lia);
    try (exfalso; apply NE in Hx0; destruct Hx0 as (w & Ew & Sw); inversion Ew; subst; unfold newline in *; lia);
    try (exfalso; apply NE in Hx; destruct Hx as (w & Ew & Sw); inversion Ew; subst; unfold newline in *; lia);
    try (exfalso; apply NE in Hx; destruct Hx as (w & Ew & Sw); discriminate).
  - destruct (IH _ _ _ H0) as (-> & -> & ->); auto.
  - destruct (one_newline_det _ _ _ _ _ Hn Hn0) as (-> & ->). destruct (IH _ _ _ H0) as (-> & -> & ->); auto.
  - exfalso. apply NE in Hx0. destruct Hx0 as (w & Ew & Sw). inversion Ew; subst. apply NN in Hn. tauto.
  - exfalso. apply NE in Hx. destruct Hx as (w & Ew & Sw). inversion Ew; subst. apply NN in Hn0. tauto.
  - destruct (escape_det _ _ _ _ _ Hx Hx0) as (-> & ->). destruct (IH _ _ _ H0) as (-> & -> & ->); auto.
Qed.
