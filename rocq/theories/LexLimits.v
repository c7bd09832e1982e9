(* Proofs behind PropLex: exhaustion within the number of bytes, and the size limit that is one too large. *)
From Coq Require Import ZifyBool ZifyNat ZifyN.
From Verif Require Import Lexer SpecToken SpecLex SpecTrace LexBase TokenProofs KindProofs ScanProofs ScanProofs2 ScanProofs3 NumProofs DimProofs LexProofs LexFacts LexTrace LexKinds LexProps LexProps2 LexProps3.
Open Scope N_scope.
Open Scope list_scope.
Ltac Zify.zify_post_hook ::= Z.div_mod_to_equations.

Lemma exhausts : forall n pre l f x, (length l <= n)%nat -> at_point pre l f x -> well_behaved (single_line_comments f) l ->
  exists ts y, advances x ts y /\ loff y = blen (lsrc x) /\ N.of_nat (length ts) <= blen l.
Proof.
  induction n as [| n IH]; intros pre l f x Hn P WB.
  - destruct l; [| cbn in Hn; lia]. exists [], x. split; [apply av_nil |]. split; [now apply at_end in P | cbn; lia].
  - destruct l as [| c l]; [exists [], x; split; [apply av_nil |]; split; [now apply at_end in P | cbn; lia] |].
    destruct (advance_step pre (c :: l) f x P WB ltac:(discriminate)) as (p & r & t & E & Hp & A & P' & L & _ & _).
    destruct p as [| c' p]; [congruence |]. inversion E; subst c' l.
    destruct (IH (pre ++ c :: p) r f (Lexer (lsrc x) (loff x + tlen t) t f)) as (ts & y & AV & Ey & Lt).
    + cbn [length] in Hn. rewrite app_length in Hn. lia.
    + exact P'.
    + change (c :: p ++ r) with ((c :: p) ++ r) in WB. now apply well_behaved_suffix in WB.
    + exists (t :: ts), y. split; [eapply av_cons; eauto |]. split; [exact Ey |]. change (c :: p ++ r) with ((c :: p) ++ r). rewrite blen_app. cbn [length]. pose proof (blen_pos (c :: p) ltac:(discriminate)). lia.
Qed.
Lemma reached_exhausts : forall src f x, well_behaved (single_line_comments f) src -> reached src f x ->
  exists ts y, advances x ts y /\ loff y = blen src /\ N.of_nat (length ts) <= blen src - loff x.
Proof.
  intros src f x WB R. destruct (reached_point src f x WB R) as (pre & l & -> & P).
  destruct (exhausts (length l) pre l f x (Nat.le_refl _) P) as (ts & y & A & E & L); [now apply well_behaved_suffix in WB |].
  exists ts, y. split; [exact A |]. destruct P as (E1 & E2 & _). rewrite E, E1, E2, blen_app. split; [reflexivity | lia].
Qed.

Lemma number_len_wrap : forall fl s v, tlen (new_number fl s 16777216 v) = 0 /\ tkind (new_number fl s 16777216 v) = K_Number.
Proof. intros [|] [|] v; vm_compute; auto. Qed.
Lemma blen_ones : forall n, blen (repeat 49 n) = N.of_nat n.
Proof. intro n. rewrite blen_ascii; [now rewrite repeat_length |]. apply Forall_forall. intros c I. apply repeat_spec in I. lia. Qed.
Lemma limit_wraps : forall n, N.of_nat n = 16777216 -> forall f,
  exists t, lexer_advance (lexer_new (repeat 49 n) f) = Some (t, Lexer (repeat 49 n) 0 t f) /\ tkind t = K_Number /\ tlen t = 0.
Proof.
  intros n Hn f. set (l := repeat 49 n).
  assert (D : digits l) by (apply Forall_forall; intros c I; apply repeat_spec in I; unfold digit; lia).
  assert (Hl : l <> []) by (destruct n; [lia | discriminate]).
  assert (W : would_start_number l). { exists []. split; [left; reflexivity |]. exists l. split; [reflexivity |]. left. destruct l as [| c r]; [congruence |]. exists c, r. split; [reflexivity | now inversion D]. }
  assert (CN : css_number l). { exists [], l, []. rewrite app_nil_r. split; [reflexivity |]. split; [left; reflexivity |]. split; [left; split; auto | left; reflexivity]. }
  assert (NL : forall p r, longest_number l p r -> p = l /\ r = []).
  { intros p r (E & _ & M). specialize (M l [] (eq_sym (app_nil_r l)) CN). rewrite E, app_length in M. destruct r as [| c r]; [now rewrite app_nil_r in E |]. cbn [length] in M. lia. }
  destruct (scan_number f l W) as (t & r & E & V).
  { destruct (is_ident_start_sequence (peek_nth l 0) (peek_nth l 1) (peek_nth l 2)) eqn:Q; [| reflexivity].
    exfalso. apply start_sequence_sound in Q. now apply number_not_ident in W. }
  assert (K : tkind t = K_Number /\ tlen t = 0).
  { destruct V as [p r fl v Hp _ _ _ _ | p r fl v Hp _ _ | p r1 fl v u k ps r Hp _ _ Hi _ _ _ _].
    - destruct (NL _ _ Hp) as (-> & _). unfold l. rewrite blen_ones, Hn. destruct (number_len_wrap fl (is_sign (peek_nth (repeat 49 n) 0)) v). auto.
    - destruct (NL _ _ Hp) as (_ & Q). discriminate.
    - destruct (NL _ _ Hp) as (_ & ->). discriminate. }
  exists t. split; [| tauto]. unfold lexer_advance, lexer_new. cbn [lsrc lfeat loff]. replace 0 with (blen (@nil N)) by reflexivity.
  change l with ([] ++ l) at 1. rewrite read_at. destruct l as [| c l']; [congruence |]. rewrite E. destruct K as (_ & ->). reflexivity.
Qed.
Lemma limit_source : exists src, digits src /\ blen src = 16777216 /\ forall f,
  exists t, lexer_advance (lexer_new src f) = Some (t, Lexer src 0 t f) /\ tkind t = K_Number /\ tlen t = 0.
Proof.
  exists (repeat 49 (N.to_nat 16777216)). split; [apply Forall_forall; intros c I; apply repeat_spec in I; unfold digit; lia |].
  split; [rewrite blen_ones; apply N2Nat.id |]. apply limit_wraps. apply N2Nat.id.
Qed.
Lemma lex_tiles_at : forall src f, well_behaved (single_line_comments f) src ->
  exists cs, lex src f = Some cs /\ tiles 0 src cs /\ N.of_nat (length cs) <= blen src /\
    forall o t, In (Cursor o t) cs -> exists a b, src = a ++ b /\ o = blen a /\ b <> [] /\ token_at f a b t.
Proof.
  intros src f WB. destruct (lex_tiles src f WB) as (cs & E & T & L & H). exists cs. split; [exact E |]. split; [exact T |]. split; [exact L |].
  intros o t I. destruct (H o t I) as (a & b & E1 & E2 & Hb & S). exists a, b. split; [exact E1 |]. split; [exact E2 |]. split; [exact Hb |]. now apply token_at_scan.
Qed.
Lemma lex_slices : forall src f, well_behaved (single_line_comments f) src -> exists cs texts, lex src f = Some cs /\
  Forall2 (fun c t => slice src (coff c) (coff c + tlen (ctok c)) = Some t) cs texts /\ concat texts = src.
Proof.
  intros src f WB. destruct (lex_tiles src f WB) as (cs & E & T & _). destruct (tiles_slices 0 src cs T [] [] eq_refl) as (texts & A & B).
  exists cs, texts. cbn [app] in A. rewrite app_nil_r in A. auto.
Qed.
Lemma reached_boundary : forall src f x, well_behaved (single_line_comments f) src -> reached src f x ->
  lsrc x = src /\ lfeat x = f /\ exists pre l, src = pre ++ l /\ loff x = blen pre.
Proof.
  intros src f x WB R. destruct (reached_point src f x WB R) as (pre & l & E & (A & B & C)). repeat split; auto; [congruence |]. eauto.
Qed.
Lemma replay : forall x ts y, advances x ts y -> forall ts' z, length ts' = length ts ->
  advances (lexer_rewind y (lexer_checkpoint x)) ts' z -> ts' = ts /\ z = y.
Proof. intros x ts y A ts' z L B. rewrite (rewind_restores x ts y A) in B. eapply advances_det; eauto. Qed.
