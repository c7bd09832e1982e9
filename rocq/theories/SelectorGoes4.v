(* Selectors are read: attributes. *)
From Coq Require Import ZifyBool ZifyNat ZifyN.
From Coq Require Import String.
From Coq Require Import List.
From Verif Require Import Selectors SpecLex SpecTrace SpecParser SpecSyntax SpecTraits SpecFeatures SpecSelectors SpecSelectorText SpecCursor SpecToken LexBase TokenProofs KindProofs LexFacts LexTrace CursorProofs
  ParserProofs ParserProofs2 ParserProofs3 ParserProofs4 CompareProofs SyntaxProofs SyntaxTotal TraitsTotal RulesTotal FeatureProofs FeatureProofs2 FeatureProofs3 FeatureProofs4 FeatureProofs5 FeatureProofs6 SelectorProofs SelectorProofs2 SelectorProofs3 SelectorProofs4 SelectorProofs5 SelectorProofs6 SelectorProofs7 SelectorProofs8 SelectorProofs9 SelectorGoes SelectorGoes2 SelectorGoes3.
Open Scope N_scope.
Open Scope list_scope.

Definition sign_chars : list N := [58; 59; 44; 91; 93; 40; 41; 123; 125].
Lemma sign_char : forall p cs c ch, ready p -> ahead (plex p) cs -> In c cs -> kind_of c <> K_Delim -> ~ In ch sign_chars -> tok_is_char (ctok c) ch = false.
Proof.
  intros p cs c ch (_ & R) A I K N. destruct (R cs c A I) as (_ & _ & _ & [H | [H | (x & Ix & H)]]); [contradiction | |]; destruct (tok_is_char (ctok c) ch) eqn:B; try reflexivity; apply tok_is_char_spec in B; [congruence |].
  exfalso. apply N. rewrite H in B. injection B as <-. exact Ix.
Qed.
Lemma in_here : forall (g : list cursor) c rest, In c (g ++ c :: rest).
Proof. intros. apply in_or_app. right. now left. Qed.
Lemma peek1_at : forall p g c rest, ready p -> ahead (plex p) (g ++ c :: rest) -> gap g -> solid c -> peek_n p 1 = Some c.
Proof. intros p g c rest R A G Hc. rewrite (peek_n_spec p _ 1 A) by lia. rewrite (kept_skipped _ _ _ (gap_kinds p g R G)), kept_cons by exact (solid_kinds p c R Hc). reflexivity. Qed.
Lemma double_here : forall a b p g c rest, ready p -> ahead (plex p) (g ++ c :: rest) -> gap g -> solid c -> peek_double a b p c = Some (tok_is_char (ctok c) a && tok_is_char (ctok (after p rest)) b).
Proof. intros a b p g c rest R A G Hc. rewrite <- (peek_at (peek_double a b) p g c rest R A G Hc). exact (peek_double_at a b p g c rest R A G Hc). Qed.
Lemma two_here : forall a x y p g c d rest, ready p -> ahead (plex p) (g ++ c :: d :: rest) -> gap g -> is_delim x c -> is_delim y d -> peek_double a y p c = Some (a =? x).
Proof.
  intros a x y p g c d rest R A G Dx Dy. rewrite (double_here a y p g c (d :: rest) R A G (delim_solid _ _ Dx)), (char_of a c x Dx). change (d :: rest) with ([] ++ d :: rest). rewrite (after_cons p [] d rest gap_nil (delim_solid _ _ Dy)).
  rewrite (char_of y d y Dy), N.eqb_refl, Bool.andb_true_r. reflexivity.
Qed.
Lemma delim_here : forall ch ch' p c, is_delim ch' c -> peek_delim ch p c = Some (ch =? ch').
Proof. intros ch ch' p c D. unfold peek_delim. rewrite (tok_kind K_Delim c (proj1 D) ltac:(discriminate)), (char_of ch c ch' D). reflexivity. Qed.
Definition op_head (o : attr_operator) : cursor := match o with AExact c | ASpaceList c _ | ALangPrefix c _ | APrefix c _ | ASuffix c _ | AContains c _ => c end.
Lemma op_solid : forall o, operator_phrase o -> solid (op_head o).
Proof. intros [c | a b | a b | a b | a b | a b] H; cbn [operator_phrase op_head] in *; [exact (delim_solid _ _ H) | ..]; destruct H as (H & _); exact (delim_solid _ _ H). Qed.
Lemma op_cursors : forall o, operator_phrase o -> exists r, operator_cursors o = op_head o :: r.
Proof. intros [c | a b | a b | a b | a b | a b] _; cbn; eauto. Qed.
Lemma operator_goes : forall p g o rest, ready p -> ahead (plex p) (g ++ operator_cursors o ++ rest) -> gap g -> operator_phrase o ->
  goes (parse_if_peek peek_operator parse_operator) p (Some o) rest.
Proof.
  intros p g o rest R A G Po. pose proof (op_solid o Po) as So.
  assert (Hp : peek_n p 1 = Some (op_head o)) by (destruct (op_cursors o Po) as (r & Er); rewrite Er in A; exact (peek1_at p g _ _ R A G So)).
  assert (Hk : forall k, peek k p = k p (op_head o)) by (intro k; destruct (op_cursors o Po) as (r & Er); rewrite Er in A; exact (peek_at k p g _ _ R A G So)).
  destruct o as [c | a b | a b | a b | a b | a b]; cbn [operator_cursors operator_phrase app op_head] in *.
  1: { apply goes_if; [rewrite Hk; unfold peek_operator, any_peek; now rewrite (delim_here 61 61 p c Po) |]. unfold goes, parse_operator. rewrite Hp, (delim_here 61 61 p c Po). cbn [N.eqb Pos.eqb].
    change (goes (pmap AExact (parse_delim 61)) p (AExact c) rest). apply goes_map. exact (delim_goes 61 p g c rest R A G Po). }
  all: destruct Po as (Da & Db & _).
  all: apply goes_if; [rewrite Hk; unfold peek_operator, any_peek; rewrite !(two_here _ _ 61 p g a b rest R A G Da Db), (delim_here 61 _ p a Da); reflexivity |].
  all: unfold goes, parse_operator; rewrite Hp, !(two_here _ _ 61 p g a b rest R A G Da Db), (delim_here 61 _ p a Da); cbn [N.eqb Pos.eqb].
  - exact (goes_map _ _ (fun x => ASpaceList (fst x) (snd x)) _ p (a, b) rest (double_goes 126 61 p g a b rest R A G Da Db)).
  - exact (goes_map _ _ (fun x => ALangPrefix (fst x) (snd x)) _ p (a, b) rest (double_goes 124 61 p g a b rest R A G Da Db)).
  - exact (goes_map _ _ (fun x => APrefix (fst x) (snd x)) _ p (a, b) rest (double_goes 94 61 p g a b rest R A G Da Db)).
  - exact (goes_map _ _ (fun x => ASuffix (fst x) (snd x)) _ p (a, b) rest (double_goes 36 61 p g a b rest R A G Da Db)).
  - exact (goes_map _ _ (fun x => AContains (fst x) (snd x)) _ p (a, b) rest (double_goes 42 61 p g a b rest R A G Da Db)).
Qed.
Lemma solid_square : solid_kind K_RightSquare.
Proof. repeat split; discriminate. Qed.
Lemma no_operator : forall p g c rest, ready p -> ahead (plex p) (g ++ c :: rest) -> gap g -> kind_of c = K_RightSquare -> peek peek_operator p = Some false.
Proof.
  intros p g c rest R A G K. pose proof (solid_of c _ K solid_square) as Sc. rewrite (peek_at _ p g c rest R A G Sc). unfold peek_operator, any_peek.
  assert (D : peek_delim 61 p c = Some false) by (unfold peek_delim; rewrite (tok_not K_Delim c) by congruence; reflexivity). rewrite D, !(double_here _ 61 p g c rest R A G Sc).
  assert (H : forall ch, ~ In ch sign_chars -> tok_is_char (ctok c) ch = false) by (intros ch N; apply (sign_char p _ c ch R A (in_here g c rest)); [congruence | exact N]).
  rewrite !H by (cbn; intuition discriminate). reflexivity.
Qed.
Definition value_kind (v : cursor) : Prop := kind_of v = K_Ident \/ kind_of v = K_String.
Lemma value_solid : forall v, value_kind v -> solid v.
Proof. intros v [K | K] [H | H]; congruence. Qed.
Lemma attr_value_goes : forall p g v rest, ready p -> ahead (plex p) (g ++ v :: rest) -> gap g -> value_kind v -> goes parse_attr_value p v rest.
Proof.
  intros p g v rest R A G Kv. apply (single_goes _ _ (fun c => c) p g v rest R A G (value_solid v Kv)). unfold any_peek, peek_kind. destruct Kv as [K | K].
  - now rewrite (tok_kind K_Ident v K ltac:(discriminate)).
  - rewrite (tok_kind K_String v K ltac:(discriminate)). now destruct (tok_is (ctok v) K_Ident).
Qed.
Lemma modifier_char : forall ch l, existsb (text_eqb [ch]) (map (fun x => [x]) l) = existsb (N.eqb ch) l.
Proof.
  intros ch l. induction l as [| x l IH]; [reflexivity |]. cbn [map existsb]. rewrite IH. f_equal. unfold text_eqb. destruct (list_eq_dec N.eq_dec [ch] [x]) as [E | E]; symmetry.
  - injection E as ->. apply N.eqb_refl.
  - apply N.eqb_neq. congruence.
Qed.
Lemma modifier_goes : forall p g m rest, ready p -> ahead (plex p) (g ++ modifier_cursor m :: rest) -> gap g ->
  match m with
  | MInsensitive c => kind_of c = K_Ident /\ exists ch, parse_str c (lsrc (plex p)) = Some [ch] /\ (ch = 105 \/ ch = 73)
  | MSensitive c => kind_of c = K_Ident /\ exists ch, parse_str c (lsrc (plex p)) = Some [ch] /\ (ch = 115 \/ ch = 83)
  end -> goes (parse_if_peek peek_modifier (parse_built peek_modifier build_modifier)) p (Some m) rest.
Proof.
  intros p g m rest R A G Pm. assert (K : kind_of (modifier_cursor m) = K_Ident) by (destruct m; apply Pm). pose proof (solid_of _ _ K solid_ident) as Sm.
  assert (T : peek_modifier p (modifier_cursor m) = Some true).
  { unfold peek_modifier. rewrite (tok_kind K_Ident _ K ltac:(discriminate)). destruct m as [c | c]; cbn [modifier_cursor]; destruct Pm as (_ & ch & -> & [-> | ->]); reflexivity. }
  apply goes_if; [now rewrite (peek_at _ p g _ rest R A G Sm) |].
  destruct (built_at _ peek_modifier build_modifier p g (modifier_cursor m) rest m A (gap_kinds p g R G) (solid_kinds p _ R Sm) T) as (q & E & A' & S').
  - intros q Sq. unfold build_modifier. rewrite Sq. destruct m as [c | c]; cbn [modifier_cursor]; destruct Pm as (_ & ch & -> & [-> | ->]); reflexivity.
  - exists q. split; [exact E |]. split; [exact A' |]. split; [exact S' |]. apply (ready_moved 0 p q R). apply (moved_of p q (g ++ [modifier_cursor m]) rest); auto. rewrite <- app_assoc. exact A.
Qed.
Lemma no_modifier : forall p g c rest, ready p -> ahead (plex p) (g ++ c :: rest) -> gap g -> kind_of c = K_RightSquare -> peek peek_modifier p = Some false.
Proof. intros p g c rest R A G K. rewrite (peek_at _ p g c rest R A G (solid_of c _ K solid_square)). unfold peek_modifier. now rewrite (tok_not K_Ident c) by congruence. Qed.
(* from the operator on *)
Definition attr_tail (a : attribute_t) (g2 g3 g4 g5 : list cursor) (close : cursor) : list cursor :=
  (match aoperator a, avalue a with Some o, Some v => g2 ++ operator_cursors o ++ g3 ++ [v] | _, _ => [] end) ++
  (match amodifier a with Some m => g4 ++ [modifier_cursor m] | None => [] end) ++ g5 ++ [close].
Lemma attribute_rest_goes : forall a p g2 g3 g4 g5 close rest, ready p -> ahead (plex p) (attr_tail a g2 g3 g4 g5 close ++ rest) -> gap g2 -> gap g3 -> gap g4 -> gap g5 -> attribute_phrase (lsrc (plex p)) a ->
  aclose a = Some close -> goes (parse_attribute_rest (aopen a) (aprefix a) (aname a)) p a rest.
Proof.
  intros [open prefix name op value modifier cl] p g2 g3 g4 g5 close rest R A G2 G3 G4 G5 (_ & _ & _ & Po & Pm & Pc) Ec. unfold attr_tail in A. cbn [aopen aprefix aname aoperator avalue amodifier aclose] in *. subst cl. cbn [opt_kind] in Pc.
  unfold parse_attribute_rest. pose proof (solid_of close _ Pc solid_square) as Sc.
  destruct op as [o |], value as [v |]; try contradiction.
  - destruct Po as (Po & Kv). rewrite <- !app_assoc in A. cbn [app] in A.
    eapply goes_bind; [exact (operator_goes p g2 o _ R A G2 Po) |]. intros q1 _ A1 S1 R1. cbv beta.
    eapply goes_bind; [apply goes_map; exact (attr_value_goes q1 g3 v _ R1 A1 G3 Kv) |]. intros q2 _ A2 S2 R2. cbv beta.
    assert (Src : lsrc (plex q2) = lsrc (plex p)) by (rewrite (ahead_src _ _ S2), (ahead_src _ _ S1); reflexivity).
    destruct modifier as [m |].
    + rewrite <- app_assoc in A2. cbn [app] in A2. eapply goes_bind; [apply (modifier_goes q2 g4 m _ R2 A2 G4); rewrite Src; destruct m; exact Pm |]. intros q3 _ A3 _ R3. cbv beta.
      eapply goes_bind; [exact (if_kind_goes K_RightSquare q3 g5 close rest R3 A3 G5 Pc solid_square) |]. intros q4 _ A4 _ R4. now apply goes_ret.
    + cbn [app] in A2. eapply goes_bind; [exact (goes_if_not _ _ _ q2 _ (no_modifier q2 g5 close rest R2 A2 G5 Pc) R2 A2) |]. intros q3 _ A3 _ R3. cbv beta.
      eapply goes_bind; [exact (if_kind_goes K_RightSquare q3 g5 close rest R3 A3 G5 Pc solid_square) |]. intros q4 _ A4 _ R4. now apply goes_ret.
  - subst modifier. cbn [app] in A. rewrite <- app_assoc in A. cbn [app] in A.
    eapply goes_bind; [exact (goes_if_not _ _ _ p _ (no_operator p g5 close rest R A G5 Pc) R A) |]. intros q1 _ A1 S1 R1. cbv beta.
    eapply goes_bind; [exact (goes_ret _ None q1 _ R1 A1) |]. intros q2 _ A2 _ R2. cbv beta.
    eapply goes_bind; [exact (goes_ret _ None q2 _ R2 A2) |]. intros q3 _ A3 _ R3. cbv beta.
    eapply goes_bind; [exact (if_kind_goes K_RightSquare q3 g5 close rest R3 A3 G5 Pc solid_square) |]. intros q4 _ A4 _ R4. now apply goes_ret.
Qed.
(* after a name: a '|' that is not "|=" makes it a prefix *)
Lemma raw_double : forall a b p c rest, ahead (plex p) (c :: rest) -> pskip p = KS_NONE -> exists d, peek (peek_double a b) p = Some (tok_is_char (ctok c) a && tok_is_char (ctok d) b) /\ d = nth 0 rest (eof_cursor p).
Proof.
  intros a b p c rest A Sk. exists (nth 0 rest (eof_cursor p)). split; [| reflexivity]. rewrite (raw_peek _ p c rest A Sk). unfold peek_double. destruct (tok_is_char (ctok c) a); [| reflexivity]. cbn [andb].
  rewrite (peek_n_spec p _ 2 A) by lia. rewrite Sk. rewrite kept_cons by apply not_none. assert (K : forall l, kept KS_NONE l = l). { intro l. induction l as [| x l IH]; [reflexivity |]. rewrite kept_cons by apply not_none. now rewrite IH. }
  rewrite K. reflexivity.
Qed.
Lemma gap_raw_char : forall g ch p cs c, ready p -> ahead (plex p) cs -> In c cs -> gap g -> In c g -> ~ In ch sign_chars -> tok_is_char (ctok c) ch = false.
Proof. intros g ch p cs c R A I G Ig N. apply (sign_char p cs c ch R A I); [| exact N]. unfold gap in G. rewrite Forall_forall in G. destruct (G c Ig) as [K | K]; congruence. Qed.
Lemma solid_left_square : solid_kind K_LeftSquare.
Proof. repeat split; discriminate. Qed.
Lemma attribute_goes : forall a p toks rest, ready p -> ahead (plex p) (toks ++ rest) -> attribute_laid (lsrc (plex p)) a toks -> goes parse_attribute p a rest.
Proof.
  intros a p toks rest R A (Pa & Np & g1 & g2 & g3 & g4 & g5 & close & G1 & G2 & G3 & G4 & G5 & Ec & ->). fold (attr_tail a g2 g3 g4 g5 close) in A.
  pose proof Pa as (Ko & Pp & Kn & Po & Pm & Pc). rewrite Ec in Pc. cbn [opt_kind] in Pc. cbn [app] in A. rewrite <- !app_assoc in A. cbn [app] in A.
  unfold parse_attribute. eapply goes_bind; [exact (kind_goes K_LeftSquare p [] (aopen a) _ R A gap_nil Ko solid_left_square) |]. intros q1 _ A1 S1 R1. cbv beta.
  destruct (aprefix a) as [[pipe | i pipe | s pipe] |] eqn:Ep; [elim (Np pipe eq_refl) | | |]; cbn [prefix_cursors app] in A1.
  - (* name| *)
    destruct Pp as (Ki & Dp & _). pose proof (solid_of i _ Ki solid_ident) as Si.
    eapply goes_bind. { apply (goes_if_not _ _ _ q1 _); [| exact R1 | exact A1]. rewrite (peek_double_at 42 124 q1 g1 i _ R1 A1 G1 Si), (ident_is_char 42 i Ki). reflexivity. }
    intros q2 _ A2 S2 R2. cbv beta. eapply goes_bind; [exact (kind_goes K_Ident q2 g1 i _ R2 A2 G1 Ki solid_ident) |]. intros q3 _ A3 S3 R3. cbv beta.
    unfold goes. rewrite (raw_peek (peek_delim 124) (set_skip q3 KS_NONE) pipe _ A3 eq_refl), (is_delim_peek 124 _ pipe Dp).
    destruct (raw_double 124 61 (set_skip q3 KS_NONE) pipe _ A3 eq_refl) as (d & -> & Ed). cbn [nth] in Ed. subst d. rewrite (ident_is_char 61 _ Kn), Bool.andb_false_r.
    destruct (raw_delim_goes 124 (set_skip q3 KS_NONE) pipe _ A3 eq_refl Dp) as (q4 & E4 & A4 & S4). rewrite E4. assert (Sk4 : pskip q4 = KS_NONE) by apply S4.
    destruct (raw_kind_goes K_Ident q4 (aname a) _ A4 Sk4 Kn ltac:(discriminate)) as (q5 & E5 & A5 & S5). rewrite E5.
    destruct (back q3 q5 [pipe; aname a] _ R3 A3 A5 (mode_trans _ _ _ S4 S5)) as (Sb & Rb).
    assert (Gx : goes (parse_attribute_rest (aopen a) (Some (PName i pipe)) (aname a)) (set_skip q5 (pskip q3)) a rest).
    { rewrite <- Ep. apply (attribute_rest_goes a _ g2 g3 g4 g5 close rest Rb A5 G2 G3 G4 G5); [| exact Ec]. rewrite (ahead_src _ _ Sb), (ahead_src _ _ S3), (ahead_src _ _ S2), (ahead_src _ _ S1). exact Pa. }
    destruct Gx as (r & E' & A' & S' & R'). exists r. split; [exact E' |]. split; [exact A' |]. split; [exact (mode_trans _ _ _ Sb S') | exact R'].
  - (* *| *)
    destruct Pp as (Ds & Dp & _). eapply goes_bind.
    { apply goes_if; [| exact (prefix_goes q1 g1 s pipe _ R1 A1 G1 Ds Dp)]. rewrite (peek_double_at 42 124 q1 g1 s _ R1 A1 G1 (delim_solid _ _ Ds)), (char_of 42 s 42 Ds). change (pipe :: aname a :: attr_tail a g2 g3 g4 g5 close ++ rest) with ([] ++ pipe :: aname a :: attr_tail a g2 g3 g4 g5 close ++ rest).
      rewrite (after_cons q1 [] pipe _ gap_nil (delim_solid _ _ Dp)), (char_of 124 pipe 124 Dp). reflexivity. }
    intros q2 _ A2 S2 R2. cbv beta. eapply goes_bind; [exact (kind_goes K_Ident q2 [] (aname a) _ R2 A2 gap_nil Kn solid_ident) |]. intros q3 _ A3 S3 R3. cbv beta zeta.
    rewrite <- Ep. apply (attribute_rest_goes a _ g2 g3 g4 g5 close rest R3 A3 G2 G3 G4 G5); [| exact Ec]. rewrite (ahead_src _ _ S3), (ahead_src _ _ S2), (ahead_src _ _ S1). exact Pa.
  - pose proof (solid_of (aname a) _ Kn solid_ident) as Sn.
    eapply goes_bind. { apply (goes_if_not _ _ _ q1 _); [| exact R1 | exact A1]. rewrite (peek_double_at 42 124 q1 g1 (aname a) _ R1 A1 G1 Sn), (ident_is_char 42 _ Kn). reflexivity. }
    intros q2 _ A2 S2 R2. cbv beta. eapply goes_bind; [exact (kind_goes K_Ident q2 g1 (aname a) _ R2 A2 G1 Kn solid_ident) |]. intros q3 _ A3 S3 R3. cbv beta.
    assert (Src : lsrc (plex q3) = lsrc (plex p)) by (rewrite (ahead_src _ _ S3), (ahead_src _ _ S2), (ahead_src _ _ S1); reflexivity).
    assert (Gx : goes (parse_attribute_rest (aopen a) None (aname a)) q3 a rest).
    { rewrite <- Ep. apply (attribute_rest_goes a _ g2 g3 g4 g5 close rest R3 A3 G2 G3 G4 G5); [rewrite Src; exact Pa | exact Ec]. }
    assert (Hc : exists b, peek (peek_delim 124) (set_skip q3 KS_NONE) = Some b /\ (b = true -> peek (peek_double 124 61) (set_skip q3 KS_NONE) = Some true)).
    { assert (Hf : forall c r, attr_tail a g2 g3 g4 g5 close ++ rest = c :: r -> tok_is_char (ctok c) 124 = false \/ exists d r', r = d :: r' /\ is_delim 124 c /\ is_delim 61 d).
      { intros c r El. assert (Ic : In c (attr_tail a g2 g3 g4 g5 close ++ rest)) by (rewrite El; now left).
        assert (Hg : forall g l, gap g -> g ++ l = c :: r -> (exists g', g = c :: g') \/ l = c :: r) by (intros [| x g] l _ E; cbn [app] in E; [now right | left; injection E as -> _; eauto]).
        assert (Hn : forall g', gap (c :: g') -> tok_is_char (ctok c) 124 = false).
        { intros g' G. apply (gap_raw_char (c :: g') 124 q3 _ c R3 A3 Ic G); [now left |]. cbn. intuition discriminate. }
        unfold attr_tail in El. destruct (aoperator a) as [o |], (avalue a) as [v |]; try contradiction.
        - destruct Po as (Po & _). rewrite <- !app_assoc in El. destruct (Hg g2 _ G2 El) as [(g' & ->) | El2]; [left; exact (Hn g' G2) |].
          destruct o as [x | x y | x y | x y | x y | x y]; cbn [operator_cursors operator_phrase app] in *; injection El2 as <- <-; try destruct Po as (Dx & Dy & _);
            [left; exact (char_of 124 x _ Po) | left; exact (char_of 124 x _ Dx) | right; eauto | left; exact (char_of 124 x _ Dx) | left; exact (char_of 124 x _ Dx) | left; exact (char_of 124 x _ Dx)].
        - rewrite Po in El. cbn [app] in El. rewrite <- app_assoc in El. destruct (Hg g5 _ G5 El) as [(g' & ->) | El2]; [left; exact (Hn g' G5) |]. cbn [app] in El2. injection El2 as <- <-.
          left. apply (sign_char q3 _ close 124 R3 A3); [exact Ic | congruence | cbn; intuition discriminate]. }
      destruct (attr_tail a g2 g3 g4 g5 close ++ rest) as [| c r] eqn:El.
      - exfalso. apply (f_equal (@List.length cursor)) in El. unfold attr_tail in El. rewrite !app_length in El. cbn [List.length] in El. lia.
      - destruct (Hf c r eq_refl) as [F | (d & r' & -> & D1 & D2)].
        + exists false. split; [| discriminate]. rewrite (raw_peek (peek_delim 124) (set_skip q3 KS_NONE) c r A3 eq_refl). unfold peek_delim. rewrite F, Bool.andb_false_r. reflexivity.
        + exists true. split; [rewrite (raw_peek (peek_delim 124) (set_skip q3 KS_NONE) c _ A3 eq_refl); exact (is_delim_peek 124 _ c D1) |]. intros _.
          destruct (raw_double 124 61 (set_skip q3 KS_NONE) c _ A3 eq_refl) as (d' & -> & Ed). cbn [nth] in Ed. subst d'. rewrite (char_of 124 c _ D1), (char_of 61 d _ D2). reflexivity. }
    destruct Hc as (b & Eb & Ht). unfold goes. rewrite Eb. destruct b; [rewrite (Ht eq_refl); exact Gx | exact Gx].
Qed.
