(* Stylesheets are read: declarations and their blocks. *)
From Coq Require Import ZifyBool ZifyNat ZifyN.
From Coq Require Import String.
From Coq Require Import List Lia.
From Verif Require Import SpecWords.
From Verif Require Import LexTrace AstSheet Values SpecSheet SpecLex SpecTrace SpecParser SpecSyntax SpecTraits SpecRules KindProofs CursorProofs LexBase LexFacts ParserProofs ParserProofs3 CompareProofs
  ParserProofs2 FeatureProofs TraitsTotal SelectorProofs SelectorProofs2 SelectorProofs3 SelectorProofs9 SyntaxTotal SyntaxAccept Keeps RulesTotal SpecSelectors SpecConforms SpecTree SpecAccepts SpecDecl SpecRead SpecSelectorText SelectorGoes SelectorGoes2 SelectorGoes3 SelectorGoes7 PropValues4 Reads Reads2.
Open Scope N_scope.
Open Scope list_scope.
Notation length := List.length.

Lemma solid_semicolon : solid_kind K_Semicolon. Proof. repeat split; discriminate. Qed.
Lemma solid_right : solid_kind K_RightCurly. Proof. repeat split; discriminate. Qed.
Lemma solid_left : solid_kind K_LeftCurly. Proof. repeat split; discriminate. Qed.
Lemma solid_at : solid_kind K_AtKeyword. Proof. repeat split; discriminate. Qed.
Lemma solid_string : solid_kind K_String. Proof. repeat split; discriminate. Qed.
Lemma solid_function : solid_kind K_Function. Proof. repeat split; discriminate. Qed.
Lemma kind_not : forall c k, kind_of c <> k -> kind_eqb (kind_of c) k = false.
Proof. intros c k N. destruct (kind_eqb (kind_of c) k) eqn:E; [apply kind_eqb_eq in E; contradiction | reflexivity]. Qed.

Section Reads3.
Variable src : text.
Context {mod_ : mode}.
Variable f : feature.
Notation at_ := (at_ src f). Notation takes := (takes src f). Notation takesg := (takesg src f).
Arguments Reads.takes _ {mod_} _ {A}. Arguments Reads.takesg _ {mod_} _ {A}.

Lemma second_here : forall p g c g' d rest, at_ p (g ++ c :: g' ++ d :: rest) -> gap g -> solid c -> gap g' -> solid d -> peek_n p 2 = Some d.
Proof.
  intros p g c g' d rest Ap G Hc G' Hd. pose proof (at_ready src f _ _ Ap) as R. rewrite (peek_n_spec p _ 2 (at_ahead src f _ _ Ap)) by lia. rewrite (kept_skipped _ _ _ (gap_kinds p g R G)), kept_cons by exact (solid_kinds p c R Hc).
  rewrite (kept_skipped _ _ _ (gap_kinds p g' R G')), kept_cons by exact (solid_kinds p d R Hd). reflexivity.
Qed.
Lemma first_here : forall p g c rest, at_ p (g ++ c :: rest) -> gap g -> solid c -> peek_n p 1 = Some c.
Proof. intros p g c rest Ap G Hc. pose proof (at_ready src f _ _ Ap) as R. rewrite (peek_n_spec p _ 1 (at_ahead src f _ _ Ap)) by lia. rewrite (kept_skipped _ _ _ (gap_kinds p g R G)), kept_cons by exact (solid_kinds p c R Hc). reflexivity. Qed.
Lemma next_here : forall p g c rest, at_ p (g ++ c :: rest) -> gap g -> solid c -> peek_next p = Some c.
Proof. intros p g c rest Ap G Hc. pose proof (at_ready src f _ _ Ap) as R. rewrite (peek_next_spec p g (c :: rest) (at_ahead src f _ _ Ap) (gap_kinds p g R G) (solid_kinds p c R Hc)). reflexivity. Qed.
Lemma more_ahead : forall p cs, at_ p cs -> cs <> [] -> p_at_end p = false.
Proof.
  intros p cs Ap N. pose proof (at_ahead src f _ _ Ap) as A. destruct cs as [| c cs]; [elim N; reflexivity |]. exact (ahead_not_end _ _ _ A).
Qed.
(* [! important] *)
Lemma important_reads : forall p g bang g2 word rest, at_ p (g ++ bang :: g2 ++ word :: rest) -> gap g -> gap g2 -> important src bang word -> takes (parse_if_peek peek_important parse_important) p (eq (Some (bang, word))) rest.
Proof.
  intros p g bang g2 word rest Ap G G2 (D & K & E). assert (Sw : solid word) by (intros [H | H]; congruence). apply takes_if.
  - rewrite (peek_here src f _ p g bang _ Ap G (delim_solid _ _ D)). unfold peek_important. rewrite (second_here p g bang g2 word rest Ap G (delim_solid _ _ D) G2 Sw).
    pose proof (is_delim_peek 33 p bang D) as X. unfold peek_delim in X. apply some_inj in X. rewrite X. rewrite (tok_kind K_Ident word K) by discriminate. rewrite (at_src src f _ _ Ap). exact E.
  - unfold parse_important. apply (takes_bind src f _ _ _ _ p (eq bang) _ (g2 ++ word :: rest)); [exact (take_delim src f 33 p g bang _ Ap G D) |]. intros x q <- Aq _. apply (takes_bind src f _ _ _ _ q (eq word) _ rest); [exact (take_kind src f K_Ident q g2 word rest Aq G2 K solid_ident) |]. intros x q2 <- Aq2 _.
    exists (bang, word), q2. rewrite (at_src src f _ _ Aq2). change IMPORTANT with (chars "important"). rewrite E. split; [reflexivity |]. split; [reflexivity |]. split; [exact Aq2 | apply mode_refl].
Qed.
Lemma unimportant_reads : forall p g c rest, at_ p (g ++ c :: rest) -> gap g -> stops c -> takes (parse_if_peek peek_important parse_important) p (eq None) (g ++ c :: rest).
Proof.
  intros p g c rest Ap G St. apply takes_if_not; [| exact Ap | reflexivity]. rewrite (peek_here src f _ p g c _ Ap G (stops_solid c St)). unfold peek_important. rewrite (tok_not K_Delim c); [reflexivity | destruct St as [K | K]; rewrite K; discriminate | destruct St as [K | K]; rewrite K; discriminate].
Qed.
Lemma declaration_reads : forall d t, declaration_written src d t -> forall valid, (forall p, lsrc (plex p) = src -> valid p (pr_name d) = Some true) -> forall p g g' c rest, at_ p (g ++ t ++ g' ++ c :: rest) -> gap g -> gap g' -> stops c ->
  takesg (pmap property_of (declaration_t valid (parse_style_value VALUES))) p (fun x => outline_property x = d) (c :: rest).
Proof.
  intros d t W valid Va p g g' c rest Ap G G' St. apply takesg_map. unfold declaration_t.
  destruct W as [name g1 colon value u Kn G1 Kc Vw | name g1 colon value u g2 bang g3 word Kn G1 Kc Vw Im G2 G3 Ip].
  - cbn [app] in Ap. rewrite <- app_assoc in Ap. cbn [app] in Ap.
    apply (takesg_bind2 src f _ _ _ _ p (eq name) _ (g1 ++ colon :: u ++ g' ++ c :: rest)); [exact (take_kind src f K_Ident p g name _ Ap G Kn solid_ident) |]. intros x q <- Aq _. unfold takesg, takes. cbn [pr_name] in Va. rewrite (Va q (at_src src f _ _ Aq)).
    apply (takesg_bind2 src f _ _ _ _ q (eq colon) _ (u ++ g' ++ c :: rest)); [exact (take_kind src f K_Colon q g1 colon _ Aq G1 Kc solid_colon) |]. intros x q2 <- Aq2 _.
    destruct (value_reads src f name value u Vw Kn q2 g' c rest Aq2 G' (or_introl (or_introl St))) as (g'' & G'' & T). apply (takesg_bind2 src f _ _ _ _ q2 _ _ _ _ T). intros v q3 Ev Aq3 _.
    apply (takesg_takes src f _ _ _ _ g''); [exact G'' |]. apply (takes_bind src f _ _ _ _ q3 (eq None) _ (g'' ++ c :: rest)); [exact (unimportant_reads q3 g'' c rest Aq3 G'' St) |]. intros x q4 <- Aq4 _. apply takes_ret; [exact Aq4 |]. unfold outline_property, property_of. cbn [pr_name pr_colon pr_value pr_important]. rewrite Ev. reflexivity.
  - assert (Ap' : at_ p (g ++ name :: g1 ++ colon :: u ++ g2 ++ bang :: g3 ++ word :: g' ++ c :: rest)).
    { cbn [app] in Ap. rewrite <- app_assoc in Ap. cbn [app] in Ap. rewrite <- !app_assoc in Ap. cbn [app] in Ap. rewrite <- app_assoc in Ap. exact Ap. }
    clear Ap. rename Ap' into Ap. apply (takesg_bind2 src f _ _ _ _ p (eq name) _ (g1 ++ colon :: u ++ g2 ++ bang :: g3 ++ word :: g' ++ c :: rest)); [exact (take_kind src f K_Ident p g name _ Ap G Kn solid_ident) |]. intros x q <- Aq _. unfold takesg, takes. cbn [pr_name] in Va. rewrite (Va q (at_src src f _ _ Aq)).
    apply (takesg_bind2 src f _ _ _ _ q (eq colon) _ (u ++ g2 ++ bang :: g3 ++ word :: g' ++ c :: rest)); [exact (take_kind src f K_Colon q g1 colon _ Aq G1 Kc solid_colon) |]. intros x q2 <- Aq2 _.
    destruct (value_reads src f name value u Vw Kn q2 g2 bang _ Aq2 G2 (or_intror (conj Im (proj1 Ip)))) as (g'' & G'' & T). apply (takesg_bind2 src f _ _ _ _ q2 _ _ _ _ T). intros v q3 Ev Aq3 _.
    apply (takesg_takes src f _ _ _ _ g'); [exact G' |]. apply (takes_bind src f _ _ _ _ q3 (eq (Some (bang, word))) _ (g' ++ c :: rest)); [exact (important_reads q3 g'' bang g3 word _ Aq3 G'' G3 Ip) |]. intros x q4 <- Aq4 _. apply takes_ret; [exact Aq4 |]. unfold outline_property, property_of. cbn [pr_name pr_colon pr_value pr_important]. rewrite Ev. reflexivity.
Qed.
Lemma property_reads : forall d t, declaration_written src d t -> forall p g g' c rest, at_ p (g ++ t ++ g' ++ c :: rest) -> gap g -> gap g' -> stops c -> takesg (parse_property VALUES) p (fun x => outline_property x = d) (c :: rest).
Proof. intros d t W p g g' c rest Ap G G' St. exact (declaration_reads d t W (fun _ _ => Some true) (fun _ _ => eq_refl) p g g' c rest Ap G G' St). Qed.
Lemma written_name : forall d t, declaration_written src d t -> exists name g colon u, t = name :: g ++ colon :: u /\ kind_of name = K_Ident /\ gap g /\ kind_of colon = K_Colon.
Proof. intros d t [name g1 colon value u Kn G1 Kc Vw | name g1 colon value u g2 bang g3 word Kn G1 Kc Vw Im G2 G3 Ip]; [exists name, g1, colon, u; auto |]. exists name, g1, colon, (u ++ g2 ++ bang :: g3 ++ [word]). auto. Qed.

(* ---- lists of declarations ---- *)
Lemma app_not_nil : forall (g : list cursor) c r, g ++ c :: r <> [].
Proof. intros g c r E. destruct g; discriminate. Qed.
Lemma takes_opt_ok : forall A (m : P A) p Q rest, takes m p Q rest -> takes (opt_ok m) p (fun _ => True) rest.
Proof. intros A m p Q rest (x & q & E & _ & K). exists (Some x), q. split; [unfold opt_ok; rewrite E; reflexivity |]. split; [exact Logic.I | exact K]. Qed.
Lemma decls_end : forall D (dp : P D) n p g close rest, at_ p (g ++ close :: rest) -> gap g -> kind_of close = K_RightCurly -> takes (decls_loop dp (S n)) p (eq ([], Some close)) rest.
Proof.
  intros D dp n p g close rest Ap G K. unfold takes. cbn [decls_loop]. rewrite (more_ahead p _ Ap (app_not_nil _ _ _)). apply (takes_or src f _ _ _ _ p true).
  - rewrite (peek_kind_here src f K_RightCurly p g close rest Ap G (solid_of _ _ K solid_right)), K. reflexivity.
  - apply takes_map. apply (takes_weaken src f _ _ _ (eq close)); [intros x <-; reflexivity | exact (take_kind src f K_RightCurly p g close rest Ap G K solid_right)].
Qed.
Lemma decls_step : forall D (dp : P D) n p g c ts Q mid R rest, at_ p (g ++ c :: ts) -> gap g -> solid c -> kind_of c <> K_RightCurly -> takesg dp p Q mid ->
  (forall g' d q, gap g' -> Q d -> at_ q (g' ++ mid) -> takes (bind (if_kind K_Semicolon) (fun s => pmap (fun l => ((d, s) :: fst l, snd l)) (decls_loop dp n))) q R rest) -> takes (decls_loop dp (S n)) p R rest.
Proof.
  intros D dp n p g c ts Q mid R rest Ap G Hc N T K. unfold takes. cbn [decls_loop]. rewrite (more_ahead p _ Ap (app_not_nil _ _ _)). apply (takes_or src f _ _ _ _ p false).
  - rewrite (peek_kind_here src f K_RightCurly p g c ts Ap G Hc), (kind_not c _ N). reflexivity.
  - apply (takesg_bind src f _ _ _ _ p Q _ mid _ T). intros g' x q G' H Aq _. exact (K g' x q G' H Aq).
Qed.
Lemma name_solid : forall c, kind_of c = K_Ident -> solid c.
Proof. intros c K. exact (solid_of c _ K solid_ident). Qed.
Lemma declarations_read : forall l toks, declarations_written src l toks -> forall n p close rest, at_ p (toks ++ close :: rest) -> kind_of close = K_RightCurly -> (length toks < n)%nat ->
  takes (decls_loop (parse_property VALUES) n) p (fun x => outline_declarations (fst x) = l /\ snd x = Some close) rest.
Proof.
  intros l toks W. induction W as [g G | g d t g' G Dw G' | g d t g' semi l toks G Dw G' Ks W IH]; intros n p close rest Ap Kc Hn; (destruct n as [| n]; [lia |]).
  - apply (takes_weaken src f _ _ _ (eq ([], Some close))); [intros x <-; split; reflexivity | exact (decls_end _ _ n p g close rest Ap G Kc)].
  - rewrite <- !app_assoc in Ap. destruct (written_name d t Dw) as (name & g1 & colon & u & Et & Kn & _). assert (Hn' : exists n', n = S n') by (destruct n as [| n']; [rewrite Et, !app_length in Hn; cbn [length] in Hn; lia | eauto]). destruct Hn' as (n' & ->).
    assert (Ap' := Ap). rewrite Et in Ap'. cbn [app] in Ap'.
    apply (decls_step _ _ (S n') p g name _ (fun x => outline_property x = d) (close :: rest) _ rest Ap' G (name_solid _ Kn)); [rewrite Kn; discriminate | exact (property_reads d t Dw p g g' close rest Ap G G' (or_intror Kc)) |]. intros g'' x q G'' Ex Aq.
    apply (takes_bind src f _ _ _ _ q (eq None) _ (g'' ++ close :: rest)); [apply (take_if_not_kind src f K_Semicolon q g'' close rest Aq G'' (solid_of _ _ Kc solid_right)); rewrite Kc; discriminate |]. intros o q2 <- Aq2 _. apply takes_map.
    apply (takes_weaken src f _ _ _ (eq ([], Some close))); [intros y <-; cbn [fst snd outline_declarations map]; rewrite Ex; split; reflexivity | exact (decls_end _ _ n' q2 g'' close rest Aq2 G'' Kc)].
  - rewrite <- !app_assoc in Ap. cbn [app] in Ap. destruct (written_name d t Dw) as (name & g1 & colon & u & Et & Kn & _). assert (Ap' := Ap). rewrite Et in Ap'. cbn [app] in Ap'.
    apply (decls_step _ _ n p g name _ (fun x => outline_property x = d) (semi :: toks ++ close :: rest) _ rest Ap' G (name_solid _ Kn)); [rewrite Kn; discriminate | exact (property_reads d t Dw p g g' semi _ Ap G G' (or_introl Ks)) |]. intros g'' x q G'' Ex Aq.
    apply (takes_bind src f _ _ _ _ q (eq (Some semi)) _ (toks ++ close :: rest)); [exact (take_if_kind src f K_Semicolon q g'' semi _ Aq G'' Ks solid_semicolon) |]. intros o q2 <- Aq2 _. apply takes_map.
    assert (Hl : (length toks < n)%nat) by (rewrite !app_length in Hn; cbn [length] in Hn; lia). refine (takes_weaken src f _ _ _ _ _ _ _ (IH n q2 close rest Aq2 Kc Hl)). intros y (E1 & E2). cbn [fst snd outline_declarations map]. rewrite Ex. split; [f_equal; exact E1 | exact E2].
Qed.
Lemma declaration_block_reads : forall l body, declarations_written src l body -> forall p g open close rest, at_ p (g ++ open :: body ++ close :: rest) -> gap g -> kind_of open = K_LeftCurly -> kind_of close = K_RightCurly ->
  takes (declaration_list_t (parse_property VALUES)) p (fun x => let '(o, l', c) := x in o = open /\ outline_declarations l' = l /\ c = Some close) rest.
Proof.
  intros l body W p g open close rest Ap G Ko Kc. unfold declaration_list_t. apply (takes_bind src f _ _ _ _ p (eq open) _ (body ++ close :: rest)); [exact (take_kind src f K_LeftCurly p g open _ Ap G Ko solid_left) |]. intros x q <- Aq _. apply takes_map.
  assert (Hl : (length body < sfuel q)%nat) by (pose proof (sfuel_more q _ (at_ahead src f _ _ Aq)) as X; rewrite app_length in X; lia). refine (takes_weaken src f _ _ _ _ _ _ _ (declarations_read l body W (sfuel q) q close rest Aq Kc Hl)). intros y (E1 & E2). auto.
Qed.

(* ---- lists of rules ---- *)
Definition rules_tail {R} (rp : P R) (n : nat) : P (list R * option cursor) := fun p =>
  if p_at_end p then Some (Ok ([], None), p) else
  or_peek (peek_kind K_RightCurly) (pmap (fun c => ([], Some c)) (parse_kind K_RightCurly)) (bind rp (fun r => pmap (fun l => (r :: fst l, snd l)) (rules_loop rp n))) p.
Lemma tail_end : forall R (rp : P R) n p g close rest, at_ p (g ++ close :: rest) -> gap g -> kind_of close = K_RightCurly -> takes (rules_tail rp n) p (eq ([], Some close)) rest.
Proof.
  intros R rp n p g close rest Ap G K. unfold takes, rules_tail. rewrite (more_ahead p _ Ap (app_not_nil _ _ _)). apply (takes_or src f _ _ _ _ p true).
  - rewrite (peek_kind_here src f K_RightCurly p g close rest Ap G (solid_of _ _ K solid_right)), K. reflexivity.
  - apply takes_map. apply (takes_weaken src f _ _ _ (eq close)); [intros x <-; reflexivity | exact (take_kind src f K_RightCurly p g close rest Ap G K solid_right)].
Qed.
Lemma tail_step : forall R (rp : P R) n p g c ts Q mid R' rest, at_ p (g ++ c :: ts) -> gap g -> solid c -> kind_of c <> K_RightCurly -> takesg rp p Q mid ->
  (forall g' x q, gap g' -> Q x -> at_ q (g' ++ mid) -> takes (pmap (fun l => (x :: fst l, snd l)) (rules_loop rp n)) q R' rest) -> takes (rules_tail rp n) p R' rest.
Proof.
  intros R rp n p g c ts Q mid R' rest Ap G Hc N T K. unfold takes, rules_tail. rewrite (more_ahead p _ Ap (app_not_nil _ _ _)). apply (takes_or src f _ _ _ _ p false).
  - rewrite (peek_kind_here src f K_RightCurly p g c ts Ap G Hc), (kind_not c _ N). reflexivity.
  - apply (takesg_bind src f _ _ _ _ p Q _ mid _ T). intros g' x q G' H Aq _. exact (K g' x q G' H Aq).
Qed.
Lemma loop_tail : forall R (rp : P R) n p g c ts Q rest, at_ p (g ++ c :: ts) -> gap g -> solid c -> kind_of c <> K_Semicolon -> (forall q, at_ q (g ++ c :: ts) -> takes (rules_tail rp n) q Q rest) -> takes (rules_loop rp (S n)) p Q rest.
Proof.
  intros R rp n p g c ts Q rest Ap G Hc N K. cbn [rules_loop]. apply (takes_bind src f _ _ _ _ p (fun _ => True) _ (g ++ c :: ts)); [exact (takes_opt_ok _ _ _ _ _ (take_if_not_kind src f K_Semicolon p g c ts Ap G Hc N)) |]. intros x q _ Aq _. exact (K q Aq).
Qed.
Lemma loop_semi : forall R (rp : P R) n p g semi ts Q rest, at_ p (g ++ semi :: ts) -> gap g -> kind_of semi = K_Semicolon -> (forall q, at_ q ts -> takes (rules_tail rp n) q Q rest) -> takes (rules_loop rp (S n)) p Q rest.
Proof.
  intros R rp n p g semi ts Q rest Ap G Ks K. cbn [rules_loop]. apply (takes_bind src f _ _ _ _ p (fun _ => True) _ ts); [exact (takes_opt_ok _ _ _ _ _ (take_if_kind src f K_Semicolon p g semi ts Ap G Ks solid_semicolon)) |]. intros x q _ Aq _. exact (K q Aq).
Qed.
Lemma loop_end : forall R (rp : P R) n p g close rest, at_ p (g ++ close :: rest) -> gap g -> kind_of close = K_RightCurly -> takes (rules_loop rp (S n)) p (eq ([], Some close)) rest.
Proof. intros R rp n p g close rest Ap G K. apply (loop_tail _ _ n p g close rest); [exact Ap | exact G | exact (solid_of _ _ K solid_right) | rewrite K; discriminate |]. intros q Aq. exact (tail_end _ _ n q g close rest Aq G K). Qed.
(* @font-face *)
Lemma descriptors_read : forall l toks, declarations_written src l toks -> Forall (fun x => a_word src css_font_descriptors (pr_name (fst x))) l -> forall n p close rest, at_ p (toks ++ close :: rest) -> kind_of close = K_RightCurly -> (length toks <= n)%nat ->
  takes (rules_tail (parse_font_face_property VALUES) n) p (fun x => map outline_property (fst x) = map fst l /\ snd x = Some close) rest.
Proof.
  assert (Va : forall d, a_word src css_font_descriptors (pr_name d) -> forall p, lsrc (plex p) = src -> peek_set K_Ident (words FONT_FACE_PROPERTIES) p (pr_name d) = Some true).
  { intros d (w & K & w' & E & I) p Es. unfold peek_set, look_up. rewrite (tok_kind K_Ident _ K), Es, E by discriminate. pose proof (words_get FONT_FACE_PROPERTIES w') as Gw. destruct (map_get (words FONT_FACE_PROPERTIES) w'); [reflexivity |]. exfalso. apply Gw. unfold words in I. apply in_map_iff in I. destruct I as (w0 & E0 & I0). injection E0 as <- _. exact I0. }
  intros l toks W. induction W as [g G | g d t g' G Dw G' | g d t g' semi l toks G Dw G' Ks W IH]; intros Fa n p close rest Ap Kc Hn.
  - apply (takes_weaken src f _ _ _ (eq ([], Some close))); [intros x <-; split; reflexivity | exact (tail_end _ _ n p g close rest Ap G Kc)].
  - rewrite <- !app_assoc in Ap. destruct (written_name d t Dw) as (name & g1 & colon & u & Et & Kn & _). assert (Hn' : exists n', n = S n') by (destruct n as [| n']; [rewrite Et, !app_length in Hn; cbn [length] in Hn; lia | eauto]). destruct Hn' as (n' & ->).
    assert (Ap' := Ap). rewrite Et in Ap'. cbn [app] in Ap'.
    apply (tail_step _ _ (S n') p g name _ (fun x => outline_property x = d) (close :: rest) _ rest Ap' G (name_solid _ Kn)); [rewrite Kn; discriminate | exact (declaration_reads d t Dw _ (Va d (Forall_inv Fa)) p g g' close rest Ap G G' (or_intror Kc)) |]. intros g'' x q G'' Ex Aq. apply takes_map.
    apply (takes_weaken src f _ _ _ (eq ([], Some close))); [intros y <-; cbn [fst snd map]; rewrite Ex; split; reflexivity | exact (loop_end _ _ n' q g'' close rest Aq G'' Kc)].
  - rewrite <- !app_assoc in Ap. cbn [app] in Ap. destruct (written_name d t Dw) as (name & g1 & colon & u & Et & Kn & _). assert (Ap' := Ap). rewrite Et in Ap'. cbn [app] in Ap'. assert (Hn' : exists n', n = S n') by (destruct n as [| n']; [rewrite Et, !app_length in Hn; cbn [length] in Hn; lia | eauto]). destruct Hn' as (n' & ->).
    apply (tail_step _ _ (S n') p g name _ (fun x => outline_property x = d) (semi :: toks ++ close :: rest) _ rest Ap' G (name_solid _ Kn)); [rewrite Kn; discriminate | exact (declaration_reads d t Dw _ (Va d (Forall_inv Fa)) p g g' semi _ Ap G G' (or_introl Ks)) |]. intros g'' x q G'' Ex Aq. apply takes_map.
    apply (loop_semi _ _ n' q g'' semi _ _ _ Aq G'' Ks). intros q2 Aq2. assert (Hl : (length toks <= n')%nat) by (rewrite !app_length in Hn; cbn [length] in Hn; lia). refine (takes_weaken src f _ _ _ _ _ _ _ (IH (Forall_inv_tail Fa) n' q2 close rest Aq2 Kc Hl)). intros y (E1 & E2). cbn [fst snd map]. rewrite Ex. split; [f_equal; exact E1 | exact E2].
Qed.
End Reads3.
