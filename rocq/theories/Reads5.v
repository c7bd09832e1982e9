(* Stylesheets are read: at-rules and qualified rules of any kind, keyframes, the preludes. *)
From Coq Require Import ZifyBool ZifyNat ZifyN.
From Coq Require Import String.
From Coq Require Import List Lia.
From Verif Require Import SpecWords SpecFeatures.
From Verif Require Import LexTrace AstSheet Values SpecSheet SpecLex SpecTrace SpecParser SpecSyntax SpecTraits SpecRules KindProofs CursorProofs LexBase LexFacts ParserProofs ParserProofs3 CompareProofs
  ParserProofs2 FeatureProofs TraitsTotal SelectorProofs SelectorProofs2 SelectorProofs3 SelectorProofs9 SyntaxTotal SyntaxAccept Keeps RulesTotal SpecSelectors SpecConforms SpecTree SpecAccepts SpecDecl SpecRead SpecSelectorText SelectorGoes SelectorGoes2 SelectorGoes3 SelectorGoes5 SelectorGoes7 PropValues4 Reads Reads2 Reads3 Reads4 ReadsFeature.
Open Scope N_scope.
Open Scope list_scope.
Notation length := List.length.

Lemma solid_open : solid_kind K_LeftParen. Proof. repeat split; discriminate. Qed.
Definition opens_supports (ts : list cursor) : Prop := exists c r, ts = c :: r /\ (kind_of c = K_Function \/ kind_of c = K_LeftParen).
Section Reads5.
Variable src : text.
Context {mod_ : mode}.
Variable f : feature.
Notation at_ := (at_ src f). Notation takes := (takes src f). Notation takesg := (takesg src f).
Arguments Reads.takes _ {mod_} _ {A}. Arguments Reads.takesg _ {mod_} _ {A}.

(* ---- at-rules ---- *)
Lemma at_name : forall w p c cs, at_ p cs -> eq_ignore_ascii_case c src (chars w) = Some true -> eq_ignore_ascii_case c (lsrc (plex p)) (chars w) = Some true.
Proof. intros w p c cs Ap E. rewrite (at_src src f _ _ Ap). exact E. Qed.
Lemma at_rule_reads : forall Pr B (pp : P Pr) (bp : P B) w p g a g0 c ts Qp mid Qb rest, at_ p (g ++ a :: g0 ++ c :: ts) -> gap g -> SpecRead.at_word src w a -> gap g0 -> solid c -> ~ ends_prelude c ->
  (forall q, at_ q (g0 ++ c :: ts) -> takes pp q Qp mid) -> (forall q, at_ q mid -> takes bp q Qb rest) -> takes (at_rule_t (Some (chars w)) pp bp) p (fun x => let '(a', pr, b) := x in a' = a /\ (exists v, pr = Some v /\ Qp v) /\ Qb b) rest.
Proof.
  intros Pr B pp bp w p g a g0 c ts Qp mid Qb rest Ap G (Ka & _ & E) G0 Sc Nc Hp Hb. unfold at_rule_t. apply (takes_bind src f _ _ _ _ p (eq a) _ (g0 ++ c :: ts)); [exact (take_kind src f K_AtKeyword p g a _ Ap G Ka solid_at) |]. intros x q <- Aq _.
  apply (takes_bind src f _ _ _ _ q (fun _ => True) _ (g0 ++ c :: ts)); [exists Datatypes.tt, q; rewrite (at_name w q a _ Aq E); split; [reflexivity |]; split; [exact Logic.I |]; split; [exact Aq | apply mode_refl] |]. intros x q2 _ Aq2 _.
  unfold Reads.takes. rewrite (next_here src f q2 g0 c ts Aq2 G0 Sc), (more_ahead src f q2 _ Aq2 (app_not_nil _ _ _)), prelude_more; [| apply (at_lasts src f q2 _ c Aq2); apply in_or_app; right; left; reflexivity | exact Nc]. cbn [orb].
  apply (takes_bind src f _ _ _ _ q2 (fun o => exists v, o = Some v /\ Qp v) _ mid); [apply takes_map; refine (takes_weaken src f _ _ _ _ _ _ _ (Hp q2 Aq2)); intros v Hv; exists v; split; [reflexivity | exact Hv] |]. intros o q3 Ho Aq3 _.
  apply (takes_bind src f _ _ _ _ q3 Qb _ rest); [exact (Hb q3 Aq3) |]. intros b q4 Hq Aq4 _. apply takes_ret; [exact Aq4 |]. split; [reflexivity |]. split; [exact Ho | exact Hq].
Qed.
Lemma at_rule_bare : forall Pr B (pp : P Pr) (bp : P B) w p g a g0 c ts Qb rest, at_ p (g ++ a :: g0 ++ c :: ts) -> gap g -> SpecRead.at_word src w a -> gap g0 -> ends_prelude c ->
  (forall q, at_ q (g0 ++ c :: ts) -> takes bp q Qb rest) -> takes (at_rule_t (Some (chars w)) pp bp) p (fun x => let '(a', pr, b) := x in a' = a /\ pr = None /\ Qb b) rest.
Proof.
  intros Pr B pp bp w p g a g0 c ts Qb rest Ap G (Ka & _ & E) G0 Nc Hb. pose proof (ends_solid c Nc) as Sc. unfold at_rule_t. apply (takes_bind src f _ _ _ _ p (eq a) _ (g0 ++ c :: ts)); [exact (take_kind src f K_AtKeyword p g a _ Ap G Ka solid_at) |]. intros x q <- Aq _.
  apply (takes_bind src f _ _ _ _ q (fun _ => True) _ (g0 ++ c :: ts)); [exists Datatypes.tt, q; rewrite (at_name w q a _ Aq E); split; [reflexivity |]; split; [exact Logic.I |]; split; [exact Aq | apply mode_refl] |]. intros x q2 _ Aq2 _.
  unfold Reads.takes. rewrite (next_here src f q2 g0 c ts Aq2 G0 Sc), (prelude_stop c Nc), Bool.orb_true_r.
  apply (takes_bind src f _ _ _ _ q2 (eq None) _ (g0 ++ c :: ts)); [apply takes_ret; [exact Aq2 | reflexivity] |]. intros o q3 <- Aq3 _.
  apply (takes_bind src f _ _ _ _ q3 Qb _ rest); [exact (Hb q3 Aq3) |]. intros b q4 Hq Aq4 _. apply takes_ret; [exact Aq4 |]. split; [reflexivity |]. split; [reflexivity | exact Hq].
Qed.

(* ---- qualified rules ---- *)
Lemma rewind_here : forall p q cs, at_ p cs -> same_mode p q -> at_ (rewind q (checkpoint p)) cs /\ same_mode p (rewind q (checkpoint p)).
Proof.
  intros p q cs Ap (S1 & S2 & S3 & S4 & S5). assert (E : plex (rewind q (checkpoint p)) = plex p).
  { unfold rewind, checkpoint. cbn [plex ckcursor]. unfold lexer_rewind, lexer_checkpoint. rewrite S4, S5. destruct (plex p). reflexivity. }
  assert (S : same_mode p (rewind q (checkpoint p))) by (split; [exact S1 |]; split; [exact S2 |]; split; [exact S3 |]; rewrite E; split; reflexivity). split; [| exact S].
  apply (at_moved src f p _ [] cs); [exact Ap | rewrite E; exact (at_ahead src f _ _ Ap) | exact S].
Qed.
Definition no_custom (c : cursor) (ts : list cursor) : Prop := is_dashed_ident (ctok c) = false \/ exists g' d ts', ts = g' ++ d :: ts' /\ gap g' /\ solid d /\ kind_of d <> K_Colon.
Lemma qualified_reads : forall Pr B X (pp : P Pr) (bp : P B) (bad : P X) p g c ts Qp mid Qb rest, at_ p (g ++ c :: ts) -> gap g -> solid c -> kind_of c <> K_RightCurly -> no_custom c ts ->
  (forall q, at_ q (g ++ c :: ts) -> takes pp q Qp mid) -> (forall q, at_ q mid -> takes bp q Qb rest) -> takes (qualified_rule_t pp bp bad) p (fun x => Qp (fst x) /\ Qb (snd x)) rest.
Proof.
  intros Pr B X pp bp bad p g c ts Qp mid Qb rest Ap G Sc Nc D Hp Hb. unfold Reads.takes, qualified_rule_t. rewrite (more_ahead src f p _ Ap (app_not_nil _ _ _)).
  set (rest_p := bind (in_stop (kindset_new [K_LeftCurly]) pp) (fun prelude => pmap (fun b => (prelude, b)) bp)).
  assert (Hr : forall q, at_ q (g ++ c :: ts) -> takes rest_p q (fun x => Qp (fst x) /\ Qb (snd x)) rest).
  { intros q Aq. apply (takes_bind src f _ _ _ _ q Qp _ mid); [apply takes_stop; apply Hp; apply at_stop; exact Aq |]. intros v q2 Hv Aq2 _. apply takes_map. refine (takes_weaken src f _ _ _ _ _ _ _ (Hb q2 Aq2)). intros b Hq. split; [exact Hv | exact Hq]. }
  match goal with |- exists x q, (if is_nested p then or_peek _ _ ?m p else _) = _ /\ _ => set (dashed := m) end.
  assert (Hd : takes dashed p (fun x => Qp (fst x) /\ Qb (snd x)) rest).
  { unfold dashed. destruct (tok_is (ctok c) K_Ident && is_dashed_ident (ctok c)) eqn:Eb.
    - apply (takes_or src f _ _ _ _ p true); [rewrite (peek_here src f _ p g c ts Ap G Sc); unfold peek_dashed_ident; rewrite Eb; reflexivity |].
      destruct D as [D | (g' & d & ts' & E & G' & Sd & Nd)]; [rewrite D, Bool.andb_false_r in Eb; discriminate |].
      destruct (take_single src f _ peek_dashed_ident (fun c => c) p g c ts Ap G Sc) as (x & q & Ex & _ & Aq & S); [unfold peek_dashed_ident; rewrite Eb; reflexivity |].
      unfold Reads.takes. change (parse_dashed_ident p) with (parse_single peek_dashed_ident (fun c => c) p). rewrite Ex. rewrite E in Aq. rewrite (peek_kind_here src f K_Colon q g' d ts' Aq G' Sd), (kind_not d _ Nd).
      destruct (rewind_here p q _ Ap S) as (Ar & Sr). destruct (Hr _ Ar) as (y & q2 & Ey & Hy & Aq2 & S2). exists y, q2. split; [exact Ey |]. split; [exact Hy |]. split; [exact Aq2 | exact (mode_trans _ _ _ Sr S2)].
    - apply (takes_or src f _ _ _ _ p false); [rewrite (peek_here src f _ p g c ts Ap G Sc); unfold peek_dashed_ident; rewrite Eb; reflexivity |]. exact (Hr p Ap). }
  destruct (is_nested p); [| exact Hd]. apply (takes_or src f _ _ _ _ p false); [rewrite (peek_kind_here src f K_RightCurly p g c ts Ap G Sc), (kind_not c _ Nc); reflexivity | exact Hd].
Qed.

(* ---- keyframes ---- *)
Lemma frame_head : forall l ts g open rest, commas_written (frame_selector_written src) l ts -> gap g -> kind_of open = K_LeftCurly -> exists g0 c g1 d r, ts ++ g ++ open :: rest = g0 ++ c :: g1 ++ d :: r /\ gap g0 /\ solid c /\ kind_of c <> K_RightCurly /\ kind_of c <> K_Semicolon /\ gap g1 /\ solid d /\ kind_of d <> K_Colon.
Proof.
  intros l ts g open rest W G Ko.
  assert (H : forall x, keyframe_selector_fits src x -> solid (keyframe_selector_cursor x) /\ kind_of (keyframe_selector_cursor x) <> K_RightCurly /\ kind_of (keyframe_selector_cursor x) <> K_Semicolon).
  { intros [c | c | c] (K & _); cbn [keyframe_selector_cursor]; rewrite K; (split; [first [exact (name_solid _ K) | exact (solid_of _ _ K dimension_solid)] | split; discriminate]). }
  destruct W as [g0 x t G0 I | g0 x t g' comma l toks G0 I G' Kc W]; destruct I as [x Fx]; destruct (H x Fx) as (Hs & H1 & H2).
  - exists g0, (keyframe_selector_cursor x), g, open, rest. rewrite <- app_assoc. cbn [app]. split; [reflexivity |]. split; [exact G0 |]. split; [exact Hs |]. split; [exact H1 |]. split; [exact H2 |]. split; [exact G |]. split; [exact (solid_of _ _ Ko solid_left) | rewrite Ko; discriminate].
  - exists g0, (keyframe_selector_cursor x), g', comma, (toks ++ g ++ open :: rest). split; [rewrite <- !app_assoc; cbn [app]; rewrite <- ?app_assoc; reflexivity |]. split; [exact G0 |]. split; [exact Hs |]. split; [exact H1 |]. split; [exact H2 |]. split; [exact G' |]. split; [exact (solid_of _ _ Kc solid_comma) | rewrite Kc; discriminate].
Qed.
Lemma frame_reads : forall x t, frame_written src x t -> forall p g rest, at_ p (g ++ t ++ rest) -> gap g -> takes (parse_keyframe VALUES) p (fun y => outline_frame y = x) rest.
Proof.
  intros x t [sel ts g1 open l body close Wc G1 Ko Wd Kc] p g rest Ap G. rewrite <- !app_assoc in Ap. cbn [app] in Ap. rewrite <- app_assoc in Ap. cbn [app] in Ap. unfold parse_keyframe. apply takes_map.
  destruct (frame_head sel ts g1 open (body ++ close :: rest) Wc G1 Ko) as (g0 & c & g2 & d & r & E & G0 & Sc & N1 & _ & G2 & Sd & Nd).
  assert (Ap' := Ap). rewrite E, app_assoc in Ap'.
  refine (takes_weaken src f _ _ _ _ _ _ _ (qualified_reads _ _ _ _ _ _ p (g ++ g0) c (g2 ++ d :: r) (eq sel) (g1 ++ open :: body ++ close :: rest) (fun x => let '(o, l', c) := x in o = open /\ outline_declarations l' = l /\ c = Some close) rest Ap' (gap_app _ _ G G0) Sc N1 _ _ _)).
  - intros (s & ((o & l') & cl)) H. cbn [fst snd] in H. destruct H as (E1 & E3 & E2 & E4). subst. cbn [fst snd]. unfold outline_frame. cbn [kf_block kf_selectors]. reflexivity.
  - right. exists g2, d, r. auto.
  - intros q Aq. rewrite <- app_assoc, <- E in Aq. assert (Wg : commas_written (frame_selector_written src) sel (g ++ ts)).
    { destruct Wc as [ga xa ta Ga Ia | ga xa ta gb comma la toks Ga Ia Gb Kb Wc]; rewrite app_assoc; [apply cw_one | apply cw_cons]; try assumption; exact (gap_app _ _ G Ga). }
    rewrite app_assoc in Aq. exact (comma_list_reads src f _ _ _ (frame_selectors_read src f) sel (g ++ ts) Wg q g1 open _ Aq G1 (or_introl Ko)).
  - intros q Aq. exact (declaration_block_reads src f l body Wd q g1 open close rest Aq G1 Ko Kc).
Qed.
Lemma tail_go : forall R (rp : P R) n p g c ts Q mid R' rest, at_ p (g ++ c :: ts) -> gap g -> solid c -> kind_of c <> K_RightCurly -> takes rp p Q mid ->
  (forall x q, Q x -> at_ q mid -> takes (pmap (fun l => (x :: fst l, snd l)) (rules_loop rp n)) q R' rest) -> takes (rules_tail rp n) p R' rest.
Proof.
  intros R rp n p g c ts Q mid R' rest Ap G Hc N T K. unfold Reads.takes, rules_tail. rewrite (more_ahead src f p _ Ap (app_not_nil _ _ _)). apply (takes_or src f _ _ _ _ p false).
  - rewrite (peek_kind_here src f K_RightCurly p g c ts Ap G Hc), (kind_not c _ N). reflexivity.
  - apply (takes_bind src f _ _ _ _ p Q _ mid _ T). intros x q H Aq _. exact (K x q H Aq).
Qed.
Lemma frames_head : forall l toks close rest, frames_written src l toks -> kind_of close = K_RightCurly -> exists g c r, toks ++ close :: rest = g ++ c :: r /\ gap g /\ solid c /\ kind_of c <> K_Semicolon.
Proof.
  intros l toks close rest W Kc. destruct W as [g G | g x t l toks G Fw W].
  - exists g, close, rest. split; [reflexivity |]. split; [exact G |]. split; [exact (solid_of _ _ Kc solid_right) | rewrite Kc; discriminate].
  - destruct Fw as [sel ts g1 open l' body close' Wc G1 Ko Wd Kc']. destruct (frame_head sel ts g1 open (body ++ close' :: toks ++ close :: rest) Wc G1 Ko) as (g0 & c & g2 & d & r & E & G0 & Sc & _ & N2 & _).
    exists (g ++ g0), c, (g2 ++ d :: r). rewrite <- !app_assoc. cbn [app]. rewrite <- app_assoc. cbn [app]. rewrite E. split; [reflexivity |]. split; [exact (gap_app _ _ G G0) |]. split; [exact Sc | exact N2].
Qed.
Lemma frames_read : forall l toks, frames_written src l toks -> forall n p close rest, at_ p (toks ++ close :: rest) -> kind_of close = K_RightCurly -> (length toks <= n)%nat ->
  takes (rules_tail (parse_keyframe VALUES) n) p (fun x => map outline_frame (fst x) = l /\ snd x = Some close) rest.
Proof.
  intros l toks W. induction W as [g G | g x t l toks G Fw W IH]; intros n p close rest Ap Kc Hn.
  - apply (takes_weaken src f _ _ _ (eq ([], Some close))); [intros y <-; split; reflexivity | exact (tail_end src f _ _ n p g close rest Ap G Kc)].
  - assert (Ap' := Ap). rewrite <- !app_assoc in Ap. assert (Ht : (0 < length t)%nat) by (destruct Fw; rewrite !app_length; cbn [length]; lia). assert (Hn' : exists n', n = S n') by (destruct n as [| n']; [rewrite !app_length in Hn; lia | exists n'; reflexivity]). destruct Hn' as (n' & ->).
    pose proof Fw as Fw'. destruct Fw' as [sel ts g1 open l' body close' Wc G1 Ko Wd Kc']. destruct (frame_head sel ts g1 open (body ++ close' :: toks ++ close :: rest) Wc G1 Ko) as (g0 & c & g2 & d & r & E & G0 & Sc & N1 & _).
    rewrite <- !app_assoc in Ap'. cbn [app] in Ap'. rewrite <- app_assoc in Ap'. cbn [app] in Ap'. rewrite E, app_assoc in Ap'.
    apply (tail_go _ _ _ p (g ++ g0) c _ (fun y => outline_frame y = Keyframe sel (open, l', Some close')) (toks ++ close :: rest) _ rest Ap' (gap_app _ _ G G0) Sc N1 (frame_reads _ _ Fw p g _ Ap G)).
    intros y q Ey Aq. apply takes_map. destruct (frames_head l toks close rest W Kc) as (g3 & c3 & r3 & E3 & G3 & S3 & N3). assert (Aq' := Aq). rewrite E3 in Aq'.
    apply (loop_tail src f _ _ n' q g3 c3 r3 _ _ Aq' G3 S3 N3). intros q2 Aq2. rewrite <- E3 in Aq2. assert (Hl : (length toks <= n')%nat) by (rewrite !app_length in Hn; rewrite !app_length in Ht; lia).
    refine (takes_weaken src f _ _ _ _ _ _ _ (IH n' q2 close rest Aq2 Kc Hl)). intros z (E1 & E2). cbn [fst snd map]. rewrite Ey. split; [f_equal; exact E1 | exact E2].
Qed.
(* a block of rules, from its tail *)
Lemma rule_list_reads : forall R (rp : P R) p g open body close rest Q, at_ p (g ++ open :: body ++ close :: rest) -> gap g -> kind_of open = K_LeftCurly ->
  (exists g1 c1 r1, body ++ close :: rest = g1 ++ c1 :: r1 /\ gap g1 /\ solid c1 /\ kind_of c1 <> K_Semicolon) ->
  (forall n q, at_ q (body ++ close :: rest) -> (length body <= n)%nat -> takes (rules_tail rp n) q Q rest) -> takes (rule_list_t rp) p (fun x => let '(o, l, c) := x in o = open /\ Q (l, c)) rest.
Proof.
  intros R rp p g open body close rest Q Ap G Ko (g1 & c1 & r1 & E1 & G1 & S1 & N1) H. unfold rule_list_t. apply (takes_bind src f _ _ _ _ p (eq open) _ (body ++ close :: rest)); [exact (take_kind src f K_LeftCurly p g open _ Ap G Ko solid_left) |]. intros x q <- Aq _. apply takes_map.
  assert (Hl : (length body < sfuel q)%nat) by (pose proof (sfuel_more q _ (at_ahead src f _ _ Aq)) as X; rewrite app_length in X; lia). unfold Reads.takes. destruct (sfuel q) as [| n]; [lia |]. assert (Aq' := Aq). rewrite E1 in Aq'.
  apply (loop_tail src f _ _ n q g1 c1 r1 _ _ Aq' G1 S1 N1). intros q2 Aq2. rewrite <- E1 in Aq2. refine (takes_weaken src f _ _ _ _ _ _ _ (H n q2 Aq2 _)); [| lia]. intros (l & c) K. split; [reflexivity | exact K].
Qed.

(* ---- preludes ---- *)
Lemma pre_get : forall l w v c, is_word K_Ident (words l) src v c -> parse_str_lower c src = Some w -> kind_of c = K_Ident /\ v = w /\ map_get (words l) w = Some w.
Proof.
  intros l w v c (K & w' & E & I) Ew. rewrite Ew in E. apply some_inj in E. subst w'. split; [exact K |]. unfold words in I. apply in_map_iff in I. destruct I as (w0 & E0 & I0). injection E0 as -> ->. split; [reflexivity |]. pose proof (words_get l v) as X. destruct (map_get (words l) v); [destruct X as (-> & _); reflexivity | contradiction].
Qed.
Lemma media_type_reads : forall t p cs, media_type_fits src t -> at_ p cs -> takes (take_media_type (snd t)) p (eq t) cs.
Proof.
  intros [o c] p cs (K & w & E & N & M) Ap. cbn [fst snd] in *. unfold Reads.takes, take_media_type, peek_media_type, build_media_type, look_up. rewrite (tok_kind K_Ident c K), (at_src src f _ _ Ap), E by discriminate. cbn [option_map].
  pose proof (words_get NOT_MEDIA_TYPES w) as X. destruct (map_get (words NOT_MEDIA_TYPES) w) as [v |]; [exfalso; apply N; apply X |]. cbn [option_map]. exists (o, c), p. split; [| split; [reflexivity |]; split; [exact Ap | apply mode_refl]].
  pose proof (words_get MEDIA_TYPES w) as Y. destruct (map_get (words MEDIA_TYPES) w) as [v |].
  - destruct Y as (-> & Iw). destruct o as [v |]; [destruct M as (-> & _); reflexivity | contradiction].
  - destruct o as [v |]; [destruct M as (_ & M); contradiction | reflexivity].
Qed.
Lemma query_rest_here : forall pre ty p g c rest, at_ p (g ++ c :: rest) -> gap g -> kind_of c = K_LeftCurly -> takes (query_rest pre ty) p (eq (MediaQuery pre ty None None)) (g ++ c :: rest).
Proof.
  intros pre ty p g c rest Ap G K. exists (MediaQuery pre ty None None), p. unfold query_rest. rewrite (first_here src f p g c rest Ap G (solid_of _ _ K solid_left)), tok_not; [| rewrite K; discriminate | rewrite K; discriminate]. split; [reflexivity |]. split; [reflexivity |]. split; [exact Ap | apply mode_refl].
Qed.
Lemma spread_gap : forall g l ts, gap g -> l <> [] -> spread l ts -> spread l (g ++ ts).
Proof. intros g l ts G N W. destruct W as [| c l' g0 toks G0 Nt W]; [elim N; reflexivity |]. rewrite app_assoc. apply sp_cons; [exact (gap_app _ _ G G0) | exact Nt | exact W]. Qed.
Lemma fits_some : forall k y, feature_fits src k y -> feature_cursors y <> [].
Proof. intros k y H. destruct k; destruct y as [y | y]; try contradiction; [discriminate | discriminate | destruct y; discriminate]. Qed.
Lemma gap_condition : forall F (item : F -> list cursor -> Prop) (Ig : forall x t g, gap g -> item x t -> item x (g ++ t)) g x ts, gap g -> condition_written src item x ts -> condition_written src item x (g ++ ts).
Proof. intros F item Ig g x ts G [y t I | y t g1 k z u I G1 K E J | y t g1 k z u I G1 K E J]; [apply cn_is; exact (Ig _ _ _ G I) | rewrite (app_assoc g t); apply cn_and; try assumption; exact (Ig _ _ _ G I) | rewrite (app_assoc g t); apply cn_or; try assumption; exact (Ig _ _ _ G I)]. Qed.
Lemma condition_gap : forall g x ts, gap g -> condition_written src (media_feature_written src) x ts -> condition_written src (media_feature_written src) x (g ++ ts).
Proof. intros g x ts. apply gap_condition. intros y t g1 G1 [names k z w toks I E Iw Hf W]. apply (mfw_feature src names k z w); try assumption. apply spread_gap; [exact G1 | exact (fits_some k z Hf) | exact W]. Qed.
Lemma condition_gap2 : forall g x ts, gap g -> condition_written src (container_feature_written src) x ts -> condition_written src (container_feature_written src) x (g ++ ts).
Proof. intros g x ts. apply gap_condition. intros y t g1 G1 [name k z toks I E Hf Ie W]. apply (cfw_feature src name k z); try assumption. apply spread_gap; [exact G1 | exact (fits_some k z Hf) | exact W]. Qed.
Lemma type_reads : forall pre t ts, media_type_written src pre t ts -> forall p g g' d mid Q rest, at_ p (g ++ ts ++ g' ++ d :: mid) -> gap g -> gap g' -> solid d ->
  (forall q, at_ q (g' ++ d :: mid) -> takes (query_rest pre (Some t)) q Q rest) -> takes parse_media_query p Q rest.
Proof.
  intros pre t ts [t' Ft | w g1 t' Fw G1 Ft] p g g' d mid Q rest Ap G G' Sd H; unfold parse_media_query; cbn [app] in Ap.
  - pose proof Ft as (K & v & E & N & _). apply (takes_or src f _ _ _ _ p false); [rewrite (peek_kind_here src f K_LeftParen p g _ _ Ap G (name_solid _ K)), K; reflexivity |].
    apply (takes_bind src f _ _ _ _ p (eq (snd t')) _ (g' ++ d :: mid)); [exact (take_kind src f K_Ident p g _ _ Ap G K solid_ident) |]. intros x q2 <- Aq _.
    unfold Reads.takes, peek_set, look_up. rewrite (tok_kind K_Ident _ K), (at_src src f _ _ Aq), E by discriminate. pose proof (words_get PRECONDITIONS v) as X. destruct (map_get (words PRECONDITIONS) v) as [u |].
    { exfalso. destruct X as (_ & X). apply N. destruct X as [X | [X | []]]; subst v; [right; left | left]; reflexivity. }
    apply (takes_bind src f _ _ _ _ q2 (eq t') _ (g' ++ d :: mid)); [exact (media_type_reads t' q2 _ Ft Aq) |]. intros x q3 <- Aq3 _. unfold Reads.takes. rewrite (peek_kind_here src f K_Ident q3 g' d mid Aq3 G' Sd). exact (H q3 Aq3).
  - rewrite <- app_assoc in Ap. cbn [app] in Ap. pose proof Ft as (K & _). pose proof Fw as (Kw & v & E & _). destruct (pre_get _ v _ _ Fw E) as (_ & Ev & Gv).
    apply (takes_or src f _ _ _ _ p false); [rewrite (peek_kind_here src f K_LeftParen p g _ _ Ap G (name_solid _ Kw)), Kw; reflexivity |].
    apply (takes_bind src f _ _ _ _ p (eq (snd w)) _ (g1 ++ snd t' :: g' ++ d :: mid)); [exact (take_kind src f K_Ident p g _ _ Ap G Kw solid_ident) |]. intros x q2 <- Aq _.
    unfold Reads.takes, peek_set, build_set, look_up. rewrite (tok_kind K_Ident _ Kw), (at_src src f _ _ Aq), E by discriminate. change PRECONDITIONS with css_media_prefixes. rewrite Gv.
    apply (takes_or src f _ _ _ _ q2 true); [rewrite (peek_kind_here src f K_Ident q2 g1 _ _ Aq G1 (name_solid _ K)), K; reflexivity |].
    apply (takes_bind src f _ _ _ _ q2 (eq (snd t')) _ (g' ++ d :: mid)); [exact (take_kind src f K_Ident q2 g1 _ _ Aq G1 K solid_ident) |]. intros x q3 <- Aq3 _.
    apply (takes_bind src f _ _ _ _ q3 (eq t') _ (g' ++ d :: mid)); [exact (media_type_reads t' q3 _ Ft Aq3) |]. intros x q4 <- Aq4 _.
    assert (Ew : w = (v, snd w)) by (destruct w as [a b]; cbn [fst snd] in *; subst a; reflexivity). rewrite Ew in H. exact (H q4 Aq4).
Qed.
Lemma query_reads : forall q ts, query_written src q ts -> forall p g g' c rest, at_ p (g ++ ts ++ g' ++ c :: rest) -> gap g -> gap g' -> kind_of c = K_LeftCurly -> takes parse_media_query p (eq q) (g' ++ c :: rest).
Proof.
  intros q ts [pre t us W | pre t us g1 a x vs W G1 Ka Ea Wx | x us Wx] p g g' c rest Ap G G' Kc; pose proof (solid_of _ _ Kc solid_left) as Sc.
  - apply (type_reads pre t us W p g g' c rest _ _ Ap G G' Sc). intros q2 Aq. exact (query_rest_here pre (Some t) q2 g' c rest Aq G' Kc).
  - rewrite <- app_assoc in Ap. cbn [app] in Ap. rewrite <- app_assoc in Ap. cbn [app] in Ap. apply (type_reads pre t us W p g g1 a _ _ _ Ap G G1 (name_solid _ Ka)). intros q2 Aq. unfold Reads.takes, query_rest.
    rewrite (first_here src f q2 g1 a _ Aq G1 (name_solid _ Ka)), (tok_kind K_Ident _ Ka), (at_src src f _ _ Aq), Ea by discriminate.
    apply (takes_bind src f _ _ _ _ q2 (eq a) _ (vs ++ g' ++ c :: rest)); [exact (take_kind src f K_Ident q2 g1 a _ Aq G1 Ka solid_ident) |]. intros y q3 <- Aq3 _. apply takes_map.
    destruct (media_condition_reads src f x vs Wx) as (_ & H). refine (takes_weaken src f _ _ _ _ _ _ _ (H q3 g' c rest Aq3 G' Sc ltac:(rewrite Kc; discriminate))). intros y <-. reflexivity.
  - destruct (media_condition_reads src f x us Wx) as ((g0 & d & r & E & G0 & Sd & Kd) & H). unfold parse_media_query. assert (Ap' := Ap). rewrite E, <- app_assoc in Ap'. cbn [app] in Ap'. rewrite app_assoc in Ap'.
    apply (takes_or src f _ _ _ _ p true); [rewrite (peek_kind_here src f K_LeftParen p (g ++ g0) d _ Ap' (gap_app _ _ G G0) Sd), Kd; reflexivity |]. apply takes_map.
    assert (Wg : condition_written src (media_feature_written src) x (g ++ us)) by (exact (condition_gap _ _ _ G Wx)).
    destruct (media_condition_reads src f x (g ++ us) Wg) as (_ & H'). rewrite app_assoc in Ap. refine (takes_weaken src f _ _ _ _ _ _ _ (H' p g' c rest Ap G' Sc ltac:(rewrite Kc; discriminate))). intros y <-. reflexivity.
Qed.
Lemma one_prelude : forall I (ip : P I) x p g c rest, takes ip p (eq x) (g ++ c :: rest) -> gap g -> ends_prelude c -> takes (prelude_list_t KS_LEFT_CURLY_OR_SEMICOLON ip) p (eq [x]) (g ++ c :: rest).
Proof.
  intros I ip x p g c rest T G Hc. unfold prelude_list_t. unfold Reads.takes. assert (E : exists n, sfuel p = S n) by (unfold sfuel; exists (2 * pfuel p + 1)%nat; lia). destruct E as (n & ->). cbn [prelude_loop].
  apply (takes_bind src f _ _ _ _ p (eq x) _ (g ++ c :: rest) _ T). intros y q <- Aq _. exists [x], q. rewrite (next_here src f q g c rest Aq G (ends_solid c Hc)), (prelude_stop c Hc). split; [reflexivity |]. split; [reflexivity |]. split; [exact Aq | apply mode_refl].
Qed.
Lemma container_name_reads : forall name w p g g' c rest, kind_of name = K_Ident -> parse_str_lower name src = Some w -> ~ In w css_not_container_names -> at_ p (g ++ name :: g' ++ c :: rest) -> gap g -> gap g' -> kind_of c = K_LeftCurly ->
  takes parse_container_condition p (eq (ContainerCondition (Some name) None)) (g' ++ c :: rest).
Proof.
  intros name w p g g' c rest K E N Ap G G' Kc. pose proof (solid_of _ _ Kc solid_left) as Sc. unfold Reads.takes, parse_container_condition. rewrite (first_here src f p g name _ Ap G (name_solid _ K)), (tok_kind K_Ident _ K) by discriminate. unfold look_up. rewrite (at_src src f _ _ Ap), E.
  pose proof (words_get NOT_CONTAINER_NAMES w) as X. destruct (map_get (words NOT_CONTAINER_NAMES) w) as [v |]; [exfalso; apply N; apply X |].
  apply (takes_bind src f _ _ _ _ p (eq name) _ (g' ++ c :: rest)); [exact (take_kind src f K_Ident p g name _ Ap G K solid_ident) |]. intros x q <- Aq _. apply takes_map. apply takes_if_not; [| exact Aq | reflexivity].
  rewrite (peek_here src f _ q g' c rest Aq G' Sc). cbn [any_peek]. unfold peek_kind. rewrite !tok_not by (rewrite Kc; discriminate). reflexivity.
Qed.
Lemma container_reads : forall x ts, container_written src x ts -> forall p g g' c rest, at_ p (g ++ ts ++ g' ++ c :: rest) -> gap g -> gap g' -> kind_of c = K_LeftCurly -> takes parse_container_condition p (eq x) (g' ++ c :: rest).
Proof.
  intros x ts [name w K E N | y us Wy] p g g' c rest Ap G G' Kc; pose proof (solid_of _ _ Kc solid_left) as Sc; [exact (container_name_reads name w p g g' c rest K E N Ap G G' Kc) |].
  destruct (container_condition_reads src f y us Wy) as ((g0 & d & r & E & G0 & Sd & Kd) & _). assert (Ap' := Ap). rewrite E, <- app_assoc in Ap'. cbn [app] in Ap'. rewrite app_assoc in Ap'.
  unfold Reads.takes, parse_container_condition. rewrite (first_here src f p (g ++ g0) d _ Ap' (gap_app _ _ G G0) Sd). rewrite tok_not; [| rewrite Kd; discriminate | rewrite Kd; discriminate]. apply takes_map.
  assert (Wg : condition_written src (container_feature_written src) y (g ++ us)) by (exact (condition_gap2 _ _ _ G Wy)).
  destruct (container_condition_reads src f y (g ++ us) Wg) as (_ & H'). rewrite app_assoc in Ap. refine (takes_weaken src f _ _ _ _ _ _ _ (H' p g' c rest Ap G' Sc ltac:(rewrite Kc; discriminate))). intros z <-. reflexivity.
Qed.
Lemma selector_call_reads : forall function sel ts g1 paren p g rest, kind_of function = K_Function -> parse_str_lower function src = Some (chars "selector") -> list_laid src sel ts -> gap g1 -> kind_of paren = K_RightParen ->
  at_ p (g ++ function :: ts ++ g1 ++ paren :: rest) -> gap g -> forall B (k : supports_word * cursor -> P B) (k2 : supports_selectors -> cursor -> P B) Q rest', (forall p', k (SwSelector, function) p' = bind parse_selectors (fun selectors => bind (parse_kind K_RightParen) (k2 selectors)) p') ->
  (forall q, at_ q rest -> takes (k2 sel paren) q Q rest') -> takes (bind (parse_set K_Function SUPPORTS_FUNCTIONS) k) p Q rest'.
Proof.
  intros function sel ts g1 paren p g rest K E L G1 Kp Ap G B k k2 Q rest' Ek H. pose proof (solid_of _ _ K solid_function) as Sf.
  apply (takes_bind src f _ _ _ _ p (eq (SwSelector, function)) _ (ts ++ g1 ++ paren :: rest)); [exact (take_set src f _ SUPPORTS_FUNCTIONS K_Function p g function _ _ _ Ap G Sf K ltac:(discriminate) E eq_refl) |]. intros x q2 <- Aq2 _. unfold Reads.takes. rewrite Ek.
  apply (takes_bind src f _ _ _ _ q2 (eq sel) _ (g1 ++ paren :: rest)).
  - apply (takes_goes src f _ _ _ _ ts _ Aq2). apply (selectors_read src sel ts q2 (g1 ++ paren :: rest) L (at_src src f _ _ Aq2) (at_ready src f _ _ Aq2) (at_ahead src f _ _ Aq2)). right. exists g1, paren, rest. auto.
  - intros x q3 <- Aq3 _. apply (takes_bind src f _ _ _ _ q3 (eq paren) _ rest); [exact (take_kind src f K_RightParen q3 g1 paren rest Aq3 G1 Kp solid_paren) |]. intros x q4 <- Aq4 _. exact (H q4 Aq4).
Qed.
Lemma plain_declaration_reads : forall name g colon value u, kind_of name = K_Ident -> gap g -> kind_of colon = K_Colon -> value_written src name value u -> (forall w l, value <> SvKnown w l) -> forall p g0 g' c rest,
  at_ p (g0 ++ name :: g ++ colon :: u ++ g' ++ c :: rest) -> gap g0 -> gap g' -> kind_of c = K_RightParen -> takesg (parse_property VALUES) p (fun x => outline_property x = Property name colon value None) (c :: rest).
Proof.
  intros name g1 colon value u Kn G1 Kc Vw Nk p g g' c rest Ap G G' Kp. unfold parse_property. apply takesg_map. unfold declaration_t. pose proof (solid_of _ _ Kp solid_paren) as Sc.
  apply (takesg_bind2 src f _ _ _ _ p (eq name) _ (g1 ++ colon :: u ++ g' ++ c :: rest)); [exact (take_kind src f K_Ident p g name _ Ap G Kn solid_ident) |]. intros x q <- Aq _.
  apply (takesg_bind2 src f _ _ _ _ q (eq colon) _ (u ++ g' ++ c :: rest)); [exact (take_kind src f K_Colon q g1 colon _ Aq G1 Kc solid_colon) |]. intros x q2 <- Aq2 _.
  destruct (value_reads src f name value u Vw Kn q2 g' c rest Aq2 G' (or_introl (or_intror (conj Nk Kp)))) as (g'' & G'' & T). apply (takesg_bind2 src f _ _ _ _ q2 _ _ _ _ T). intros v q3 Ev Aq3 _.
  apply (takesg_takes src f _ _ _ _ g''); [exact G'' |]. apply (takes_bind src f _ _ _ _ q3 (eq None) _ (g'' ++ c :: rest)).
  - apply takes_if_not; [| exact Aq3 | reflexivity]. rewrite (peek_here src f _ q3 g'' c _ Aq3 G'' Sc). unfold peek_important. rewrite (tok_not K_Delim c); [reflexivity | rewrite Kp; discriminate | rewrite Kp; discriminate].
  - intros x q4 <- Aq4 _. apply takes_ret; [exact Aq4 |]. unfold outline_property, property_of. cbn [pr_name pr_colon pr_value pr_important]. rewrite Ev. reflexivity.
Qed.
Lemma supports_reads : forall x ts, supports_written src x ts -> opens_supports ts /\ forall p g rest, at_ p (g ++ ts ++ rest) -> gap g -> takes (parse_supports_condition VALUES) p (fun y => outline_query y = CIs x) rest.
Proof.
  intros x ts W. split.
  - destruct W as [function sel ts g paren K E L G Kp | open g0 function sel ts g paren g' close Ko G0 K E L G Kp G' Kc | open g0 name g colon value u g' close Ko G0 Kn G Kc Vw Nk G' Kp]; eexists _, _; (split; [reflexivity |]); [left; exact K | right; exact Ko | right; exact Ko].
  - intros p g0 rest Ap Gg. unfold parse_supports_condition.
    destruct W as [function sel ts g paren K E L G Kp | open g1 function sel ts g paren g' close Ko G1 K E L G Kp G' Kc | open g1 name g colon value u g' close Ko G1 Kn G Kc Vw Nk G' Kp]; cbn [app] in Ap; repeat (rewrite <- app_assoc in Ap; cbn [app] in Ap).
    + pose proof (solid_of _ _ K solid_function) as Sf. apply (takes_or src f _ _ _ _ p true); [rewrite (peek_here src f _ p g0 function _ Ap Gg Sf); cbn [any_peek]; unfold peek_kind at 1; rewrite (tok_kind K_Function _ K) by discriminate; reflexivity |].
      apply takes_map. unfold parse_supports_feature. apply (takes_bind src f _ _ _ _ p (eq None) _ (g0 ++ function :: ts ++ g ++ paren :: rest)); [apply (take_if_not_kind src f K_LeftParen p g0 function _ Ap Gg Sf); rewrite K; discriminate |]. intros y q <- Aq _.
      apply (takes_or src f _ _ _ _ q true); [rewrite (peek_kind_here src f K_Function q g0 function _ Aq Gg Sf), K; reflexivity |].
      apply (selector_call_reads function sel ts g paren q g0 rest K E L G Kp Aq Gg _ _ (fun selectors close => pmap (SfSelector None function selectors close) (ret None)) _ _ (fun _ => eq_refl)).
      intros q4 Aq4. apply takes_map. apply takes_ret; [exact Aq4 | reflexivity].
    + pose proof (solid_of _ _ K solid_function) as Sf. pose proof (solid_of _ _ Ko solid_open) as So. apply (takes_or src f _ _ _ _ p true); [rewrite (peek_here src f _ p g0 open _ Ap Gg So); cbn [any_peek]; unfold peek_kind; rewrite (tok_kind K_LeftParen _ Ko) by discriminate; destruct (tok_is (ctok open) K_Function); reflexivity |].
      apply takes_map. unfold parse_supports_feature. apply (takes_bind src f _ _ _ _ p (eq (Some open)) _ (g1 ++ function :: ts ++ g ++ paren :: g' ++ close :: rest)); [exact (take_if_kind src f K_LeftParen p g0 open _ Ap Gg Ko solid_open) |]. intros y q <- Aq _.
      apply (takes_or src f _ _ _ _ q true); [rewrite (peek_kind_here src f K_Function q g1 function _ Aq G1 Sf), K; reflexivity |].
      apply (selector_call_reads function sel ts g paren q g1 (g' ++ close :: rest) K E L G Kp Aq G1 _ _ (fun selectors close => pmap (SfSelector (Some open) function selectors close) (pmap Some (parse_kind K_RightParen))) _ _ (fun _ => eq_refl)).
      intros q4 Aq4. apply takes_map. apply takes_map. refine (takes_weaken src f _ _ _ _ _ _ _ (take_kind src f K_RightParen q4 g' close rest Aq4 G' Kc solid_paren)). intros y <-. reflexivity.
    + pose proof (solid_of _ _ Ko solid_open) as So. apply (takes_or src f _ _ _ _ p true); [rewrite (peek_here src f _ p g0 open _ Ap Gg So); cbn [any_peek]; unfold peek_kind; rewrite (tok_kind K_LeftParen _ Ko) by discriminate; destruct (tok_is (ctok open) K_Function); reflexivity |].
      apply takes_map. unfold parse_supports_feature. apply (takes_bind src f _ _ _ _ p (eq (Some open)) _ (g1 ++ name :: g ++ colon :: u ++ g' ++ close :: rest)); [exact (take_if_kind src f K_LeftParen p g0 open _ Ap Gg Ko solid_open) |]. intros y q <- Aq _.
      apply (takes_or src f _ _ _ _ q false); [rewrite (peek_kind_here src f K_Function q g1 name _ Aq G1 (name_solid _ Kn)), Kn; reflexivity |].
      apply (takesg_bind src f _ _ _ _ q _ _ (close :: rest) _ (plain_declaration_reads name g colon value u Kn G Kc Vw Nk q g1 g' close rest Aq G1 G' Kp)). intros g'' d q2 G'' Ed Aq2 _. apply takes_map.
      refine (takes_weaken src f _ _ _ _ _ _ _ (take_if_kind src f K_RightParen q2 g'' close rest Aq2 G'' Kp solid_paren)). intros y <-. cbn [outline_query outline_feature]. rewrite Ed. reflexivity.
Qed.
(* ---- @property ---- *)
Lemma unimportant_here : forall p g c rest, at_ p (g ++ c :: rest) -> gap g -> stops c -> takes (parse_if_peek peek_important parse_important) p (eq None) (g ++ c :: rest).
Proof. exact (unimportant_reads src f). Qed.
Lemma descriptor_reads : forall d t, descriptor_written src d t -> forall p g g' c rest, at_ p (g ++ t ++ g' ++ c :: rest) -> gap g -> gap g' -> stops c -> takes parse_registered p (eq d) (g' ++ c :: rest).
Proof.
  intros d t W p g g' c rest Ap G G' St. unfold parse_registered, declaration_t.
  destruct W as [name g1 colon g2 v Kn En G1 Kc G2 Iv | name g1 colon g2 string Kn En G1 Kc G2 Ks]; cbn [app] in Ap; repeat (rewrite <- app_assoc in Ap; cbn [app] in Ap).
  - apply (takes_bind src f _ _ _ _ p (eq (name, colon, PvInherits v, None)) _ (g' ++ c :: rest)); [| intros x q <- Aq _; apply takes_ret; [exact Aq | reflexivity]].
    apply (takes_bind src f _ _ _ _ p (eq name) _ (g1 ++ colon :: g2 ++ snd v :: g' ++ c :: rest)); [exact (take_kind src f K_Ident p g name _ Ap G Kn solid_ident) |]. intros x q <- Aq _.
    apply (takes_bind src f _ _ _ _ q (eq colon) _ (g2 ++ snd v :: g' ++ c :: rest)); [exact (take_kind src f K_Colon q g1 colon _ Aq G1 Kc solid_colon) |]. intros x q2 <- Aq2 _.
    destruct Iv as (Kv & w & Ew & Iw). pose proof (name_solid _ Kv) as Sv.
    apply (takes_bind src f _ _ _ _ q2 (eq (PvInherits v)) _ (g' ++ c :: rest)).
    + unfold Reads.takes, parse_registered_value, peek_set, build_set, look_up. rewrite (tok_kind K_Ident _ Kn), (at_src src f _ _ Aq2), En by discriminate. cbn [option_map]. change (map_get REGISTERED_NAMES (chars "inherits")) with (Some RwInherits).
      apply takes_map. unfold words in Iw. apply in_map_iff in Iw. destruct Iw as (w0 & E0 & I0). injection E0 as E1 E2. subst w0.
      pose proof (words_get INHERITS_VALUES w) as Gw. destruct (map_get (words INHERITS_VALUES) w) as [v0 |] eqn:Em; [| elim (Gw I0)]. destruct Gw as (-> & _).
      refine (takes_weaken src f _ _ _ _ _ _ _ (take_set src f _ (words INHERITS_VALUES) K_Ident q2 g2 (snd v) _ w w Aq2 G2 Sv Kv ltac:(discriminate) Ew Em)). intros y <-. rewrite E2. destruct v; reflexivity.
    + intros x q3 <- Aq3 _. apply (takes_bind src f _ _ _ _ q3 (eq None) _ (g' ++ c :: rest)); [exact (unimportant_here q3 g' c rest Aq3 G' St) |]. intros x q4 <- Aq4 _. apply takes_ret; [exact Aq4 | reflexivity].
  - apply (takes_bind src f _ _ _ _ p (eq (name, colon, PvSyntax string, None)) _ (g' ++ c :: rest)); [| intros x q <- Aq _; apply takes_ret; [exact Aq | reflexivity]].
    apply (takes_bind src f _ _ _ _ p (eq name) _ (g1 ++ colon :: g2 ++ string :: g' ++ c :: rest)); [exact (take_kind src f K_Ident p g name _ Ap G Kn solid_ident) |]. intros x q <- Aq _.
    apply (takes_bind src f _ _ _ _ q (eq colon) _ (g2 ++ string :: g' ++ c :: rest)); [exact (take_kind src f K_Colon q g1 colon _ Aq G1 Kc solid_colon) |]. intros x q2 <- Aq2 _.
    apply (takes_bind src f _ _ _ _ q2 (eq (PvSyntax string)) _ (g' ++ c :: rest)).
    + unfold Reads.takes, parse_registered_value, peek_set, build_set, look_up. rewrite (tok_kind K_Ident _ Kn), (at_src src f _ _ Aq2), En by discriminate. cbn [option_map]. change (map_get REGISTERED_NAMES (chars "syntax")) with (Some RwSyntax).
      apply takes_map. refine (takes_weaken src f _ _ _ _ _ _ _ (take_kind src f K_String q2 g2 string _ Aq2 G2 Ks solid_string)). intros y <-. reflexivity.
    + intros x q3 <- Aq3 _. apply (takes_bind src f _ _ _ _ q3 (eq None) _ (g' ++ c :: rest)); [exact (unimportant_here q3 g' c rest Aq3 G' St) |]. intros x q4 <- Aq4 _. apply takes_ret; [exact Aq4 | reflexivity].
Qed.
Lemma descriptor_name : forall d t, descriptor_written src d t -> outline_registered d = d /\ exists name r, t = name :: r /\ kind_of name = K_Ident.
Proof. intros d t [name g1 colon g2 v Kn _ _ _ _ _ | name g1 colon g2 string Kn _ _ _ _ _]; (split; [reflexivity |]); eexists _, _; (split; [reflexivity | exact Kn]). Qed.
Lemma registered_list_reads : forall l toks, descriptors_written src l toks -> forall n p close rest, at_ p (toks ++ close :: rest) -> kind_of close = K_RightCurly -> (length toks < n)%nat ->
  takes (decls_loop parse_registered n) p (eq (l, Some close)) rest.
Proof.
  intros l toks W. induction W as [g G | g d t g' G Dw G' | g d t g' semi l toks G Dw G' Ks W IH]; intros n p close rest Ap Kc Hn; (destruct n as [| n]; [lia |]).
  - exact (decls_end src f _ _ n p g close rest Ap G Kc).
  - rewrite <- !app_assoc in Ap. destruct (descriptor_name d t Dw) as (_ & name & r & Et & Kn). assert (Hn' : exists n', n = S n') by (destruct n as [| n']; [rewrite Et, !app_length in Hn; cbn [length] in Hn; lia | exists n'; reflexivity]). destruct Hn' as (n' & ->).
    assert (Ap' := Ap). rewrite Et in Ap'. cbn [app] in Ap'.
    apply (decls_step src f _ _ (S n') p g name _ (eq d) (g' ++ close :: rest) _ rest Ap' G (name_solid _ Kn)); [rewrite Kn; discriminate | apply (takesg_takes src f _ _ _ _ []); [constructor | exact (descriptor_reads d t Dw p g g' close rest Ap G G' (or_intror Kc))] |]. intros g'' x q G'' <- Aq. rewrite app_assoc in Aq.
    apply (takes_bind src f _ _ _ _ q (eq None) _ ((g'' ++ g') ++ close :: rest)); [apply (take_if_not_kind src f K_Semicolon q _ close rest Aq (gap_app _ _ G'' G') (solid_of _ _ Kc solid_right)); rewrite Kc; discriminate |]. intros o q2 <- Aq2 _. apply takes_map.
    refine (takes_weaken src f _ _ _ _ _ _ _ (decls_end src f _ _ n' q2 _ close rest Aq2 (gap_app _ _ G'' G') Kc)). intros y <-. reflexivity.
  - rewrite <- !app_assoc in Ap. cbn [app] in Ap. destruct (descriptor_name d t Dw) as (_ & name & r & Et & Kn). assert (Ap' := Ap). rewrite Et in Ap'. cbn [app] in Ap'.
    apply (decls_step src f _ _ n p g name _ (eq d) (g' ++ semi :: toks ++ close :: rest) _ rest Ap' G (name_solid _ Kn)); [rewrite Kn; discriminate | apply (takesg_takes src f _ _ _ _ []); [constructor | exact (descriptor_reads d t Dw p g g' semi _ Ap G G' (or_introl Ks))] |]. intros g'' x q G'' <- Aq. rewrite app_assoc in Aq.
    apply (takes_bind src f _ _ _ _ q (eq (Some semi)) _ (toks ++ close :: rest)); [exact (take_if_kind src f K_Semicolon q _ semi _ Aq (gap_app _ _ G'' G') Ks solid_semicolon) |]. intros o q2 <- Aq2 _. apply takes_map.
    assert (Hl : (length toks < n)%nat) by (rewrite !app_length in Hn; cbn [length] in Hn; lia). refine (takes_weaken src f _ _ _ _ _ _ _ (IH n q2 close rest Aq2 Kc Hl)). intros y <-. reflexivity.
Qed.
Lemma registered_outline : forall l toks, descriptors_written src l toks -> map (fun x => (outline_registered (fst x), snd x)) l = l.
Proof.
  intros l toks W. induction W as [g G | g d t g' G Dw G' | g d t g' semi l toks G Dw G' Ks W IH]; cbn [map fst snd]; [reflexivity | |]; destruct (descriptor_name d t Dw) as (E & _); rewrite E; [reflexivity | rewrite IH; reflexivity].
Qed.
Lemma registered_block_reads : forall l body, descriptors_written src l body -> forall p g open close rest, at_ p (g ++ open :: body ++ close :: rest) -> gap g -> kind_of open = K_LeftCurly -> kind_of close = K_RightCurly ->
  takes (declaration_list_t parse_registered) p (eq (open, l, Some close)) rest.
Proof.
  intros l body W p g open close rest Ap G Ko Kc. unfold declaration_list_t. apply (takes_bind src f _ _ _ _ p (eq open) _ (body ++ close :: rest)); [exact (take_kind src f K_LeftCurly p g open _ Ap G Ko solid_left) |]. intros x q <- Aq _. apply takes_map.
  assert (Hl : (length body < sfuel q)%nat) by (pose proof (sfuel_more q _ (at_ahead src f _ _ Aq)) as X; rewrite app_length in X; lia). refine (takes_weaken src f _ _ _ _ _ _ _ (registered_list_reads l body W (sfuel q) q close rest Aq Kc Hl)). intros y <-. reflexivity.
Qed.
(* ---- @document ---- *)
Lemma documents_read : item_reads src f (document_written src) parse_document_matcher.
Proof.
  assert (Hf : forall w m name a b c, url_call src name a b c -> map_get DOCUMENT_FUNCTIONS (chars name) = Some w -> (match (w, a) with (DwUrl, g) => DmUrlFunction g b c | (_, g) => DmUrlPrefix g b c end) = m ->
    forall ga gb, gap ga -> gap gb -> (exists c' r, a :: ga ++ b :: gb ++ [c] = c' :: r /\ solid c' /\ ~ ends_prelude c') /\
    forall p g g' d rest, at_ p (g ++ (a :: ga ++ b :: gb ++ [c]) ++ g' ++ d :: rest) -> gap g -> takes parse_document_matcher p (eq m) (g' ++ d :: rest)).
  { intros w m name a b c (Kf & Ef & Kb & Kc) Em E ga gb Ga Gb. pose proof (solid_of _ _ Kf solid_function) as Sf. split.
    - exists a, (ga ++ b :: gb ++ [c]). split; [reflexivity |]. split; [exact Sf | intros [X | X]; congruence].
    - intros p g g' d rest Ap G. cbn [app] in Ap. repeat (rewrite <- app_assoc in Ap; cbn [app] in Ap). unfold parse_document_matcher.
      apply (takes_or src f _ _ _ _ p false); [rewrite (peek_kind_here src f K_Url p g a _ Ap G Sf), Kf; reflexivity |].
      apply (takes_bind src f _ _ _ _ p (eq (w, a)) _ (ga ++ b :: gb ++ c :: g' ++ d :: rest)); [exact (take_set src f _ DOCUMENT_FUNCTIONS K_Function p g a _ _ _ Ap G Sf Kf ltac:(discriminate) Ef Em) |]. intros x q <- Aq _.
      apply (takes_bind src f _ _ _ _ q (eq b) _ (gb ++ c :: g' ++ d :: rest)); [exact (take_kind src f K_String q ga b _ Aq Ga Kb solid_string) |]. intros x q2 <- Aq2 _.
      apply (takes_bind src f _ _ _ _ q2 (eq c) _ (g' ++ d :: rest)); [exact (take_kind src f K_RightParen q2 gb c _ Aq2 Gb Kc solid_paren) |]. intros x q3 <- Aq3 _. apply takes_ret; [exact Aq3 | symmetry; exact E]. }
  intros x t W. destruct W as [c K | a ga b gb c U Ga Gb | a ga b gb c U Ga Gb].
  - assert (Su : solid_kind K_Url) by (repeat split; discriminate). pose proof (solid_of _ _ K Su) as Sc. split; [exists c, []; split; [reflexivity |]; split; [exact Sc | intros [X | X]; congruence] |].
    intros p g g' d rest Ap G G' Kd. cbn [app] in Ap. unfold parse_document_matcher. apply (takes_or src f _ _ _ _ p true); [rewrite (peek_kind_here src f K_Url p g c _ Ap G Sc), K; reflexivity |]. apply takes_map.
    refine (takes_weaken src f _ _ _ _ _ _ _ (take_kind src f K_Url p g c _ Ap G K Su)). intros y <-. reflexivity.
  - destruct (Hf DwUrl _ "url"%string a b c U eq_refl eq_refl ga gb Ga Gb) as (H1 & H2). split; [exact H1 |]. intros p g g' d rest Ap G _ _. exact (H2 p g g' d rest Ap G).
  - destruct (Hf DwUrlPrefix _ "url-prefix"%string a b c U eq_refl eq_refl ga gb Ga Gb) as (H1 & H2). split; [exact H1 |]. intros p g g' d rest Ap G _ _. exact (H2 p g g' d rest Ap G).
Qed.
Lemma raw_space : forall p c rest, at_ p (c :: rest) -> kind_of c = K_Whitespace -> takes parse_whitespace p (eq c) rest.
Proof.
  intros p c rest Ap K. assert (Sk : skips_comments p). { destruct Ap as (_ & R). pose proof (ready_skip p R) as Ek. unfold skips_comments. rewrite Ek. split; vm_compute; reflexivity. }
  destruct (parse_whitespace_ok p [] c rest (at_ahead src f _ _ Ap) (Forall_nil _) K Sk) as (q & E & T & A). exists c, q. split; [exact E |]. split; [reflexivity |]. pose proof (took_mode _ _ _ T) as S.
  assert (S' : same_mode p q) by exact S. split; [exact (at_moved src f p q [c] rest Ap A S') | exact S'].
Qed.
End Reads5.
