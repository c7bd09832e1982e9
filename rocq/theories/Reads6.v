(* Stylesheets are read: blocks, rules and sheets. *)
From Coq Require Import ZifyBool ZifyNat ZifyN.
From Coq Require Import String.
From Coq Require Import List Lia.
From Verif Require Import SpecWords SpecFeatures SyntaxProofs.
From Verif Require Tells DeclProofs.
From Verif Require Import LexTrace AstSheet Values SpecSheet SpecLex SpecTrace SpecParser SpecSyntax SpecTraits SpecRules KindProofs CursorProofs LexBase LexFacts ParserProofs ParserProofs3 CompareProofs
  ParserProofs2 FeatureProofs TraitsTotal SelectorProofs SelectorProofs2 SelectorProofs3 SelectorProofs9 SyntaxTotal SyntaxAccept Keeps RulesTotal SpecSelectors SpecConforms SpecTree SpecAccepts SpecDecl SpecRead SpecSelectorText SelectorGoes SelectorGoes2 SelectorGoes3 SelectorGoes5 SelectorGoes7 PropValues4 Reads Reads2 Reads3 Reads4 Reads5.
Open Scope N_scope.
Open Scope N_scope.
Open Scope list_scope.
Notation length := List.length.

Lemma gap_dec : forall ts : list cursor, (exists g c r, ts = g ++ c :: r /\ gap g /\ solid c) \/ gap ts.
Proof.
  induction ts as [| c ts [(g & d & r & -> & G & S) | G]].
  - right. apply Forall_nil.
  - destruct (kind_eq_dec (kind_of c) K_Whitespace) as [K | K]; [| destruct (kind_eq_dec (kind_of c) K_Comment) as [K' | K']].
    + left. exists (c :: g), d, r. split; [reflexivity |]. split; [apply gap_cons; [left; exact K | exact G] | exact S].
    + left. exists (c :: g), d, r. split; [reflexivity |]. split; [apply gap_cons; [right; exact K' | exact G] | exact S].
    + left. exists [], c, (g ++ d :: r). split; [reflexivity |]. split; [apply Forall_nil | intros [X | X]; contradiction].
  - destruct (kind_eq_dec (kind_of c) K_Whitespace) as [K | K]; [| destruct (kind_eq_dec (kind_of c) K_Comment) as [K' | K']].
    + right. apply gap_cons; [left; exact K | exact G].
    + right. apply gap_cons; [right; exact K' | exact G].
    + left. exists [], c, ts. split; [reflexivity |]. split; [apply Forall_nil | intros [X | X]; contradiction].
Qed.
Section Reads6.
Variable src : text.
Context {mod_ : mode}.
Variable f : feature.
Notation at_ := (at_ src f). Notation takes := (takes src f). Notation takesg := (takesg src f).
Arguments Reads.takes _ {mod_} _ {A}. Arguments Reads.takesg _ {mod_} _ {A}.

(* ---- whitespace between the items of a block or sheet ---- *)
Definition solid_first (cs : list cursor) : Prop := match cs with [] => True | c :: _ => solid c end.
Lemma white : forall g p cs, at_ p (g ++ cs) -> gap g -> solid_first cs ->
  (exists ws g', (length g' < length g)%nat /\ gap g' /\ takes if_whitespace p (eq (Some ws)) (g' ++ cs)) \/ takes if_whitespace p (eq None) (g ++ cs).
Proof.
  intros g p cs Ap G Sf. destruct (peek_ws_next p _ (at_ahead src f _ _ Ap)) as (sk & rest & E & F & St & _ & b & Eb & Hb).
  assert (W : forall d, ws_in (pskip p) d <-> kind_of d = K_Comment).
  { intro d. unfold ws_in. rewrite (at_skip src f _ _ Ap), trivia_kinds. unfold is_trivia, kind_of. destruct (kind_eq_dec (tkind (ctok d)) K_Comment) as [Q | Q]; [rewrite Q; intuition discriminate | intuition]. }
  destruct b.
  - left. pose proof (proj1 Hb eq_refl) as Kw. destruct rest as [| ws rest]; [discriminate Kw |]. cbn [hd_or_eof] in Kw.
    assert (H : exists g', g = sk ++ ws :: g' /\ rest = g' ++ cs).
    { clear - E F G Sf W Kw. revert g E G. induction sk as [| d sk IH]; intros [| e g] E G; cbn [app] in E.
      - subst cs. elim Sf. left. exact Kw.
      - injection E as E1 E2. subst e. exists g. split; [reflexivity | symmetry; exact E2].
      - subst cs. elim Sf. right. apply W. exact (Forall_inv F).
      - injection E as -> E. destruct (IH (Forall_inv_tail F) g E (Forall_inv_tail G)) as (g' & -> & ->). exists g'. split; reflexivity. }
    destruct H as (g' & -> & ->). assert (G' : gap g') by (apply Forall_app in G; destruct G as (_ & G); exact (Forall_inv_tail G)).
    exists ws, g'. split; [rewrite app_length; cbn [length]; lia |]. split; [exact G' |]. unfold if_whitespace. apply takes_if; [exact Eb |].
    assert (Sk : skips_comments p) by (unfold skips_comments; rewrite (at_skip src f _ _ Ap); split; vm_compute; reflexivity).
    assert (Fk : Forall (in_kinds KS_COMMENTS) sk). { refine (Forall_impl _ _ F). intros d Hd. apply comment_kinds. apply W. exact Hd. }
    rewrite <- app_assoc in Ap. cbn [app] in Ap. destruct (parse_whitespace_ok p sk ws (g' ++ cs) (at_ahead src f _ _ Ap) Fk Kw Sk) as (q & Ew & T & A). exists ws, q. split; [exact Ew |]. split; [reflexivity |]. pose proof (took_mode _ _ _ T) as S.
    rewrite split_one in Ap. split; [exact (at_moved src f p q (sk ++ [ws]) _ Ap A S) | exact S].
  - right. apply takes_if_not; [exact Eb | exact Ap | reflexivity].
Qed.

(* ---- blocks with declarations ---- *)
Notation block n nested m := (block_loop peek_declaration (parse_property VALUES) (css_rule_n VALUES n nested) m).
Definition has (ds : list (property * option cursor)) (rs : list css_rule) (items : list (item property css_rule)) : Prop := outline_declarations (item_decls items) = ds /\ map outline (item_rules items) = rs.
Lemma block_skip : forall R (rp : P R) m p ws mid (Q : list (item property R) -> Prop) rest, takes if_whitespace p (eq (Some ws)) mid -> (forall l, Q l -> Q (ISkip :: l)) ->
  (forall q, at_ q mid -> takesg (block_loop peek_declaration (parse_property VALUES) rp m) q Q rest) -> takesg (block_loop peek_declaration (parse_property VALUES) rp (S m)) p Q rest.
Proof.
  intros R rp m p ws mid Q rest T HQ K. cbn [block_loop]. apply (takesg_bind2 src f _ _ _ _ p (eq (Some ISkip)) _ mid).
  - unfold block_turn. apply (takes_bind src f _ _ _ _ p (eq (Some ws)) _ mid _ T). intros x q <- Aq _. apply takes_ret; [exact Aq | reflexivity].
  - intros x q <- Aq _. apply takesg_map. destruct (K q Aq) as (g & G & T'). exists g. split; [exact G |]. exact (takes_weaken src f _ _ _ _ _ _ HQ T').
Qed.
Lemma block_gap : forall R (rp : P R) (Q : list (item property R) -> Prop) c ts rest m0, solid c -> (forall l, Q l -> Q (ISkip :: l)) ->
  (forall m g q, gap g -> at_ q (g ++ c :: ts) -> takes if_whitespace q (eq None) (g ++ c :: ts) -> (m0 < m)%nat -> takesg (block_loop peek_declaration (parse_property VALUES) rp m) q Q rest) ->
  forall k g m p, (length g <= k)%nat -> gap g -> at_ p (g ++ c :: ts) -> (length g + m0 < m)%nat -> takesg (block_loop peek_declaration (parse_property VALUES) rp m) p Q rest.
Proof.
  intros R rp Q c ts rest m0 Sc HQ K. induction k as [| k IH]; intros g m p Hk G Ap Hm.
  - destruct g; [| cbn [length] in Hk; lia]. apply (K m [] p G Ap); [| lia]. destruct (white [] p (c :: ts) Ap G Sc) as [(ws & g' & L & _) | T]; [cbn [length] in L; lia | exact T].
  - destruct (white g p (c :: ts) Ap G Sc) as [(ws & g' & L & G' & T) | T]; [| apply (K m g p G Ap T); lia]. destruct m as [| m]; [lia |]. apply (block_skip _ _ m p ws _ _ _ T HQ). intros q Aq. apply (IH g' m q); [lia | exact G' | exact Aq | lia].
Qed.
Lemma has_skip : forall ds rs l, has ds rs l -> has ds rs (ISkip :: l).
Proof. intros ds rs l H. exact H. Qed.
Lemma block_close : forall R (rp : P R) m p g close rest, at_ p (g ++ close :: rest) -> gap g -> takes if_whitespace p (eq None) (g ++ close :: rest) -> kind_of close = K_RightCurly ->
  takesg (block_loop peek_declaration (parse_property VALUES) rp (S m)) p (eq []) (close :: rest).
Proof.
  intros R rp m p g close rest Ap G T K. pose proof (solid_of _ _ K solid_right) as Sc. apply (takesg_takes src f _ _ _ _ g _ G). cbn [block_loop]. apply (takes_bind src f _ _ _ _ p (eq None) _ (g ++ close :: rest)).
  - unfold block_turn. apply (takes_bind src f _ _ _ _ p (eq None) _ _ _ T). intros x q <- Aq _. apply (takes_bind src f _ _ _ _ q (eq None) _ (g ++ close :: rest)); [apply (take_if_not_kind src f K_Semicolon q g close rest Aq G Sc); rewrite K; discriminate |]. intros x q2 <- Aq2 _.
    unfold Reads.takes. rewrite (more_ahead src f q2 _ Aq2 (app_not_nil _ _ _)). apply (takes_or src f _ _ _ _ q2 true); [rewrite (peek_kind_here src f K_RightCurly q2 g close rest Aq2 G Sc), K; reflexivity |]. apply takes_ret; [exact Aq2 | reflexivity].
  - intros x q <- Aq _. apply takes_ret; [exact Aq | reflexivity].
Qed.
Lemma block_semi : forall R (rp : P R) m p g semi ts (Q : list (item property R) -> Prop) rest, at_ p (g ++ semi :: ts) -> gap g -> takes if_whitespace p (eq None) (g ++ semi :: ts) -> kind_of semi = K_Semicolon -> (forall l, Q l -> Q (ISkip :: l)) ->
  (forall q, at_ q ts -> takesg (block_loop peek_declaration (parse_property VALUES) rp m) q Q rest) -> takesg (block_loop peek_declaration (parse_property VALUES) rp (S m)) p Q rest.
Proof.
  intros R rp m p g semi ts Q rest Ap G T K HQ H. cbn [block_loop]. apply (takesg_bind2 src f _ _ _ _ p (eq (Some ISkip)) _ ts).
  - unfold block_turn. apply (takes_bind src f _ _ _ _ p (eq None) _ _ _ T). intros x q <- Aq _. apply (takes_bind src f _ _ _ _ q (eq (Some semi)) _ ts); [exact (take_if_kind src f K_Semicolon q g semi ts Aq G K solid_semicolon) |]. intros x q2 <- Aq2 _. apply takes_ret; [exact Aq2 | reflexivity].
  - intros x q <- Aq _. apply takesg_map. destruct (H q Aq) as (g1 & G1 & T'). exists g1. split; [exact G1 |]. exact (takes_weaken src f _ _ _ _ _ _ HQ T').
Qed.
(* a turn at a token that is none of these *)
Lemma block_go : forall R (rp : P R) m p g c ts (Qi : item property R -> Prop) (Q : list (item property R) -> Prop) rest, at_ p (g ++ c :: ts) -> gap g -> takes if_whitespace p (eq None) (g ++ c :: ts) -> solid c -> kind_of c <> K_Semicolon -> kind_of c <> K_RightCurly ->
  (forall p, at_ p (g ++ c :: ts) -> exists mid, takes (fun p =>
    match peek (peek_kind K_AtKeyword) (set_state p ST_NESTED) with
    | None => None
    | Some true => pmap (fun r => Some (IRule r)) (in_state ST_NESTED rp) p
    | Some false =>
        match try_parse_if_peek peek_declaration (parse_property VALUES) (set_state p ST_NESTED) with
        | None => None
        | Some (Ok (Some d), q) => pmap (fun semi => Some (IDecl d semi)) (if_kind K_Semicolon) (set_state q (pstate p))
        | Some (_, q) =>
            match rp q with
            | None => None
            | Some (Ok r, q') => Some (Ok (Some (IRule r)), set_state q' (pstate p))
            | Some (Err e, q') => Some (Err e, set_state q' (pstate p))
            end
        end
    end) p (fun o => exists i, o = Some i /\ Qi i) mid /\
  (forall i q, Qi i -> at_ q mid -> takesg (block_loop peek_declaration (parse_property VALUES) rp m) q (fun l => Q (i :: l)) rest)) -> takesg (block_loop peek_declaration (parse_property VALUES) rp (S m)) p Q rest.
Proof.
  intros R rp m p g c ts Qi Q rest Ap G T Sc N1 N2 H. cbn [block_loop]. destruct T as (x & q & Ex & <- & Aq & S). destruct (take_if_not_kind src f K_Semicolon q g c ts Aq G Sc N1) as (x & q2 & Ex2 & <- & Aq2 & S2).
  destruct (H q2 Aq2) as (mid & T & K). apply (takesg_bind2 src f _ _ _ _ p (fun o => exists i, o = Some i /\ Qi i) _ mid).
  - destruct T as (y & q3 & Ey & Hy & Aq3 & S3). exists y, q3. split; [| split; [exact Hy |]; split; [exact Aq3 | exact (mode_trans _ _ _ S (mode_trans _ _ _ S2 S3))]].
    unfold block_turn, bind. rewrite Ex, Ex2. rewrite (more_ahead src f q2 _ Aq2 (app_not_nil _ _ _)). unfold or_peek. rewrite (peek_kind_here src f K_RightCurly q2 g c ts Aq2 G Sc), (kind_not c _ N2). exact Ey.
  - intros x q3 (i & -> & Hi) Aq3 _. apply takesg_map. exact (K i q3 Hi Aq3).
Qed.
Lemma state_back : forall p q st cs, at_ q cs -> same_mode (set_state p st) q -> at_ (set_state q (pstate p)) cs /\ same_mode p (set_state q (pstate p)).
Proof. intros p q st cs Aq (S1 & S2 & S3 & S4 & S5). split; [apply at_state; exact Aq |]. split; [reflexivity |]. split; [exact S2 |]. split; [exact S3 |]. split; [exact S4 | exact S5]. Qed.
Lemma block_at_rule : forall R (rp : P R) m p g c ts Qr mid (Q : list (item property R) -> Prop) rest, at_ p (g ++ c :: ts) -> gap g -> takes if_whitespace p (eq None) (g ++ c :: ts) -> kind_of c = K_AtKeyword ->
  (forall q, at_ q (g ++ c :: ts) -> takes rp q Qr mid) -> (forall r q, Qr r -> at_ q mid -> takesg (block_loop peek_declaration (parse_property VALUES) rp m) q (fun l => Q (IRule r :: l)) rest) -> takesg (block_loop peek_declaration (parse_property VALUES) rp (S m)) p Q rest.
Proof.
  intros R rp m p g c ts Qr mid Q rest Ap G T Kc Hr K. pose proof (solid_of _ _ Kc solid_at) as Sc. apply (block_go _ _ m p g c ts (fun i => exists r, i = IRule r /\ Qr r) _ _ Ap G T Sc); [rewrite Kc; discriminate | rewrite Kc; discriminate |].
  intros q Aq. exists mid. split.
  - assert (Aq' := at_state src f q _ ST_NESTED Aq). unfold Reads.takes. rewrite (peek_kind_here src f K_AtKeyword _ g c ts Aq' G Sc), Kc. change (kind_eqb K_AtKeyword K_AtKeyword) with true. apply takes_map. apply takes_state. refine (takes_weaken src f _ _ _ _ _ _ _ (Hr _ Aq')). intros r H. exists (IRule r). split; [reflexivity |]. exists r. split; [reflexivity | exact H].
  - intros i q2 (r & -> & Hq) Aq2. exact (K r q2 Hq Aq2).
Qed.
Lemma not_declared : forall p g c ts, at_ p (g ++ c :: ts) -> gap g -> solid c -> (kind_of c = K_Ident -> exists g' d ts', ts = g' ++ d :: ts' /\ gap g' /\ solid d /\ kind_of d <> K_Colon) -> peek peek_declaration p = Some false.
Proof.
  intros p g c ts Ap G Sc H. rewrite (peek_here src f _ p g c ts Ap G Sc). unfold peek_declaration. assert (N : kind_of c <> K_Eof) by (apply (at_lasts src f p _ c Ap); apply in_or_app; right; left; reflexivity). destruct (kind_eq_dec (kind_of c) K_Ident) as [K | K].
  - rewrite (tok_kind K_Ident c K) by discriminate. destruct (H K) as (g' & d & ts' & E & G' & Sd & Nd). rewrite E in Ap. rewrite (second_here src f p g c g' d ts' Ap G Sc G' Sd), tok_not; [reflexivity | exact Nd |]. apply (at_lasts src f p _ d Ap). apply in_or_app. right. right. apply in_or_app. right. left. reflexivity.
  - rewrite (tok_not K_Ident c K N). reflexivity.
Qed.
Lemma block_style : forall R (rp : P R) m p g c ts Qr mid (Q : list (item property R) -> Prop) rest, at_ p (g ++ c :: ts) -> gap g -> takes if_whitespace p (eq None) (g ++ c :: ts) -> solid c -> kind_of c <> K_AtKeyword -> kind_of c <> K_Semicolon -> kind_of c <> K_RightCurly ->
  (kind_of c = K_Ident -> exists g' d ts', ts = g' ++ d :: ts' /\ gap g' /\ solid d /\ kind_of d <> K_Colon) ->
  (forall q, at_ q (g ++ c :: ts) -> takes rp q Qr mid) -> (forall r q, Qr r -> at_ q mid -> takesg (block_loop peek_declaration (parse_property VALUES) rp m) q (fun l => Q (IRule r :: l)) rest) -> takesg (block_loop peek_declaration (parse_property VALUES) rp (S m)) p Q rest.
Proof.
  intros R rp m p g c ts Qr mid Q rest Ap G T Sc N0 N1 N2 Hd Hr K. apply (block_go _ _ m p g c ts (fun i => exists r, i = IRule r /\ Qr r) _ _ Ap G T Sc N1 N2). intros q Aq. exists mid. split.
  - assert (Aq' := at_state src f q _ ST_NESTED Aq). unfold Reads.takes. rewrite (peek_kind_here src f K_AtKeyword _ g c ts Aq' G Sc), (kind_not c _ N0). unfold try_parse_if_peek. rewrite (not_declared _ g c ts Aq' G Sc Hd).
    destruct (Hr _ Aq') as (r & q2 & Er & H & Aq2 & S). rewrite Er. destruct (state_back q q2 ST_NESTED mid Aq2 S) as (A & S'). exists (Some (IRule r)), (set_state q2 (pstate q)). split; [reflexivity |]. split; [exists (IRule r); split; [reflexivity |]; exists r; split; [reflexivity | exact H] |]. split; [exact A | exact S'].
  - intros i q3 (r & -> & Hq) Aq3. exact (K r q3 Hq Aq3).
Qed.
(* the gap after a declaration is shorter than the declaration and the gap that was written after it *)
Lemma gap_after : forall pre g2 g n w (c : cursor) ts, pre ++ g2 ++ c :: ts = g ++ n :: w ++ c :: ts -> gap g2 -> solid n -> (length g2 <= length w)%nat.
Proof.
  intros pre g2 g n w c ts E G2 Sn. assert (E' : pre ++ g2 = g ++ n :: w) by (apply (app_inv_tail (c :: ts)); rewrite <- !app_assoc; exact E). clear E.
  revert g E'. induction pre as [| x pre IH]; intros g E; cbn [app] in E.
  - exfalso. apply Sn. rewrite E in G2. apply Forall_app in G2. destruct G2 as (_ & G2). exact (Forall_inv G2).
  - destruct g as [| y g]; cbn [app] in E; injection E as E1 E2.
    + assert (L : length (pre ++ g2) = length w) by (rewrite E2; reflexivity). rewrite app_length in L. lia.
    + exact (IH g E2).
Qed.
Lemma left_after : forall p x d q t g g' c ts g2, at_ p (g ++ t ++ g' ++ c :: ts) -> declaration_written src d t -> parse_property VALUES p = Some (Ok x, q) -> at_ q (g2 ++ c :: ts) -> gap g2 -> (length g2 < length t + length g')%nat.
Proof.
  intros p x d q t g g' c ts g2 Ap W E Aq G2. destruct (written_name src d t W) as (name & g1 & colon & u & -> & Kn & _).
  assert (On : Tells.onto src f p (g ++ (name :: g1 ++ colon :: u) ++ g' ++ c :: ts)).
  { split; [exact (at_src src f _ _ Ap) |]. split; [exact (proj1 (proj2 (proj1 Ap))) |]. split; [exact (at_ahead src f _ _ Ap) |]. intros k Hk. rewrite (at_skip src f _ _ Ap) in Hk. destruct k; try discriminate Hk; auto. }
  destruct (DeclProofs.property_spec src f p _ On (Ok x) q E) as (pre & r & Er & Oq & _). pose proof (ahead_det _ _ (at_ahead src f _ _ Aq) _ (proj1 (proj2 (proj2 Oq)))) as E2. subst r.
  assert (L : (length g2 <= length ((g1 ++ colon :: u) ++ g'))%nat). { apply (gap_after pre g2 g name _ c ts); [| exact G2 | exact (name_solid _ Kn)]. rewrite <- Er. cbn [app]. rewrite <- !app_assoc. reflexivity. }
  rewrite !app_length in L. cbn [length]. rewrite app_length. lia.
Qed.
Lemma block_decl : forall R (rp : P R) m p g d t g' c ts o (Q : list (item property R) -> Prop) rest, at_ p (g ++ t ++ g' ++ c :: ts) -> gap g -> takes if_whitespace p (eq None) (g ++ t ++ g' ++ c :: ts) -> declaration_written src d t -> gap g' ->
  (kind_of c = K_Semicolon /\ o = Some c \/ kind_of c = K_RightCurly /\ o = None) ->
  (forall mid x q, outline_property x = d -> at_ q mid -> (kind_of c = K_Semicolon /\ mid = ts \/ kind_of c = K_RightCurly /\ exists g2, gap g2 /\ mid = g2 ++ c :: ts /\ (length g2 < length t + length g')%nat) -> takesg (block_loop peek_declaration (parse_property VALUES) rp m) q (fun l => Q (IDecl x o :: l)) rest) ->
  takesg (block_loop peek_declaration (parse_property VALUES) rp (S m)) p Q rest.
Proof.
  intros R rp m p g d t g' c ts o Q rest Ap G T W G' Ho K. destruct (written_name src d t W) as (name & g1 & colon & u & Et & Kn & G1 & Kc). pose proof (name_solid _ Kn) as Sn.
  assert (St : stops c) by (destruct Ho as [(A & _) | (A & _)]; [left | right]; exact A). assert (Es : g ++ t ++ g' ++ c :: ts = g ++ name :: g1 ++ colon :: u ++ g' ++ c :: ts) by (rewrite Et; cbn [app]; rewrite <- app_assoc; reflexivity).
  rewrite Es in Ap, T. apply (block_go _ _ m p g name (g1 ++ colon :: u ++ g' ++ c :: ts) (fun i => exists x, i = IDecl x o /\ outline_property x = d) _ _ Ap G T Sn); [rewrite Kn; discriminate | rewrite Kn; discriminate |]. clear p Ap T. intros p Ap.
  assert (Ap' := at_state src f p _ ST_NESTED Ap). assert (Pd : peek peek_declaration (set_state p ST_NESTED) = Some true).
  { rewrite (peek_here src f _ _ g name _ Ap' G Sn). unfold peek_declaration. rewrite (tok_kind K_Ident _ Kn) by discriminate. rewrite (second_here src f _ g name g1 colon _ Ap' G Sn G1 (solid_of _ _ Kc solid_colon)), (tok_kind K_Colon _ Kc) by discriminate. reflexivity. }
  assert (Pa : peek (peek_kind K_AtKeyword) (set_state p ST_NESTED) = Some false) by (rewrite (peek_kind_here src f K_AtKeyword _ g name _ Ap' G Sn), Kn; reflexivity).
  rewrite <- Es in Ap'. destruct (property_reads src f d t W _ g g' c ts Ap' G G' St) as (g3 & G3 & x & q & Ex & Hx & Aq & S). pose proof (left_after _ x d q t g g' c ts g3 Ap' W Ex) as Lf0. assert (Lf : (length g3 < length t + length g')%nat) by exact (Lf0 Aq G3). clear Lf0. destruct (state_back p q ST_NESTED _ Aq S) as (A & S').
  assert (F : forall mid, takes (if_kind K_Semicolon) (set_state q (pstate p)) (eq o) mid -> (kind_of c = K_Semicolon /\ mid = ts \/ kind_of c = K_RightCurly /\ exists g2, gap g2 /\ mid = g2 ++ c :: ts /\ (length g2 < length t + length g')%nat) ->
    exists mid, takes (fun p =>
    match peek (peek_kind K_AtKeyword) (set_state p ST_NESTED) with
    | None => None
    | Some true => pmap (fun r => Some (IRule r)) (in_state ST_NESTED rp) p
    | Some false =>
        match try_parse_if_peek peek_declaration (parse_property VALUES) (set_state p ST_NESTED) with
        | None => None
        | Some (Ok (Some d), q) => pmap (fun semi => Some (IDecl d semi)) (if_kind K_Semicolon) (set_state q (pstate p))
        | Some (_, q) =>
            match rp q with
            | None => None
            | Some (Ok r, q') => Some (Ok (Some (IRule r)), set_state q' (pstate p))
            | Some (Err e, q') => Some (Err e, set_state q' (pstate p))
            end
        end
    end) p (fun y => exists i, y = Some i /\ exists x, i = IDecl x o /\ outline_property x = d) mid /\
    (forall i q, (exists x, i = IDecl x o /\ outline_property x = d) -> at_ q mid -> takesg (block_loop peek_declaration (parse_property VALUES) rp m) q (fun l => Q (i :: l)) rest)).
  { intros mid (y & q2 & Ey & <- & Aq2 & S2) Hm. exists mid. split.
    - exists (Some (IDecl x o)), q2. rewrite Pa. unfold try_parse_if_peek. rewrite Pd. unfold pmap at 1, bind at 1, try_parse. rewrite Ex. unfold ret at 1. unfold pmap, bind. rewrite Ey. split; [reflexivity |]. split; [exists (IDecl x o); split; [reflexivity |]; exists x; split; [reflexivity | exact Hx] |]. split; [exact Aq2 | exact (mode_trans _ _ _ S' S2)].
    - intros i q3 (z & -> & Hz) Aq3. exact (K mid z q3 Hz Aq3 Hm). }
  destruct Ho as [(K0 & ->) | (K0 & ->)].
  - apply (F ts); [exact (take_if_kind src f K_Semicolon _ g3 c ts A G3 K0 solid_semicolon) |]. left. split; [exact K0 | reflexivity].
  - apply (F (g3 ++ c :: ts)); [apply (take_if_not_kind src f K_Semicolon _ g3 c ts A G3 (solid_of _ _ K0 solid_right)); rewrite K0; discriminate |]. right. split; [exact K0 |]. exists g3. split; [exact G3 |]. split; [reflexivity |]. exact Lf.
Qed.
End Reads6.
