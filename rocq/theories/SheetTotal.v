(* Stylesheets: the results of Goes9.v for source texts. *)
From Coq Require Import ZifyBool ZifyNat ZifyN.
From Coq Require Import String.
From Coq Require Import List.
From Verif Require Import AstSheet SpecSheet SpecLex SpecTrace SpecParser SpecSyntax SpecTraits SpecFeatures SpecCursor SpecToken LexBase TokenProofs KindProofs LexFacts LexTrace CursorProofs CursorLex CursorFacts
  ParserProofs ParserProofs2 ParserProofs3 ParserProofs4 CompareProofs SyntaxProofs SyntaxTotal TraitsTotal RulesTotal FeatureProofs Goes Goes2 Goes3 Goes4 Goes5 Goes6 Goes7 Goes8 Goes9 SheetReadable.
Open Scope N_scope.
Open Scope list_scope.
Notation length := List.length.

Definition every (c : cursor) : Prop := True.
Lemma every_zone : forall cs, zone every every cs.
Proof. intros cs pre c rest _ _. exact Logic.I. Qed.
Lemma goes_out {mod_ : mode} : forall A src f (m : P A) k Q p cs, (forall n, goes src f every every n k m Q) -> stands src f p cs ->
  exists r q used rest, m p = Some (r, q) /\ cs = used ++ rest /\ stands src f q rest /\ match r with Ok a => (k <= length used)%nat /\ Q a | Err _ => True end.
Proof.
  intros A src f m k Q p cs Hm S. destruct (Hm (length cs) p cs S (every_zone cs) (le_n _)) as (r & q & E & X). destruct r as [a | e].
  - destruct X as ((u & c & Ec & L & _ & S' & _) & Qa). exists (Ok a), q, u, c. auto.
  - destruct X as (u & c & Ec & _ & S'). exists (Err e), q, u, c. auto.
Qed.
Lemma every_ok : forall c, kind_of c <> K_LeftCurly -> every c.
Proof. intros. exact Logic.I. Qed.
Lemma every_all : forall c, every c.
Proof. intros. exact Logic.I. Qed.
Section Sheets.
Variable props : properties.
Hypothesis props_ok : Forall (fun x => sensible (snd x)) props.
Lemma sheet_returns : forall src f p cs, stands_finished src f p cs -> exists r q used rest, parse_sheet props p = Some (r, q) /\ cs = used ++ rest /\ stands_finished src f q rest.
Proof.
  intros src f p cs S. destruct (goes_out _ src f _ 0 _ p cs (p_sheet src (eq_refl : @strict true = true) f every every every_ok every_all every_all props props_ok) S) as (r & q & u & rest & E & Ec & S' & _). eauto 10.
Qed.
Lemma rule_returns : forall src f p cs, stands_finished src f p cs -> exists r q used rest, parse_css_rule props p = Some (r, q) /\ cs = used ++ rest /\ stands_finished src f q rest /\ (forall a, r = Ok a -> used <> []).
Proof.
  intros src f p cs S. destruct (goes_out _ src f _ 1 _ p cs (p_css_rule src (eq_refl : @strict true = true) f every every every_ok every_all every_all props props_ok) S) as (r & q & u & rest & E & Ec & S' & X). exists r, q, u, rest. split; [exact E |]. split; [exact Ec |]. split; [exact S' |].
  intros a -> ->. cbn in X. lia.
Qed.
Lemma entirely_returns : forall src f p cs, stands_finished src f p cs -> exists ret q, parse_entirely (parse_sheet props) p = Some (ret, q).
Proof.
  intros src f p cs S. destruct (sheet_returns src f p cs S) as (r & q & u & rest & E & _ & (_ & _ & A & _)).
  destruct (Forall_Exists_dec (in_kinds (pskip q)) (fun c => Bool.bool_dec _ _) rest) as [F | F].
  - destruct (entirely_spec _ _ _ _ _ _ E A) as (q' & X & _). eexists _, _. exact (X F).
  - destruct (entirely_spec _ _ _ _ _ _ E A) as (q' & _ & X). eexists _, _. apply X. intro Y. apply Exists_exists in F. destruct F as (c & I & N). rewrite Forall_forall in Y. exact (N (Y c I)).
Qed.
End Sheets.

(* ---- examples of property values ---- *)
Definition keyword_value : P (list cursor) := pmap (fun c => [c]) (parse_kind K_Ident).
Lemma keyword_sensible : sensible keyword_value.
Proof.
  intros mod_ src f p cs S. assert (X : forall n, goes src f every every n 1 keyword_value (fun _ => True)).
  { intro n. eapply g_pmap_known. apply goes_kind; [intros; exact Logic.I | discriminate | intros; exact Logic.I]. }
  destruct (goes_out _ src f _ 1 _ p cs X S) as (r & q & u & rest & E & Ec & S' & _). eauto 10.
Qed.

(* ---- deciding the conditions on a text ---- *)
Definition is_unfinished (src : text) (c : cursor) : bool :=
  let w := match parse_str_lower c src with Some w => w | None => [] end in
  (kind_eqb (kind_of c) K_Function && (text_eqb w (chars "font-tech") || text_eqb w (chars "font-format"))).
Lemma finished : forall src c, is_unfinished src c = false -> ~ unfinished src c.
Proof.
  intros src c E (K & L). unfold is_unfinished in E. rewrite K in E. destruct L as [L | L]; rewrite L in E; discriminate E.
Qed.
Fixpoint containers_ok (src : text) (inside : bool) (cs : list cursor) : bool :=
  match cs with
  | [] => true
  | c :: r => negb (inside && kind_eqb (kind_of c) K_Function) &&
      containers_ok src (if kind_eqb (kind_of c) K_LeftCurly then false else
        if kind_eqb (kind_of c) K_AtKeyword && (match eq_ignore_ascii_case c src (chars "container") with Some true => true | _ => false end) then true else inside) r
  end.
Lemma containers_later : forall src a b r, containers_ok src b (a ++ r) = true -> exists b', containers_ok src b' r = true.
Proof. intros src a. induction a as [| c a IH]; intros b r E; [eauto |]. cbn [app containers_ok] in E. apply andb_prop in E. exact (IH _ _ (proj2 E)). Qed.
Lemma containers_inside : forall src a c r, containers_ok src true (a ++ c :: r) = true -> Forall (fun d => kind_of d <> K_LeftCurly) a -> kind_of c <> K_Function.
Proof.
  intros src a c r E F. induction F as [| d a Hd F IH]; cbn [app containers_ok] in E; apply andb_prop in E; destruct E as (E1 & E2).
  - intro K. rewrite K in E1. discriminate E1.
  - apply IH. destruct (kind_eqb (kind_of d) K_LeftCurly) eqn:X; [apply kind_eqb_eq in X; contradiction |]. destruct (_ && _) in E2; exact E2.
Qed.
Lemma containers_plain : forall src cs, containers_ok src false cs = true -> plain_containers src cs.
Proof.
  intros src cs E before at_ between c after -> K Eq F. destruct (containers_later _ _ _ _ E) as (b & X). cbn [containers_ok] in X. apply andb_prop in X. destruct X as (_ & X).
  rewrite K, Eq in X. change (kind_eqb K_AtKeyword K_LeftCurly) with false in X. change (kind_eqb K_AtKeyword K_AtKeyword) with true in X. cbn [andb] in X. exact (containers_inside _ _ _ _ X F).
Qed.
Fixpoint page_ok (cs : list cursor) : bool :=
  match cs with
  | [] => false
  | c :: r => kind_eqb (kind_of c) K_LeftCurly || (kind_eqb (kind_of c) K_Ident || kind_eqb (kind_of c) K_Colon || kind_eqb (kind_of c) K_Comma) && page_ok r
  end.
Fixpoint pages_ok (src : text) (cs : list cursor) : bool :=
  match cs with
  | [] => true
  | c :: r => (if kind_eqb (kind_of c) K_AtKeyword && (match eq_ignore_ascii_case c src (chars "page") with Some true => true | _ => false end) then page_ok r else true) && pages_ok src r
  end.
Lemma page_ok_spec : forall cs, page_ok cs = true -> exists between open rest, cs = between ++ open :: rest /\ kind_of open = K_LeftCurly /\ Forall (fun d => In (kind_of d) [K_Ident; K_Colon; K_Comma]) between.
Proof.
  induction cs as [| c cs IH]; intro E; [discriminate |]. cbn [page_ok] in E. destruct (kind_eqb (kind_of c) K_LeftCurly) eqn:K; [exists [], c, cs; apply kind_eqb_eq in K; auto |].
  rewrite orb_false_l in E. apply andb_prop in E. destruct E as (E1 & E2). destruct (IH E2) as (between & open & rest & -> & Ko & F). exists (c :: between), open, rest. split; [reflexivity |]. split; [exact Ko |]. constructor; [| exact F].
  apply orb_true_iff in E1. destruct E1 as [E1 | E1]; [apply orb_true_iff in E1; destruct E1 as [E1 | E1] |]; apply kind_eqb_eq in E1; rewrite E1; [left | right; left | right; right; left]; reflexivity.
Qed.
Lemma pages_plain : forall src cs, pages_ok src cs = true -> plain_pages src cs.
Proof.
  intros src cs E before. revert cs E. induction before as [| c before IH]; intros cs E at_ after -> K Eq; cbn [app pages_ok] in E; apply andb_prop in E; destruct E as (E1 & E2).
  - apply kind_eqb_eq in K. rewrite K, Eq in E1. exact (page_ok_spec _ E1).
  - exact (IH _ E2 at_ after eq_refl K Eq).
Qed.
Definition closed_b (src : text) (c : cursor) : bool :=
  negb (kind_eqb (kind_of c) K_Comment) ||
  match str_slice c src with
  | Some (a :: b :: w) => (a =? 47) && ((b =? 47) || ((b =? 42) && match rev w with x :: y :: _ => (x =? 47) && (y =? 42) | _ => false end))
  | _ => false
  end.
Lemma closed_spec : forall src c, closed_b src c = true -> kind_of c = K_Comment -> closed_comment src c.
Proof.
  intros src c E K. unfold closed_b in E. rewrite K in E. change (negb (kind_eqb K_Comment K_Comment)) with false in E. rewrite orb_false_l in E. destruct (str_slice c src) as [[| a [| b w]] |] eqn:Sl; try discriminate.
  exists (a :: b :: w). split; [exact Sl |]. apply andb_prop in E. destruct E as (Ea & E). apply N.eqb_eq in Ea. subst a. apply orb_true_iff in E. destruct E as [E | E]; [apply N.eqb_eq in E; subst; left; eauto |].
  apply andb_prop in E. destruct E as (Eb & E). apply N.eqb_eq in Eb. subst b. right. destruct (rev w) as [| x [| y v]] eqn:R; try discriminate. apply andb_prop in E. destruct E as (Ex & Ey). apply N.eqb_eq in Ex, Ey. subst x y.
  exists (rev v). f_equal. f_equal. rewrite <- (rev_involutive w), R. cbn [rev]. rewrite <- app_assoc. reflexivity.
Qed.
Definition text_ok (src : text) (f : feature) : bool :=
  ordinary src && forallb (fun c => negb (c =? 0) && valid_char c) src && (blen src <? 4096) &&
  match lex src f with
  | None => false
  | Some cs => forallb (fun c => closed_b src c && negb (is_unfinished src c)) cs && containers_ok src false cs && pages_ok src cs
  end.
Lemma text_ok_spec : forall src f, text_ok src f = true -> exists cs, acceptable src f cs.
Proof.
  intros src f E. unfold text_ok in E. apply andb_prop in E. destruct E as (E & E4). apply andb_prop in E. destruct E as (E & E3). apply andb_prop in E. destruct E as (E1 & E2).
  destruct (lex src f) as [cs |] eqn:L; [| discriminate]. apply andb_prop in E4. destruct E4 as (E4 & E6). apply andb_prop in E4. destruct E4 as (E4 & E5). exists cs. rewrite forallb_forall in E2, E4. apply N.ltb_lt in E3. unfold acceptable.
  split; [apply ordinary_spec; exact E1 |]. split; [intro I; specialize (E2 0 I); discriminate E2 |].
  split; [apply Forall_forall; intros c I; specialize (E2 c I); apply andb_prop in E2; apply E2 |]. split; [lia |].
  split; [intros a b ->; apply small_url_limits; rewrite blen_app in E3; lia |]. split; [exact L |].
  split; [apply Forall_forall; intros c I; specialize (E4 c I); apply andb_prop in E4; intro K; apply closed_spec; [apply E4 | exact K] |].
  split; [apply Forall_forall; intros c I; specialize (E4 c I); apply andb_prop in E4; apply finished; destruct (is_unfinished src c); [destruct E4; discriminate | reflexivity] |].
  split; [apply containers_plain; exact E5 | apply pages_plain; exact E6].
Qed.
(* the same without the conditions of a whole stylesheet *)
Definition text_read (src : text) (f : feature) : bool :=
  ordinary src && forallb (fun c => negb (c =? 0) && valid_char c) src && (blen src <? 4096) && match lex src f with None => false | Some cs => forallb (closed_b src) cs end.
Lemma text_read_spec : forall src f, text_read src f = true -> exists cs, readable_text src f cs.
Proof.
  intros src f E. unfold text_read in E. apply andb_prop in E. destruct E as (E & E4). apply andb_prop in E. destruct E as (E & E3). apply andb_prop in E. destruct E as (E1 & E2).
  destruct (lex src f) as [cs |] eqn:L; [| discriminate]. exists cs. rewrite forallb_forall in E2, E4. apply N.ltb_lt in E3. unfold readable_text.
  split; [apply ordinary_spec; exact E1 |]. split; [intro I; specialize (E2 0 I); discriminate E2 |].
  split; [apply Forall_forall; intros c I; specialize (E2 c I); apply andb_prop in E2; apply E2 |]. split; [lia |].
  split; [intros a b ->; apply small_url_limits; rewrite blen_app in E3; lia |]. split; [exact L |].
  apply Forall_forall; intros c I K; apply closed_spec; [exact (E4 c I) | exact K].
Qed.
