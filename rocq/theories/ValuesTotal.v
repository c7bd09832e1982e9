(* The logic of Goes.v for property values: every parser of VALUES returns and only moves forwards. *)
From Coq Require Import ZifyBool ZifyNat ZifyN.
From Coq Require Import String.
From Coq Require Import List.
From Verif Require Import AstSheet Values SpecSheet SpecLex SpecTrace SpecParser SpecSyntax SpecTraits SpecFeatures SpecCursor SpecToken LexBase TokenProofs KindProofs LexFacts LexTrace CursorProofs CursorLex
  ParserProofs ParserProofs2 ParserProofs3 ParserProofs4 CompareProofs SyntaxProofs SyntaxTotal TraitsTotal RulesTotal FeatureProofs Goes Goes2 Goes3 Goes4 Goes5 Goes6 Goes7 Goes8 Goes9 SheetReadable SheetTotal.
Open Scope N_scope.
Open Scope list_scope.
Notation length := List.length.

Section Logic.
Variable src : text.
Context {mod_ : mode}.
Variable f : feature.
Notation goes := (goes src f every every).
Notation st := (st src f every every).
Notation rv := (rv src f every every).
Notation lost := (lost src f).
Notation seen := (seen src).
Notation whole := (whole src f).
Notation top := (fun _ => True).
Definition gk {A} (k : nat) (m : P A) (Q : A -> Prop) : Prop := forall n, goes n k m Q.
Notation g0 m := (gk 0 m top).

Lemma lost_st : forall cs j q, lost cs j q -> st cs j q.
Proof. intros cs j q (u & c & E & L & S). exists u, c. split; [exact E |]. split; [exact L |]. split; [apply Forall_forall; intros; exact Logic.I |]. split; [exact S | apply every_zone]. Qed.
Lemma gk_bind : forall A B i j (m : P A) (g : A -> P B) Q R, gk i m Q -> (forall a, Q a -> gk j (g a) R) -> gk (i + j) (bind m g) R.
Proof.
  intros A B i j m g Q R Hm Hg n. begin. eapply do_bind; [st_ | apply Hm |]. intros a q Qa Sq. eapply do_goes; [st_ | apply (Hg a Qa) | lia | auto].
Qed.
Lemma gk_imp : forall A i j (m : P A) (Q R : A -> Prop), gk i m Q -> (j <= i)%nat -> (forall a, Q a -> R a) -> gk j m R.
Proof. intros A i j m Q R Hm L I n. eapply goes_imp; [apply Hm | exact L | exact I]. Qed.
Lemma gk_pmap : forall A B k (g : A -> B) (m : P A) Q (R : B -> Prop), gk k m Q -> (forall a, Q a -> R (g a)) -> gk k (pmap g m) R.
Proof. intros A B k g m Q R Hm I n. eapply goes_imp; [apply goes_pmap; apply Hm | lia |]. intros b (a & -> & Qa). auto. Qed.
Lemma gk_top : forall A B k (g : A -> B) (m : P A) Q, gk k m Q -> gk k (pmap g m) top.
Proof. intros. eapply gk_pmap; [eassumption | auto]. Qed.
Lemma gk_ret : forall A (a : A) (Q : A -> Prop), Q a -> gk 0 (ret a) Q.
Proof. intros A a Q q n. apply goes_ret; exact q. Qed.
Lemma gk_fail : forall A k e (Q : A -> Prop), gk k (fail e) Q.
Proof. intros A k e Q n. apply goes_fail. Qed.
Lemma gk_fail_text : forall A k code c (Q : A -> Prop), seen c -> gk k (fail_text code c) Q.
Proof. intros A k code c Q Sc n. apply goes_fail_text. exact Sc. Qed.
Lemma gk_or : forall A k c (m e : P A) Q, whole c -> gk k m Q -> gk k e Q -> gk k (or_peek c m e) Q.
Proof. intros A k c m e Q W Hm He n. begin. eapply do_or; [exact every_ok | st_ | exact W | intros; eapply do_goes; [st_ | apply Hm | lia | auto] | intros; eapply do_goes; [st_ | apply He | lia | auto]]. Qed.
Lemma gk_if : forall A k c (m : P A) Q, whole c -> gk k m Q -> gk 0 (parse_if_peek c m) (fun o => match o with Some a => Q a | None => True end).
Proof. intros A k c m Q W Hm n. eapply goes_if; [exact every_ok | exact W | apply Hm]. Qed.
Lemma gk_any : gk 0 Features.parse_any seen.
Proof. intro n. eapply goes_imp; [apply (p_any2 src f every every every_ok every_all every_all) | lia | intros c (X & _); exact X]. Qed.
Lemma gk_kind : forall k, k <> K_Eof -> gk 1 (parse_kind k) (fun c => seen c /\ kind_of c = k).
Proof. intros k N n. apply goes_kind; [intros; exact Logic.I | exact N | intros; exact Logic.I]. Qed.
Lemma gk_if_kind : forall k, k <> K_Eof -> gk 0 (if_kind k) (fun o => match o with Some c => seen c /\ kind_of c = k | None => True end).
Proof. intros k N. unfold if_kind. eapply gk_if; [apply whole_kind | apply gk_kind; exact N]. Qed.
Lemma gk_set : forall V k (m : list (text * V)), wordy k -> k <> K_Eof -> gk 1 (parse_set k m) (word_of src k m).
Proof. intros V k m W N n. apply goes_set; [intros; exact Logic.I | exact W | exact N | intros; exact Logic.I]. Qed.
Lemma gk_fuel : forall A k (F : nat -> P A) Q, (forall i m, (2 * i + 2 <= m)%nat -> goes i k (F m) Q) -> gk k (fun p => F (sfuel p) p) Q.
Proof. intros A k F Q X n. apply goes_fuel. intros i m _ M. apply X. exact M. Qed.
Lemma gk_peeked : forall A k (F : cursor -> P A) Q, (forall c, seen c -> gk k (F c) Q) -> gk k (fun p => match peek_n p 1 with None => None | Some c => F c p end) Q.
Proof. intros A k F Q X n. begin. go1. eapply do_goes; [st_ | apply X; exact Sc | lia | auto]. Qed.
Lemma gk_eq : forall A k c w (F : bool -> P A) Q, seen c -> wordy (kind_of c) -> (forall b, gk k (F b) Q) -> gk k (fun p => match eq_ignore_ascii_case c (lsrc (plex p)) w with None => None | Some b => F b p end) Q.
Proof. intros A k c w F Q Sc W X n. begin. go1; (eapply do_goes; [st_ | apply X | lia | auto]). Qed.

(* a token that stands for itself *)
Definition solo (k : peeker) : Prop := whole k /\ (forall p c, k p c = Some true -> ctok c = T_EOF -> False).
Lemma gk_one : forall k, solo k -> gk 1 (one k) top.
Proof.
  intros k (W & N). eapply gk_top. intro n. eapply goes_imp; [apply (goes_single src f every every (fun _ _ => Logic.I) cursor n k (fun c => c) W) | lia | intros; exact Logic.I].
  intros p c Sc T [E | E]; [destruct (N p c T E) |]. split; [exact E | exact Logic.I].
Qed.
Lemma gk_single : forall k, solo k -> gk 1 (parse_single k (fun c => c)) seen.
Proof.
  intros k (W & N) n. eapply goes_imp; [apply (goes_single src f every every (fun _ _ => Logic.I) cursor n k (fun c => c) W) | lia | intros a (c & p & -> & Sc & _); exact Sc].
  intros p c Sc T [E | E]; [destruct (N p c T E) |]. split; [exact E | exact Logic.I].
Qed.
Lemma eof_is : forall c k, ctok c = T_EOF -> k <> K_Eof -> tok_is (ctok c) k = false.
Proof. intros c k E N. rewrite E. apply tok_is_eof. exact N. Qed.
Lemma solo_kind : forall k, k <> K_Eof -> solo (peek_kind k).
Proof. intros k N. split; [apply whole_kind |]. intros p c T E. unfold peek_kind in T. rewrite (eof_is c k E N) in T. discriminate. Qed.
Lemma solo_delim : forall d, solo (peek_delim d).
Proof. intro d. split; [apply whole_delim |]. intros p c T E. unfold peek_delim in T. rewrite (eof_is c K_Delim E) in T by discriminate. discriminate. Qed.
Lemma solo_dashed : solo peek_dashed_ident.
Proof. split; [apply whole_dashed |]. intros p c T E. unfold peek_dashed_ident in T. rewrite (eof_is c K_Ident E) in T by discriminate. discriminate. Qed.
Lemma solo_set : forall V k (m : list (text * V)), wordy k -> k <> K_Eof -> solo (peek_set k m).
Proof. intros V k m W N. split; [apply whole_set; exact W |]. intros p c T E. unfold peek_set in T. rewrite (eof_is c k E N) in T. discriminate. Qed.
Lemma solo_dimension : forall u w, solo (peek_dimension u w).
Proof. intros u w. split; [apply whole_dimension |]. intros p c T E. unfold peek_dimension in T. rewrite (eof_is c K_Dimension E) in T by discriminate. discriminate. Qed.
Lemma solo_any : forall l, Forall solo l -> solo (any_peek l).
Proof.
  intros l F. split; [apply whole_any; eapply Forall_impl; [| exact F]; intros k (W & _); exact W |]. intros p c T E. induction F as [| k l (W & N) F IH]; [discriminate |]. cbn [any_peek] in T.
  destruct (k p c) as [[] |] eqn:Ek; [exact (N p c Ek E) | exact (IH T) | discriminate].
Qed.
Lemma solo_named : forall k w, wordy k -> k <> K_Eof -> solo (peek_named k w).
Proof.
  intros k w Wk N. split.
  - intros p cs c S Sc. unfold peek_named. destruct (tok_is (ctok c) k) eqn:T; [| discriminate]. destruct (eq_seen _ c w Sc (tok_worded _ _ T Wk)) as (b & E). destruct S as (-> & _). rewrite E. discriminate.
  - intros p c T E. unfold peek_named in T. rewrite (eof_is c k E N) in T. discriminate.
Qed.
Lemma solo_zero_or : forall k, solo k -> solo (fun p c => if tok_is (ctok c) K_Number && f32_is_zero (tvalue (ctok c)) then Some true else k p c).
Proof.
  intros k (W & N). split.
  - intros p cs c S Sc. destruct (_ && _); [discriminate | exact (W p cs c S Sc)].
  - intros p c T E. rewrite (eof_is c K_Number E) in T by discriminate. exact (N p c T E).
Qed.
Lemma solo_units : forall l, solo (any_peek (map (fun u => peek_dimension u (unit_str u)) l)).
Proof. intro l. apply solo_any. apply Forall_forall. intros k Ik. apply in_map_iff in Ik. destruct Ik as (u & <- & _). apply solo_dimension. Qed.
Lemma solo_length : solo peek_length.
Proof. exact (solo_zero_or _ (solo_units LENGTH_UNITS)). Qed.
Lemma solo_percent : solo peek_percent.
Proof. apply solo_dimension. Qed.
Lemma solo_lp : solo peek_length_percentage.
Proof.
  apply (solo_zero_or (any_peek (peek_percent :: map (fun u => peek_dimension u (unit_str u)) LENGTH_UNITS))). apply solo_any. apply Forall_cons; [exact solo_percent |].
  apply Forall_forall. intros k Ik. apply in_map_iff in Ik. destruct Ik as (u & <- & _). apply solo_dimension.
Qed.
Lemma solo_length_or_flex : solo peek_length_or_flex.
Proof. apply solo_any. apply Forall_cons; [apply solo_dimension |]. apply Forall_cons; [exact solo_lp | apply Forall_nil]. Qed.
Lemma solo_int : solo peek_int.
Proof. split; [apply w_int |]. intros p c T E. unfold peek_int in T. rewrite (eof_is c K_Number E) in T by discriminate. discriminate. Qed.
Lemma solo_float : solo peek_float.
Proof. split; [apply w_float |]. intros p c T E. unfold peek_float in T. rewrite (eof_is c K_Number E) in T by discriminate. discriminate. Qed.
Lemma solo_words : forall l, solo (peek_words l).
Proof. intro l. apply solo_set; [constructor | discriminate]. Qed.
Lemma solo_time : solo peek_time.
Proof. apply (solo_zero_or (peek_set K_Dimension (words TIME_UNITS))). apply solo_set; [constructor | discriminate]. Qed.
Lemma solo_angle : solo peek_angle.
Proof. apply solo_set; [constructor | discriminate]. Qed.
Lemma solo_opacity : solo peek_opacity.
Proof.
  destruct solo_percent as (W & N). split.
  - intros p cs c S Sc. unfold peek_opacity. destruct (_ && _); [discriminate |]. pose proof (W p cs c S Sc). destruct (peek_percent p c); [discriminate | exact H].
  - intros p c T E. unfold peek_opacity in T. rewrite (eof_is c K_Number E) in T by discriminate. cbn [andb] in T. destruct (peek_percent p c) as [[] |] eqn:Ep; [exact (N p c Ep E) | discriminate | discriminate].
Qed.

Ltac solo_ := lazymatch goal with
  | |- Forall _ [] => apply Forall_nil
  | |- Forall _ (_ :: _) => apply Forall_cons; [solo_ | solo_]
  | |- solo peek_length => exact solo_length
  | |- solo peek_length_percentage => exact solo_lp
  | |- solo peek_percent => exact solo_percent
  | |- solo peek_angle => exact solo_angle
  | |- solo peek_int => exact solo_int
  | |- solo peek_float => exact solo_float
  | |- solo peek_length_or_flex => exact solo_length_or_flex
  | |- solo peek_time => exact solo_time
  | |- solo peek_opacity => exact solo_opacity
  | |- solo peek_dashed_ident => exact solo_dashed
  | |- solo (peek_words _) => apply solo_words
  | |- solo (peek_delim _) => apply solo_delim
  | |- solo (peek_dimension _ _) => apply solo_dimension
  | |- solo (peek_named _ _) => apply solo_named; [constructor | discriminate]
  | |- solo (peek_set _ _) => apply solo_set; [constructor | discriminate]
  | |- solo (peek_kind _) => apply solo_kind; discriminate
  | |- solo (any_peek _) => apply solo_any; solo_
  end.
Ltac wh_ := match goal with |- Goes.whole src f ?k => let X := fresh in assert (X : solo k) by solo_; exact (proj1 X) end.
Lemma gk_opt : forall k, solo k -> g0 (opt k).
Proof. intros k S. unfold opt. apply gk_or; [apply S | eapply gk_imp; [apply gk_one; exact S | lia | auto] | apply gk_ret; exact Logic.I]. Qed.
Lemma gk_words : forall l, gk 1 (parse_words l) top.
Proof. intro l. unfold parse_words. eapply gk_top. apply gk_set; [constructor | discriminate]. Qed.
Lemma gk_opt_words : forall l, g0 (opt_words l).
Proof. intro l. unfold opt_words. apply gk_or; [wh_ | eapply gk_imp; [apply gk_words | lia | auto] | apply gk_ret; exact Logic.I]. Qed.
Lemma gk_order : forall l, Forall (fun m => g0 m) l -> g0 (in_order l).
Proof.
  intros l F. induction F as [| m l Hm F IH]; cbn [in_order]; [apply gk_ret; exact Logic.I |]. change 0%nat with (0 + 0)%nat. eapply gk_bind; [exact Hm |]. intros a _. eapply gk_top. exact IH.
Qed.
Lemma g01 : forall A (m : P A) Q, gk 1 m Q -> g0 m.
Proof. intros A m Q X. eapply gk_imp; [exact X | lia | auto]. Qed.
Lemma gk_close : g0 close_paren.
Proof. unfold close_paren. eapply gk_top. apply gk_if_kind. discriminate. Qed.
Lemma gk_unexpected_any : forall A k (Q : A -> Prop), gk k unexpected_any Q.
Proof. intros A k Q. unfold unexpected_any. change k with (0 + k)%nat. eapply gk_bind; [exact gk_any |]. intros c _. apply gk_fail. Qed.
Lemma gk_unexpected_ident : forall A k (Q : A -> Prop), gk k unexpected_ident Q.
Proof. intros A k Q. unfold unexpected_ident. change k with (0 + k)%nat. eapply gk_bind; [exact gk_any |]. intros c Sc. apply gk_fail_text. exact Sc. Qed.
Lemma gk_function_named : forall name rest, g0 rest -> gk 1 (function_named name rest) top.
Proof.
  intros name rest Hr. unfold function_named. change 1%nat with (1 + 0)%nat. eapply gk_bind; [apply gk_kind; discriminate |]. intros c (Sc & Kc).
  refine (_ : gk 0 (fun p => match eq_ignore_ascii_case c (lsrc (plex p)) name with None => None | Some true => pmap (cons c) rest p | Some false => fail_text E_UNEXPECTED_FUNCTION c p end) top).
  assert (X : gk 0 (fun p => match eq_ignore_ascii_case c (lsrc (plex p)) name with None => None | Some b => (if b then pmap (cons c) rest else fail_text E_UNEXPECTED_FUNCTION c) p end) top);
    [| intros n p cs S Z L; specialize (X n p cs S Z L); cbv beta in *; destruct (eq_ignore_ascii_case c (lsrc (plex p)) name) as [[] |]; exact X].
  apply gk_eq; [exact Sc | rewrite Kc; constructor |]. intros [|]; [eapply gk_top; exact Hr | apply gk_fail_text; exact Sc].
Qed.
Lemma gk_function_of : forall name inner, g0 inner -> gk 1 (function_of name inner) top.
Proof. intros name inner Hi. unfold function_of. apply gk_function_named. change 0%nat with (0 + 0)%nat. eapply gk_bind; [exact Hi |]. intros a _. eapply gk_top. exact gk_close. Qed.
Lemma gk_comma_items : forall item, g0 item -> forall m i, (i + 1 <= m)%nat -> goes i 0 (comma_items item m) top.
Proof.
  intros item Hi m. induction m as [| m IH]; intros i L; [lia |]. begin. cbn [comma_items]. eapply do_bind; [st_ | apply Hi |]. intros a q _ Sq.
  unfold bind at 1. unfold if_kind, parse_if_peek. destruct (peek_st _ _ _ _ (fun _ _ => Logic.I) _ _ _ (peek_kind K_Comma) Sq ltac:(apply whole_kind)) as (b & d & -> & Pn & Kd & Sd & _).
  destruct b; [| unfold ret; eapply rv_ok; [exact Sq | lia | exact Logic.I]].
  unfold pmap at 1. unfold bind at 1. destruct (do_call _ _ _ _ _ _ _ _ _ _ _ Sq (gk_kind K_Comma ltac:(discriminate) _)) as (r & q1 & -> & X). destruct r as [c | e]; [| eapply rv_err; exact X]. unfold ret at 1. cbv iota beta. destruct X as (Sq1 & _).
  apply rv_pmap. eapply rv_goes; [exact Sq1 | apply (IH (length cs - 1)%nat) | lia | lia | auto]. pose proof (st_len _ _ _ _ _ _ _ Sq1). lia.
Qed.
Lemma gk_comma : forall item, g0 item -> g0 (comma_separated item).
Proof. intros item Hi. unfold comma_separated. apply (gk_fuel _ 0 (fun m => comma_items item m)). intros i m L. apply gk_comma_items; [exact Hi | lia]. Qed.

(* ---- the named types ---- *)
Definition good (t : ty) : Prop := whole (ty_peek t) /\ g0 (ty_parse t).
Lemma good_token : forall k, solo k -> good (token_ty k).
Proof. intros k S. split; [apply S | eapply g01; apply gk_one; exact S]. Qed.
Lemma good_words : forall l, good (words_ty l).
Proof. intro l. split; [cbn [ty_peek words_ty]; wh_ | eapply g01; apply gk_words]. Qed.
Ltac order_ := apply gk_order; repeat first [apply Forall_nil | apply Forall_cons].
Lemma color_args : forall s, g0 (color_arguments s).
Proof.
  intro s. assert (C : solo peek_channel) by (unfold peek_channel; solo_). assert (Hh : solo peek_hue) by (unfold peek_hue; solo_).
  destruct s; cbn [color_arguments]; order_; first [eapply g01; apply gk_words | eapply g01; apply gk_one; assumption | apply gk_opt; assumption | apply gk_opt; solo_].
Qed.
Lemma gk_color_function : gk 1 parse_color_function top.
Proof. unfold parse_color_function. change 1%nat with (1 + 0)%nat. eapply gk_bind; [apply gk_set; [constructor | discriminate] |]. intros a _. eapply gk_top. order_; [apply color_args | apply gk_close]. Qed.

Lemma gk_if_bind : forall A B i j k c (m : P A) (g : option A -> P B) Q R, whole c -> gk i m Q -> (forall a, Q a -> gk j (g (Some a)) R) -> gk k (g None) R -> (k <= i + j)%nat -> gk k (bind (parse_if_peek c m) g) R.
Proof.
  intros A B i j k c m g Q R W Hm Hs Hn L n. begin. unfold bind at 1. unfold parse_if_peek. destruct (peek_st _ _ _ _ (fun _ _ => Logic.I) _ _ _ c S0 W) as (b & d & -> & Pn & Kd & Sd & _).
  destruct b; [| unfold ret; eapply do_goes; [st_ | apply Hn | lia | auto]].
  unfold pmap at 1. unfold bind at 1. destruct (do_call _ _ _ _ _ _ _ _ _ _ _ S0 (Hm _)) as (r & q & -> & X). destruct r as [a | e]; [| eapply rv_err; exact X]. unfold ret at 1. cbv iota beta. destruct X as (Sq & Qa).
  eapply do_goes; [st_ | apply (Hs a Qa) | lia | auto].
Qed.
Lemma gk_color : gk 1 parse_color top.
Proof.
  unfold parse_color. apply gk_or; [wh_ | apply gk_one; solo_ |]. apply gk_or; [wh_ | | apply gk_or; [unfold peek_color_function; wh_ | apply gk_color_function |]].
  - unfold parse_color_ident. apply (gk_peeked _ 1 (fun c => bind (parse_if_peek (peek_words COLOR_KEYWORDS) (parse_words COLOR_KEYWORDS)) _)). intros c _.
    eapply (gk_if_bind _ _ 1 0); [wh_ | apply gk_words | intros; apply gk_ret; exact Logic.I | | lia]. apply gk_or; [wh_ | apply gk_words | apply gk_words].
  - apply (gk_peeked _ 1 (fun c p => Some (Err (D_Other E_UNIMPLEMENTED c), p))). intros c _. apply (gk_fail _ 1).
Qed.
Lemma solo_color : solo peek_color.
Proof. unfold peek_color. solo_. Qed.
Lemma good_color : good COLOR.
Proof. split; [apply solo_color | eapply g01; exact gk_color]. Qed.
Lemma solo_pos : solo peek_pos.
Proof. unfold peek_pos. solo_. Qed.
Lemma tok_is_not : forall c k k', tok_is (ctok c) k = true -> kind_of c <> K_Eof -> k <> k' -> tok_is (ctok c) k' = false.
Proof.
  intros c k k' T K N. destruct (tok_is (ctok c) k') eqn:E; [| reflexivity]. exfalso. apply N. rewrite <- (proj1 (tok_is_kind _ _ (wf_of_kind _ K)) T). exact (proj1 (tok_is_kind _ _ (wf_of_kind _ K)) E).
Qed.
Lemma any_none : forall l p c, Forall (fun k : peeker => k p c = Some false) l -> any_peek l p c = Some false.
Proof. intros l p c F. induction F as [| k l E F IH]; [reflexivity |]. cbn [any_peek]. rewrite E. exact IH. Qed.
Lemma lp_not_ident : forall p c, tok_is (ctok c) K_Ident = true -> kind_of c <> K_Eof -> peek_length_percentage p c = Some false.
Proof.
  intros p c T K. unfold peek_length_percentage. rewrite (tok_is_not c K_Ident K_Number T K) by discriminate. rewrite andb_false_l. apply any_none.
  assert (X : forall u w, peek_dimension u w p c = Some false) by (intros u w; unfold peek_dimension; rewrite (tok_is_not c K_Ident K_Dimension T K) by discriminate; reflexivity).
  apply Forall_cons; [apply X |]. apply Forall_forall. intros k Ik. apply in_map_iff in Ik. destruct Ik as (u & <- & _). apply X.
Qed.
Lemma any_same : forall l p q c, Forall (fun k : peeker => k p c = k q c) l -> any_peek l p c = any_peek l q c.
Proof. intros l p q c F. induction F as [| k l E F IH]; [reflexivity |]. cbn [any_peek]. rewrite E, IH. reflexivity. Qed.
Lemma lp_same : forall p q c, lsrc (plex p) = lsrc (plex q) -> peek_length_percentage p c = peek_length_percentage q c.
Proof.
  intros p q c E. unfold peek_length_percentage. destruct (_ && _); [reflexivity |]. apply any_same. assert (X : forall u w, peek_dimension u w p c = peek_dimension u w q c) by (intros u w; unfold peek_dimension; rewrite E; reflexivity).
  apply Forall_cons; [apply X |]. apply Forall_forall. intros k Ik. apply in_map_iff in Ik. destruct Ik as (u & <- & _). apply X.
Qed.
Lemma gk_pos : gk 1 parse_pos (fun v => seen (snd v)).
Proof.
  intro n. unfold parse_pos. apply goes_built; [intros; exact Logic.I | apply solo_pos | |].
  - intros p c Sc T [E | E]; [destruct (proj2 solo_pos p c T E) |]. split; [exact E | exact Logic.I].
  - intros p q cs c Sq Sc T Ep K. unfold build_pos. unfold peek_pos in T. cbn [any_peek] in T.
    assert (Sq' : lsrc (plex q) = src) by apply Sq.
    destruct (tok_is (ctok c) K_Ident) eqn:Ti.
    + assert (T' : peek_words POSITION_KEYWORDS p c = Some true).
      { rewrite (lp_not_ident p c Ti K) in T. destruct (peek_words POSITION_KEYWORDS p c) as [[] |]; [reflexivity | discriminate | discriminate]. }
      destruct (build_seen _ _ _ _ _ _ _ _ _ Ep T' Sq) as (v & w & B & _). rewrite B. eexists. split; [reflexivity | exact Sc].
    + assert (El : peek_length_percentage p c = Some true).
      { destruct (peek_length_percentage p c) as [[] |]; [reflexivity | | discriminate]. unfold peek_words, peek_set in T. rewrite Ti in T. discriminate. }
      rewrite (lp_same p q c) in El by (rewrite Sq'; exact Ep). rewrite El. eexists. split; [reflexivity | exact Sc].
Qed.

Ltac bind1 := change 0%nat with (0 + 0)%nat; eapply gk_bind.
Lemma gk_position_four : forall a b, seen (snd b) -> g0 (position_four a b).
Proof.
  intros a b Sb. unfold position_four. destruct (_ || _); [apply gk_fail |]. bind1; [eapply gk_imp; [exact gk_pos | lia | intros v X; exact X] |]. intros c Sc. cbv beta in Sc.
  destruct (_ && _); [apply gk_fail_text; exact Sc |]. bind1; [eapply gk_imp; [apply gk_single; exact solo_lp | lia | intros v X; exact X] |]. intros d _.
  destruct (horizontal_keyword a); [destruct (vertical_keyword c); [apply gk_ret; exact Logic.I | apply gk_fail] |]. destruct (horizontal_keyword c); [| apply gk_fail]. destruct (vertical_keyword a); [apply gk_ret; exact Logic.I | apply gk_fail].
Qed.
Lemma gk_position : g0 parse_position.
Proof.
  unfold parse_position. bind1; [eapply gk_imp; [exact gk_pos | lia | intros v X; exact X] |]. intros a Sa. apply gk_or; [apply solo_pos | | apply gk_ret; exact Logic.I].
  bind1; [eapply gk_imp; [exact gk_pos | lia | intros v X; exact X] |]. intros b Sb. apply gk_or; [apply solo_pos | apply gk_position_four; exact Sb |].
  destruct (horizontal a); [destruct (vertical b); [apply gk_ret; exact Logic.I | apply gk_position_four; exact Sb] |]. destruct (horizontal b); [| apply gk_position_four; exact Sb]. destruct (vertical a); [apply gk_ret; exact Logic.I | apply gk_fail].
Qed.
Lemma gk_stops_loop : forall m i b, (i + 1 <= m)%nat -> goes i 0 (stops_loop m b) top.
Proof.
  intro m. induction m as [| m IH]; intros i b L; [lia |]. begin. cbn [stops_loop].
  assert (Hh : g0 (if b then or_peek peek_length_percentage (in_order [one peek_length_percentage; one (peek_kind K_Comma)]) (ret []) else ret [])).
  { destruct b; [| apply gk_ret; exact Logic.I]. apply gk_or; [wh_ | | apply gk_ret; exact Logic.I]. order_; eapply g01; apply gk_one; solo_. }
  eapply do_bind; [st_ | apply Hh |]. intros h q _ Sq. eapply do_bind; [st_ | apply gk_color |]. intros c q1 _ Sq1. eapply do_bind; [st_ | apply gk_opt; solo_ |]. intros l q2 _ Sq2.
  eapply do_bind; [st_ | apply gk_if_kind; discriminate |]. intros o q3 _ Sq3. destruct o as [o |]; [| eapply do_ret; [st_ | lia | exact Logic.I]].
  apply rv_pmap. pose proof (st_len _ _ _ _ _ _ _ Sq3). eapply rv_goes; [exact Sq3 | apply (IH (length cs - 1)%nat); lia | lia | lia | auto].
Qed.
Lemma gk_stops : g0 parse_stops.
Proof. unfold parse_stops. apply (gk_fuel _ 0 (fun m => stops_loop m false)). intros i m L. apply gk_stops_loop. lia. Qed.
Lemma solo_direction : solo peek_direction.
Proof. unfold peek_direction. solo_. Qed.
Lemma gk_direction : g0 parse_direction.
Proof.
  unfold parse_direction. apply gk_or; [wh_ | eapply g01; apply gk_one; solo_ |]. bind1; [eapply gk_imp; [apply (gk_kind K_Ident); discriminate | lia | intros v X; exact X] |]. intros c (Sc & Kc).
  assert (X : gk 0 (fun p => match eq_ignore_ascii_case c (lsrc (plex p)) (chars "to") with None => None | Some b => (if b then pmap (cons c) (in_order [parse_words DIRECTIONS; opt_words DIRECTIONS]) else fail_text E_UNEXPECTED_IDENT c) p end) top);
    [| intros n p cs S Z L; specialize (X n p cs S Z L); cbv beta in *; destruct (eq_ignore_ascii_case c (lsrc (plex p)) (chars "to")) as [[] |]; exact X].
  apply gk_eq; [exact Sc | rewrite Kc; constructor |]. intros [|]; [| apply gk_fail_text; exact Sc]. eapply gk_top. order_; [eapply g01; apply gk_words | apply gk_opt_words].
Qed.
Lemma solo_radial_size : solo peek_radial_size.
Proof. unfold peek_radial_size. solo_. Qed.
Lemma gk_radial_size : g0 parse_radial_size.
Proof.
  unfold parse_radial_size. apply gk_or; [wh_ | eapply g01; apply gk_words |]. apply gk_or; [wh_ | |].
  - bind1; [eapply g01; apply gk_one; solo_ |]. intros a _. apply gk_or; [wh_ | eapply gk_top; apply g01 with (Q := top); apply gk_one; solo_ | eapply g01; apply gk_one; solo_].
  - order_; eapply g01; apply gk_one; solo_.
Qed.
Lemma gk_radial_at : forall c, seen c -> g0 (radial_at c).
Proof.
  intros c Sc. unfold radial_at. destruct (tok_is (ctok c) K_Ident) eqn:T; [| apply (gk_ret _ [] top Logic.I)].
  assert (Y : g0 (in_order [one (peek_kind K_Ident); or_peek peek_pos parse_position (ret [])])).
  { order_; [eapply g01; apply gk_one; solo_ | apply gk_or; [apply solo_pos | apply gk_position | apply gk_ret; exact Logic.I]]. }
  assert (X : gk 0 (fun p => match eq_ignore_ascii_case c (lsrc (plex p)) (chars "at") with None => None | Some b => (if b then in_order [one (peek_kind K_Ident); or_peek peek_pos parse_position (ret [])] else ret []) p end) top);
    [| intros n p cs S Z L; specialize (X n p cs S Z L); cbv beta in *; destruct (eq_ignore_ascii_case c (lsrc (plex p)) (chars "at")) as [[] |]; exact X].
  apply gk_eq; [exact Sc | exact (tok_worded _ _ T ltac:(constructor)) |]. intros [|]; [exact Y | apply gk_ret; exact Logic.I].
Qed.
Lemma gk_radial : forall at_p, g0 at_p -> g0 (parse_radial at_p).
Proof.
  intros at_p Ha. unfold parse_radial. bind1; [eapply gk_imp; [eapply gk_if; [apply solo_radial_size | exact gk_radial_size] | lia | intros v X; exact X] |]. intros size _. bind1; [apply gk_opt_words |]. intros shape _.
  bind1; [destruct size; [apply gk_ret with (Q := top); exact Logic.I |]; destruct shape; [exact gk_radial_size | apply gk_ret; exact Logic.I] |]. intros s _. eapply gk_top. order_; [exact Ha | unfold opt_comma; apply gk_opt; solo_ | exact gk_stops | exact gk_close].
Qed.
Lemma solo_gradient : solo peek_gradient.
Proof. unfold peek_gradient. solo_. Qed.
Lemma gk_gradient : g0 parse_gradient.
Proof.
  unfold parse_gradient. bind1; [eapply gk_imp; [apply gk_set; [constructor | discriminate] | lia | intros v X; exact X] |]. intros a (Sa & _). eapply gk_top. destruct (fst a).
  - order_; [| exact gk_stops | exact gk_close]. apply gk_or; [apply solo_direction | | apply gk_ret; exact Logic.I]. order_; [exact gk_direction | unfold opt_comma; apply gk_opt; solo_].
  - apply gk_radial. apply (gk_peeked _ 0 radial_at). exact gk_radial_at.
  - apply gk_radial. exact (gk_radial_at _ Sa).
Qed.
Lemma good_image : good IMAGE.
Proof.
  split; cbn [ty_peek ty_parse IMAGE].
  - apply whole_any. apply Forall_cons; [wh_ |]. apply Forall_cons; [apply solo_gradient |]. apply Forall_cons; [wh_ | apply Forall_nil].
  - unfold parse_image. apply gk_or; [wh_ | eapply g01; apply gk_one; solo_ |]. apply gk_or; [apply solo_gradient | exact gk_gradient |]. eapply g01. apply gk_function_named. order_; eapply g01; apply gk_one; solo_.
Qed.
Lemma gk_stripe : gk 1 parse_stripe top.
Proof.
  unfold parse_stripe. eapply (gk_if_bind _ _ 1 0); [apply solo_color | exact gk_color | | | lia].
  - intros c _. bind1; [apply gk_opt; solo_ |]. intros t _. bind1; [apply gk_ret with (Q := top); exact Logic.I |]. intros c' _. eapply gk_top. unfold opt_comma. apply gk_opt. solo_.
  - change 1%nat with (0 + 1)%nat. eapply gk_bind; [apply gk_opt; solo_ |]. intros t _. change 1%nat with (1 + 0)%nat. eapply gk_bind; [exact gk_color |]. intros c' _. eapply gk_top. unfold opt_comma. apply gk_opt. solo_.
Qed.
Lemma gk_stripes_loop : forall m i, (i + 1 <= m)%nat -> goes i 0 (stripes_loop m) top.
Proof.
  intro m. induction m as [| m IH]; intros i L; [lia |]. begin. cbn [stripes_loop]. eapply do_or; [exact every_ok | st_ | wh_ | |].
  - intros. eapply do_goes; [st_ | eapply g01; apply gk_one; solo_ | lia | auto].
  - intros. eapply do_bind; [st_ | apply gk_stripe |]. intros s q _ Sq. apply rv_pmap. pose proof (st_len _ _ _ _ _ _ _ Sq). eapply rv_goes; [exact Sq | apply (IH (length cs - 1)%nat); lia | lia | lia | auto].
Qed.
Lemma good_image1d : good IMAGE_1D.
Proof.
  split; cbn [ty_peek ty_parse IMAGE_1D]; [wh_ |]. eapply g01. apply gk_function_named. unfold parse_stripes. apply (gk_fuel _ 0 stripes_loop). intros i m L. apply gk_stripes_loop. lia.
Qed.
Lemma gk_area_second : forall l r e, g0 e -> g0 (area_second l r e).
Proof. intros l r e He. unfold area_second. apply gk_or; [wh_ | | exact He]. order_; [eapply g01; apply gk_words | apply gk_opt_words]. Qed.
Lemma gk_area_swapped : forall l r e, g0 e -> g0 (area_swapped l r e).
Proof. intros l r e He. unfold area_swapped. apply gk_or; [wh_ | | exact He]. bind1; [eapply g01; apply gk_words |]. intros a _. eapply gk_top. apply gk_opt_words. Qed.
Lemma good_area : good POSITION_AREA.
Proof.
  split; cbn [ty_peek ty_parse POSITION_AREA].
  - apply whole_any. apply Forall_forall. intros k Ik. apply in_map_iff in Ik. destruct Ik as (l & <- & _). wh_.
  - unfold parse_area. repeat first [apply gk_area_second | apply gk_area_swapped]. apply gk_unexpected_any.
Qed.
Lemma good_iteration : good ITERATION_COUNT.
Proof.
  split; cbn [ty_peek ty_parse ITERATION_COUNT]; [wh_ |]. intro n. begin. unfold parse_iteration_count.
  destruct (peek_st _ _ _ _ (fun _ _ => Logic.I) _ _ _ (peek_kind K_Ident) S0 ltac:(apply whole_kind)) as (b & d & -> & Pn & Kd & Sd & _).
  destruct (peek_n_st _ _ _ _ (fun _ _ => Logic.I) _ _ _ 1 S0 ltac:(lia)) as (c & Pc & Sc). rewrite Pc. epose proof (peek_one src f every every every_ok every_all every_all _ _ _ _ S0 Pc) as E. rewrite Pn in E. apply some_inj in E. subst d.
  assert (X : g0 (bind (parse_single peek_float (fun c => c)) (fun c => if f32_lt (tvalue (ctok c)) 0 then fail (D_Other E_TOO_SMALL c) else ret [c]))).
  { bind1; [eapply gk_imp; [apply gk_single; solo_ | lia | intros v Y; exact Y] |]. intros e _. destruct (f32_lt _ _); [apply gk_fail | apply gk_ret; exact Logic.I]. }
  destruct b; [| eapply do_goes; [st_ | apply X | lia | auto]].
  go1; [eapply do_goes; [st_ | eapply g01; apply gk_one; solo_ | lia | auto] | eapply do_goes; [st_ | apply X | lia | auto]].
Qed.
Lemma good_repeat : good REPEAT_STYLE.
Proof.
  split; cbn [ty_peek ty_parse REPEAT_STYLE]; [wh_ |]. unfold parse_repeat_style. bind1; [eapply gk_imp; [apply (gk_kind K_Ident); discriminate | lia | intros v X; exact X] |]. intros c (Sc & Kc). intro n. begin.
  pattern (look_up (words REPEAT_AXES) p c). eapply do_look; [st_ | exact Sc | rewrite Kc; constructor |]. intros o _. destruct o; [eapply rv_ok; [st_ | lia | exact Logic.I] |].
  destruct (st_stands _ _ _ _ _ _ _ S0) as (cs' & Sp & _). pose proof (proj1 (solo_words (map chars REPETITIONS)) p cs' c Sp Sc) as W. destruct (peek_words (map chars REPETITIONS) p c) as [[] |]; [| | elim W; reflexivity].
  - eapply do_goes; [st_ | eapply gk_top; apply gk_opt_words | lia | auto].
  - eapply do_fail_text; [st_ | exact Sc].
Qed.
Lemma gk_mix_loop : forall m i, (i + 1 <= m)%nat -> goes i 0 (mix_loop m) top.
Proof.
  intro m. induction m as [| m IH]; intros i L; [lia |]. begin. cbn [mix_loop]. destruct (p_at_end p); [eapply rv_ok; [st_ | lia | exact Logic.I] |]. eapply do_or; [exact every_ok | st_ | wh_ | |].
  - intros. eapply do_goes; [st_ | eapply g01; apply gk_one; solo_ | lia | auto].
  - intros. eapply do_bind; [st_ | apply (gk_kind K_Ident); discriminate |]. intros s q _ Sq. eapply do_bind; [st_ | apply gk_single; solo_ |]. intros c q1 _ Sq1. destruct (negb _); [eapply do_fail; lost_ |].
    eapply do_bind; [st_ | unfold opt_comma; apply gk_opt; solo_ |]. intros o q2 _ Sq2. apply rv_pmap. pose proof (st_len _ _ _ _ _ _ _ Sq2). eapply rv_goes; [exact Sq2 | apply (IH (length cs - 1)%nat); lia | lia | lia | auto].
Qed.
Lemma good_mix : good RANGE_LIMIT_MIX.
Proof. split; cbn [ty_peek ty_parse RANGE_LIMIT_MIX]; [wh_ |]. eapply g01. apply gk_function_named. unfold parse_mix. apply (gk_fuel _ 0 mix_loop). intros i m L. apply gk_mix_loop. lia. Qed.
Lemma good_snap : forall name l, good (snap_ty name l).
Proof. intros name l. split; cbn [ty_peek ty_parse snap_ty]; [wh_ |]. eapply g01. apply gk_function_of. order_; [eapply g01; apply gk_one; solo_ | unfold opt_comma; apply gk_opt; solo_ | apply gk_opt_words]. Qed.
Lemma good_feature : good ANIMATEABLE_FEATURE.
Proof.
  split; cbn [ty_peek ty_parse ANIMATEABLE_FEATURE]; [wh_ |]. eapply gk_top. intro n. eapply goes_imp; [| lia | intros a X; exact X]. apply (goes_built src f every every (fun _ _ => Logic.I) _ n _ _ top).
  - apply whole_kind.
  - intros p c Sc T [E | E]; [destruct (proj2 (solo_kind K_Ident ltac:(discriminate)) p c T E) |]. split; [exact E | exact Logic.I].
  - intros p q cs c Sq Sc T Ep K. unfold peek_kind in T. apply some_inj in T. destruct (look_seen _ _ _ (words ANIMATEABLE) q cs c Sq Sc (tok_worded _ _ T ltac:(constructor))) as (o & ->). eexists. split; [reflexivity | exact Logic.I].
Qed.

(* ---- what the macro generates ---- *)
Section Generated.
Variable leaf : dtype -> ty.
Variable env : text -> option ty.
(* the type that must not be parsed, though it may be looked at *)
Variable bad : text.
Hypothesis leaf_good : forall t, good (leaf t).
Hypothesis env_good : forall w t, env w = Some t -> w <> bad -> good t.
Hypothesis bad_peeks : forall t, env bad = Some t -> whole (ty_peek t) /\ forall p c, ty_peek t p c = Some true -> tok_is (ctok c) K_Function = true.
Definition is_bad (t : dtype) : bool := match t with DCustom w => text_eqb w bad | _ => false end.
Fixpoint names_bad (d : def) : bool :=
  match d with
  | DType t => is_bad t
  | DFunction _ d | DOptional d | DGroup d _ | DMult d _ => names_bad d
  | DComb l _ => existsb names_bad l
  | DIdent _ | DPunct _ => false
  end.
(* it is named only as an alternative that comes after a function's *)
Fixpoint after_function (l : list def) : bool :=
  match l with
  | [] => true
  | DFunction _ d :: r => negb (names_bad d) && forallb (fun d => match d with DType _ => true | _ => negb (names_bad d) end) r
  | d :: r => negb (names_bad d) && after_function r
  end.
Definition def_ok (d : def) : bool :=
  negb (names_bad d) || match d with DComb l SAlternatives => after_function l && (2 <=? length (filter (fun d => negb (is_keyword d)) l))%nat && negb (takes_custom l) | _ => false end.
Lemma named_good : forall t x, type_named leaf env t = Some x -> is_bad t = false -> good x.
Proof.
  intros t x E B. destruct t; cbn [type_named] in E; try (apply some_inj in E; subst x; apply leaf_good). apply (env_good _ _ E). intros ->. cbn [is_bad] in B. rewrite text_eqb_refl in B. discriminate.
Qed.
Lemma named_whole : forall t x, type_named leaf env t = Some x -> whole (ty_peek x).
Proof. intros t x E. destruct (is_bad t) eqn:B; [| exact (proj1 (named_good t x E B))]. destruct t; try discriminate. apply text_eqb_spec in B. subst. cbn [type_named] in E. apply (bad_peeks x E). Qed.
Lemma gk_range : forall r cs, g0 (range_check r cs).
Proof. intros r cs. unfold range_check. destruct r; try (apply gk_ret; exact Logic.I); destruct (f32_lt _ _); first [apply gk_fail | apply gk_ret; exact Logic.I]. Qed.
Lemma steps_good : forall t m, type_steps leaf env t = Some m -> is_bad t = false -> g0 m.
Proof.
  intros t m E B. unfold type_steps in E. destruct (range_compiles _); [| discriminate]. destruct (type_named leaf env t) as [x |] eqn:Ex; [| discriminate]. apply some_inj in E. subst m. bind1; [apply (named_good t x Ex B) |]. intros a _. apply gk_range.
Qed.
Lemma peek_good : forall d k, def_peek leaf env d = Some k -> whole k.
Proof.
  intros d k E. assert (X : forall t, option_map ty_peek (type_named leaf env t) = Some k -> whole k).
  { intros t Et. destruct (type_named leaf env t) as [x |] eqn:Ex; [| discriminate]. apply some_inj in Et. subst k. exact (named_whole t x Ex). }
  destruct d as [w | w d | t | d | l s | d s | d m | c]; cbn [def_peek] in E; try discriminate; try (apply some_inj in E; subst k; apply whole_kind).
  - exact (X t E).
  - destruct d; try discriminate. exact (X _ E).
  - destruct d; try discriminate. exact (X _ E).
Qed.
Lemma alternative_good : forall d m, alternative_steps leaf env d = Some m -> names_bad d = false -> g0 m.
Proof.
  intros d m E B. destruct d as [w | w d | t | d | l s | d s | d x | c]; cbn [alternative_steps names_bad] in *; try discriminate.
  - destruct d as [| | t | | | | d x |]; try discriminate.
    + destruct (type_steps leaf env t) as [x |] eqn:Ex; [| discriminate]. apply some_inj in E. subst m. eapply g01. apply gk_function_of. exact (steps_good t x Ex B).
    + destruct d as [| | t | | | | |]; try discriminate. destruct x as [| | [] |]; try discriminate. destruct (type_steps leaf env t) as [x |] eqn:Ex; [| discriminate]. apply some_inj in E. subst m. eapply g01. apply gk_function_of. apply gk_comma. exact (steps_good t x Ex B).
  - exact (steps_good t m E B).
  - destruct d as [| | t | | | | |]; try discriminate. destruct x as [| | [] | []]; try discriminate; destruct (type_steps leaf env t) as [x |] eqn:Ex; try discriminate; apply some_inj in E; subst m.
    + apply gk_comma. exact (steps_good t x Ex B).
    + apply gk_order. apply Forall_forall. intros y Iy. apply repeat_spec in Iy. subst y. exact (steps_good t x Ex B).
Qed.
Lemma all_some_in : forall A (l : list (option A)) r, all_some l = Some r -> forall x, In x r -> In (Some x) l.
Proof. intros A l. induction l as [| [a |] l IH]; intros r E x I; cbn [all_some] in E; [apply some_inj in E; subst r; destruct I | | discriminate]. destruct (all_some l) as [r' |]; [| discriminate]. apply some_inj in E. subst r. destruct I as [-> | I]; [now left | right; exact (IH r' eq_refl x I)]. Qed.
Lemma all_some_cons : forall A (a : option A) l r, all_some (a :: l) = Some r -> exists x r', a = Some x /\ all_some l = Some r' /\ r = x :: r'.
Proof. intros A a l r E. cbn [all_some] in E. destruct a as [x |]; [| discriminate]. destruct (all_some l) as [r' |]; [| discriminate]. apply some_inj in E. exists x, r'. auto. Qed.
(* alternatives tried in order; one after a function's that itself begins with a function is not reached *)
Lemma one_of_after : forall l ks ms, forallb (fun d => match d with DType _ => true | _ => negb (names_bad d) end) l = true ->
  all_some (map (def_peek leaf env) l) = Some ks -> all_some (map (alternative_steps leaf env) l) = Some ms ->
  forall n p cs, st cs 0 p -> (length cs <= n)%nat -> (forall c, peek_next p = Some c -> tok_is (ctok c) K_Function = false) -> rv cs 0 top (one_of (List.combine ks ms) p).
Proof.
  intro l. induction l as [| d l IH]; intros ks ms F Ek Em n p cs S L N.
  - apply some_inj in Ek, Em. subst ks ms. cbn [List.combine one_of]. eapply do_goes; [exact S | apply (gk_unexpected_any _ 0 top) | lia | auto].
  - cbn [map] in Ek, Em. destruct (all_some_cons _ _ _ _ Ek) as (k & ks' & Ek1 & Ek2 & ->). destruct (all_some_cons _ _ _ _ Em) as (m & ms' & Em1 & Em2 & ->). cbn [forallb] in F. apply andb_prop in F. destruct F as (F1 & F2). cbn [List.combine one_of].
    eapply do_or; [exact every_ok | exact S | exact (peek_good d k Ek1) | | intros; exact (IH ks' ms' F2 Ek2 Em2 n p cs S L N)].
    intros c Pn Sc Kc _. destruct (names_bad d) eqn:B; [exfalso | eapply do_goes; [exact S | apply (alternative_good d m Em1 B) | lia | auto]].
    destruct d; try discriminate. cbn [names_bad] in B. destruct t; try discriminate. apply text_eqb_spec in B. subst name. cbn [def_peek type_named] in Ek1. destruct (env bad) as [x |] eqn:Ex; [| discriminate]. apply some_inj in Ek1. subst k.
    pose proof (proj2 (bad_peeks x eq_refl) p c Kc) as T. rewrite (N c Pn) in T. discriminate.
Qed.
Lemma one_of_good : forall l ks ms, after_function l = true -> all_some (map (def_peek leaf env) l) = Some ks -> all_some (map (alternative_steps leaf env) l) = Some ms -> g0 (one_of (List.combine ks ms)).
Proof.
  intro l. induction l as [| d l IH]; intros ks ms F Ek Em.
  - apply some_inj in Ek, Em. subst ks ms. cbn [List.combine one_of]. apply gk_unexpected_any.
  - cbn [map] in Ek, Em. destruct (all_some_cons _ _ _ _ Ek) as (k & ks' & Ek1 & Ek2 & ->). destruct (all_some_cons _ _ _ _ Em) as (m & ms' & Em1 & Em2 & ->). cbn [List.combine one_of]. cbn [after_function] in F.
    assert (X : negb (names_bad d) = true /\ (after_function l = true \/ (exists w e, d = DFunction w e /\ forallb (fun d => match d with DType _ => true | _ => negb (names_bad d) end) l = true))).
    { destruct d; apply andb_prop in F; destruct F as (F1 & F2); (split; [exact F1 |]); first [left; exact F2 | right; eexists _, _; split; [reflexivity | exact F2]]. }
    destruct X as (X1 & [X2 | (w & e & -> & X2)]).
    + apply gk_or; [exact (peek_good d k Ek1) | apply (alternative_good d m Em1); destruct (names_bad d); [discriminate | reflexivity] | exact (IH ks' ms' X2 Ek2 Em2)].
    + intro n. begin. eapply do_or; [exact every_ok | exact S0 | exact (peek_good _ k Ek1) | |].
      * intros. eapply do_goes; [exact S0 | apply (alternative_good _ m Em1); destruct (names_bad _); [discriminate | reflexivity] | lia | auto].
      * intros c Pn Sc Kc. cbn [def_peek] in Ek1. apply some_inj in Ek1. subst k. apply (one_of_after l ks' ms' X2 Ek2 Em2 n p cs S0 L0). intros c' Pn'. rewrite Pn in Pn'. apply some_inj in Pn'. subst c'. unfold peek_kind in Kc. apply some_inj in Kc. exact Kc.
Qed.
Lemma after_filter : forall l, after_function l = true -> after_function (filter (fun d => negb (is_keyword d)) l) = true.
Proof.
  intro l. induction l as [| d l IH]; intro E; [reflexivity |]. cbn [filter]. destruct d as [w | w d | t | d | m s | d s | d m | c]; cbn [is_keyword negb]; cbn [after_function] in E |- *; apply andb_prop in E; destruct E as (E1 & E2); try (rewrite E1; exact (IH E2)); try exact (IH E2).
  - rewrite E1. cbn [andb]. rewrite forallb_forall in E2 |- *. intros x Ix. apply filter_In in Ix. exact (E2 x (proj1 Ix)).
  - destruct t; cbn [negb]; cbn [after_function]; rewrite ?E1; exact (IH E2).
Qed.
Lemma alternatives_good : forall l m, def_ok (DComb l SAlternatives) = true -> alternatives leaf env l = Some m -> g0 m.
Proof.
  intros l m B E. unfold alternatives in E. set (others := filter (fun d => negb (is_keyword d)) l) in *.
  destruct (all_some (map (def_peek leaf env) others)) as [ks |] eqn:Ek; [| discriminate]. destruct (all_some (map (alternative_steps leaf env) others)) as [ms |] eqn:Em; [| discriminate].
  assert (Lm : length ms = length others).
  { clearbody others. clear -Em. revert ms Em. induction others as [| d l1 IH]; intros ms Em; [apply some_inj in Em; subst; reflexivity |]. cbn [map] in Em. destruct (all_some_cons _ _ _ _ Em) as (x & r & _ & E & ->). cbn [List.length]. rewrite (IH r E). reflexivity. }
  assert (A : after_function others = true).
  { apply after_filter. unfold def_ok in B. apply orb_true_iff in B. destruct B as [B | B]; [| apply andb_prop in B; destruct B as (B & _); apply andb_prop in B; apply B].
    clear -B. cbn [names_bad] in B. induction l as [| d l IH]; [reflexivity |]. cbn [existsb] in B. rewrite negb_orb in B. apply andb_prop in B. destruct B as (B1 & B2). specialize (IH B2).
    destruct d; cbn [after_function] in *; rewrite ?B1; cbn [names_bad] in B1; rewrite ?B1; try exact IH. cbn [andb]. clear -B2. induction l as [| d l IH]; [reflexivity |]. cbn [existsb] in B2. rewrite negb_orb in B2. apply andb_prop in B2. destruct B2 as (B1 & B2). cbn [forallb]. rewrite (IH B2), andb_true_r. destruct d; try reflexivity; exact B1. }
  set (rest := if takes_custom l then one (peek_kind K_Ident) else match ms with [] => unexpected_ident | [m] => m | _ => one_of (List.combine ks ms) end) in *.
  assert (R : g0 rest).
  { subst rest. destruct (takes_custom l); [eapply g01; apply gk_one; solo_ |]. destruct ms as [| m1 [| m2 ms]]; [apply gk_unexpected_ident | | exact (one_of_good others ks _ A Ek Em)].
    destruct others as [| d [| d2 r]] eqn:Eo; try discriminate. cbn [map all_some] in Em. destruct (alternative_steps leaf env d) as [m1' |] eqn:Ed; [| discriminate]. injection Em as ->.
    apply (alternative_good d m1 Ed). destruct (names_bad d) eqn:Bd; [| reflexivity]. exfalso.
    destruct d; cbn [after_function names_bad] in *; rewrite ?Bd in A; discriminate. }
  destruct (existsb is_keyword l); [| apply some_inj in E; subst m; exact R]. destruct (keywords_of l) as [| w ws]; [discriminate |]. apply some_inj in E. subst m.
  eapply (gk_if_bind _ _ 1 0); [wh_ | apply gk_set; [constructor | discriminate] | intros a _; apply gk_ret; exact Logic.I | exact R | lia].
Qed.
Lemma field_good : forall d m, field_steps leaf env d = Some m -> names_bad d = false -> g0 m.
Proof.
  intros d m E B. destruct d as [w | w d | t | d | l s | d s | d x | c]; cbn [field_steps names_bad] in *; try discriminate; [exact (steps_good t m E B) |].
  destruct d as [| | t | | | | |]; try discriminate. destruct (type_named leaf env t) as [x |] eqn:Ex; [| discriminate]. apply some_inj in E. subst m. unfold if_ty. destruct (named_good t x Ex B) as (X1 & X2). apply gk_or; [exact X1 | exact X2 | apply gk_ret; exact Logic.I].
Qed.
Lemma ordered_good : forall l t, ordered_ty leaf env l = Some t -> existsb names_bad l = false -> good t.
Proof.
  intros l t E B. unfold ordered_ty in E. destruct l as [| d l]; [discriminate |]. destruct (all_some (map (field_steps leaf env) (d :: l))) as [ms |] eqn:Em; [| discriminate]. destruct (def_peek leaf env d) as [k |] eqn:Ek; [| discriminate]. apply some_inj in E. subst t.
  split; cbn [ty_peek ty_parse]; [exact (peek_good d k Ek) |]. apply gk_order. apply Forall_forall. intros m Im. pose proof (all_some_in _ _ _ Em m Im) as X. apply in_map_iff in X. destruct X as (e & Ee & Ie). apply (field_good e m Ee).
  destruct (names_bad e) eqn:Be; [| reflexivity]. exfalso. assert (Y : existsb names_bad (d :: l) = true) by (apply existsb_exists; eauto). rewrite Y in B. discriminate.
Qed.
Lemma fill_good : forall l, Forall (fun x => good (fst x)) l -> gk 0 (fill_field l) (fun o => match o with Some l' => Forall (fun x => good (fst x)) l' /\ length (filter (fun x => match snd x with None => true | Some _ => false end) l') < length (filter (fun x => match snd x with None => true | Some _ => false end) l) | None => True end)%nat.
Proof.
  intros l F. induction F as [| (t & o) l (G1 & G2) F IH]; cbn [fill_field]; [apply gk_ret; exact Logic.I |]. cbn [fst] in G1, G2. destruct o as [cs |].
  - eapply gk_pmap; [exact IH |]. intros [l' |]; [| intros _; exact Logic.I]. cbn [option_map filter snd]. intros (X & Y). split; [apply Forall_cons; [split; assumption | exact X] | exact Y].
  - apply gk_or; [exact G1 | |].
    + eapply gk_pmap; [exact G2 |]. intros cs _. cbn [filter snd List.length]. split; [apply Forall_cons; [split; assumption | exact F] | lia].
    + eapply gk_pmap; [exact IH |]. intros [l' |]; [| intros _; exact Logic.I]. cbn [option_map filter snd List.length]. intros (X & Y). split; [apply Forall_cons; [split; assumption | exact X] | lia].
Qed.
Lemma options_good : forall n l, Forall (fun x => good (fst x)) l -> (length (filter (fun x => match snd x with None => true | Some _ => false end) l) < n)%nat -> g0 (options_loop n l).
Proof.
  intro n. induction n as [| n IH]; intros l F L; [lia |]. cbn [options_loop]. bind1; [apply fill_good; exact F |]. intros [l' |]; [intros (X & Y); apply (IH l' X); lia |]. intros _. destruct (forallb _ l); [apply gk_unexpected_any | apply gk_ret; exact Logic.I].
Qed.
Lemma generate_good : forall d t, generate leaf env d = Some t -> def_ok d = true -> good t.
Proof.
  intros d t E B. assert (N : match d with DComb _ SAlternatives => True | _ => names_bad d = false end).
  { unfold def_ok in B. destruct d as [| | | | l [] | | |]; try exact Logic.I; rewrite orb_false_r in B; destruct (names_bad _); first [discriminate | reflexivity]. }
  destruct d as [w | w d | t' | d | l s | d s | d x | c]; cbn [generate] in E; try discriminate.
  - destruct (def_peek leaf env (DType t')) as [k |] eqn:Ek; [| discriminate]. destruct (type_steps leaf env t') as [m |] eqn:Em; [| discriminate]. apply some_inj in E. subst t. split; [exact (peek_good _ k Ek) | exact (steps_good t' m Em N)].
  - destruct s; try discriminate.
    + exact (ordered_good l t E N).
    + cbn [names_bad] in N.
      match type of E with match ?X with _ => _ end = _ => destruct X as [ts |] eqn:Et; [| discriminate] end. apply some_inj in E. subst t.
      assert (Gs : Forall good ts).
      { apply Forall_forall. intros x Ix. pose proof (all_some_in _ _ _ Et x Ix) as X. apply in_map_iff in X. destruct X as (e & Ee & Ie). destruct e; try discriminate. apply (named_good t x Ee).
        destruct (is_bad t) eqn:Be; [| reflexivity]. exfalso. assert (Y : existsb names_bad l = true) by (apply existsb_exists; exists (DType t); split; [exact Ie | exact Be]). rewrite Y in N. discriminate. }
      split; cbn [ty_peek ty_parse].
      * apply whole_any. apply Forall_forall. intros k Ik. apply in_map_iff in Ik. destruct Ik as (x & <- & Ix). rewrite Forall_forall in Gs. apply (Gs x Ix).
      * unfold in_any_order. apply options_good.
        -- apply Forall_forall. intros y Iy. apply in_map_iff in Iy. destruct Iy as (x & <- & Ix). rewrite Forall_forall in Gs. exact (Gs x Ix).
        -- assert (X : forall (l : list ty), (length (filter (fun x : ty * option (list cursor) => match snd x with None => true | Some _ => false end) (map (fun t => (t, None)) l)) <= length l)%nat) by (clear; intro l; induction l as [| a l IH]; cbn; lia). specialize (X ts). lia.
    + destruct (all_some (map (def_peek leaf env) l)) as [ks |] eqn:Ek; [| discriminate]. destruct (alternatives leaf env l) as [m |] eqn:Em; [| discriminate]. apply some_inj in E. subst t. split; cbn [ty_peek ty_parse].
      * apply whole_any. apply Forall_forall. intros k Ik. pose proof (all_some_in _ _ _ Ek k Ik) as X. apply in_map_iff in X. destruct X as (e & Ee & Ie). exact (peek_good e k Ee).
      * exact (alternatives_good l m B Em).
  - destruct d as [| | t' | | | | |]; try discriminate. cbn [names_bad] in N. destruct x as [| | [] | []]; try discriminate.
    + destruct (def_peek leaf env (DType t')) as [k |] eqn:Ek; [| discriminate]. destruct (type_steps leaf env t') as [m |] eqn:Em; [| discriminate]. apply some_inj in E. subst t. split; [exact (peek_good _ k Ek) | apply gk_comma; exact (steps_good t' m Em N)].
    + apply (ordered_good _ t E). destruct (existsb names_bad _) eqn:X; [| reflexivity]. apply existsb_exists in X. destruct X as (y & Iy & By). unfold copies in Iy. apply in_app_or in Iy. destruct Iy as [Iy | Iy]; apply repeat_spec in Iy; subst y; cbn [names_bad] in By; rewrite N in By; discriminate.
    + apply (ordered_good _ t E). destruct (existsb names_bad _) eqn:X; [| reflexivity]. apply existsb_exists in X. destruct X as (y & Iy & By). apply repeat_spec in Iy. subst y. cbn [names_bad] in By. rewrite N in By. discriminate.
Qed.
End Generated.
End Logic.

Definition CALC_SIZE_NAME : text := chars "CalcSize".
Lemma leaf_good {mod_ : mode} : forall src f t, good src f (leaf_ty t).
Proof.
  intros src f t. destruct t; cbn [leaf_ty].
  - exact (good_token src f _ (solo_length src f)).
  - exact (good_token src f _ (solo_lp src f)).
  - exact (good_token src f _ (solo_angle src f)).
  - exact (good_token src f _ (solo_time src f)).
  - apply good_token. apply solo_set; [constructor | discriminate].
  - exact (good_token src f _ (solo_int src f)).
  - exact (good_token src f _ (solo_float src f)).
  - exact (good_token src f _ (solo_float src f)).
  - exact (good_color src f).
  - apply good_token. apply solo_kind. discriminate.
  - exact (good_image src f).
  - exact (good_image1d src f).
  - exact (good_token src f _ (solo_dashed src f)).
  - apply good_token. apply solo_kind. discriminate.
  - apply good_token. split; [intros p cs c _ _; discriminate | discriminate].
Qed.
Ltac named_good src f := lazymatch goal with
  | |- good _ _ (words_ty _) => apply good_words
  | |- good _ _ (snap_ty _ _) => apply good_snap
  | |- good _ _ POSITION_AREA => exact (good_area src f)
  | |- good _ _ ITERATION_COUNT => exact (good_iteration src f)
  | |- good _ _ REPEAT_STYLE => exact (good_repeat src f)
  | |- good _ _ RANGE_LIMIT_MIX => exact (good_mix src f)
  | |- good _ _ ANIMATEABLE_FEATURE => exact (good_feature src f)
  | |- good _ _ OPACITY => exact (good_token src f _ (solo_opacity src f))
  | |- good _ _ (token_ty peek_dashed_ident) => exact (good_token src f _ (solo_dashed src f))
  | |- good _ _ LINE_WIDTH => apply good_token; apply solo_any; apply Forall_cons; [exact (solo_length src f) | apply Forall_cons; [apply solo_words | apply Forall_nil]]
  | N : _ <> _ |- good _ _ CALC_SIZE => elim N; reflexivity
  end.
Lemma named_types_good {mod_ : mode} : forall src f, Forall (fun x => fst x <> CALC_SIZE_NAME -> good src f (snd x)) NAMED_TYPES.
Proof.
  intros src f. unfold NAMED_TYPES. cbn [map fst snd].
  repeat (apply Forall_cons; [cbn [fst snd]; intro Nc; named_good src f |]).
  apply Forall_nil.
Qed.
(* calc-size() is named by no definition but as an alternative after a function's *)
Lemma defs_ok : forallb (fun r => match snd r with Some d => def_ok CALC_SIZE_NAME d | None => false end) VALUE_DEFS = true.
Proof. vm_compute. reflexivity. Qed.
Lemma calc_size_named : map_get NAMED_TYPES CALC_SIZE_NAME = Some CALC_SIZE.
Proof. reflexivity. Qed.
Lemma value_good {mod_ : mode} : forall src f n name t, value_ty n name = Some t -> name <> CALC_SIZE_NAME -> good src f t.
Proof.
  intros src f n. induction n as [| n IH]; intros name t E N; cbn [value_ty] in E; destruct (map_get NAMED_TYPES name) as [x |] eqn:En.
  - apply some_inj in E. subst x. pose proof (named_types_good src f) as X. rewrite Forall_forall in X. exact (X _ (map_get_in _ _ _ _ En) N).
  - discriminate.
  - apply some_inj in E. subst x. pose proof (named_types_good src f) as X. rewrite Forall_forall in X. exact (X _ (map_get_in _ _ _ _ En) N).
  - destruct (map_get VALUE_DEFS name) as [[d |] |] eqn:Ed; try discriminate. pose proof defs_ok as O. rewrite forallb_forall in O. specialize (O _ (map_get_in _ _ _ _ Ed)). cbn [snd] in O.
    eapply (generate_good src f leaf_ty (value_ty n) CALC_SIZE_NAME); [apply leaf_good | exact IH | | exact E | exact O].
    intros t' Et. assert (X : value_ty n CALC_SIZE_NAME = Some CALC_SIZE) by (rewrite <- calc_size_named; destruct n; cbn [value_ty]; rewrite calc_size_named; reflexivity). rewrite X in Et. apply some_inj in Et. subst t'. split.
    + apply solo_named; [constructor | discriminate].
    + intros p c T. cbn [ty_peek CALC_SIZE] in T. unfold peek_named in T. destruct (tok_is (ctok c) K_Function); [reflexivity | discriminate].
Qed.
Lemma good_sensible : forall m, (forall (mod_ : mode) src f, gk src f 0 m (fun _ => True)) -> sensible m.
Proof. intros m X mod_ src f p cs S. destruct (goes_out _ src f _ 0 _ p cs (X mod_ src f) S) as (r & q & u & rest & E & Ec & S' & _). eauto 10. Qed.
Lemma values_sensible : Forall (fun x => sensible (snd x)) VALUES.
Proof.
  apply Forall_forall. intros x I. unfold VALUES in I. apply in_flat_map in I. destruct I as (r & Ir & I). destruct (property_name (chars (fst r))) as [w |] eqn:Ew; [| destruct I].
  destruct (value_ty 5 (chars (fst r))) as [t |] eqn:Et; [| destruct I]. destruct I as [<- | []]. cbn [snd]. apply good_sensible. intros mod_ src f. refine (proj2 (value_good src f 5 _ t Et _)).
  intro E. rewrite E in Ew. vm_compute in Ew. discriminate.
Qed.
