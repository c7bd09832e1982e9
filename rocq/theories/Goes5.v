(* The logic of Goes.v where every token may be read: the traits of blocks, rules and lists. *)
From Coq Require Import ZifyBool ZifyNat ZifyN.
From Coq Require Import List.
From Verif Require Import AstSheet SpecSheet SpecLex SpecTrace SpecParser SpecSyntax SpecTraits SpecFeatures SpecCursor SpecToken LexBase TokenProofs KindProofs LexFacts LexTrace CursorProofs CursorLex
  ParserProofs ParserProofs2 ParserProofs3 ParserProofs4 CompareProofs SyntaxProofs SyntaxTotal TraitsTotal RulesTotal FeatureProofs Goes Goes2 Goes3 Goes4.
Open Scope N_scope.
Open Scope list_scope.

Section Traits.
Variable src : text.
Context {mod_ : mode}.
Variable f : feature.
Variable G : cursor -> Prop.
Variable H : cursor -> Prop.
Hypothesis G_ok : forall c, kind_of c <> K_LeftCurly -> G c.
Hypothesis G_all : forall c, G c.
Hypothesis H_all : forall c, H c.
Notation goes := (goes src f G H).
Notation st := (st src f G H).
Notation rv := (rv src f G H).
Notation lost := (lost src f).
Notation seen := (seen src).
Notation whole := (whole src f).
Notation top := (fun _ => True).
Lemma do_bind_if : forall A B cs0 K j p i k (m : P A) (g : option A -> P B) Q1 (Q : B -> Prop), st cs0 j p -> whole k -> goes (length cs0 - j) i m Q1 ->
  (forall a q, Q1 a -> st cs0 (j + i) q -> rv cs0 K Q (g (Some a) q)) -> (forall d, peek_next p = Some d -> seen d -> k p d = Some false -> rv cs0 K Q (g None p)) -> rv cs0 K Q (bind (parse_if_peek k m) g p).
Proof.
  intros A B cs0 K j p i k m g Q1 Q S W Hm X1 X2. unfold bind, parse_if_peek, pmap. destruct (peek_st _ _ _ _ (G_triv _ G_ok) _ _ _ k S W) as ([] & d & Pk & Pn & Kd & Sd & _); rewrite Pk; [| eauto].
  unfold bind. destruct (do_call _ _ _ _ _ _ _ _ _ _ _ S Hm) as ([a | e] & q & -> & Y).
  - destruct Y as (Sq & Qa). exact (X1 a q Qa Sq).
  - eapply rv_err; lost_.
Qed.
Lemma bind_bind : forall A B C (m : P A) (h : A -> P B) (g : B -> P C) p, bind (bind m h) g p = bind m (fun a => bind (h a) g) p.
Proof. intros. unfold bind. destruct (m p) as [[[a | e] q] |]; reflexivity. Qed.
Lemma bind_ret : forall A B (a : A) (g : A -> P B) p, bind (ret a) g p = g a p.
Proof. reflexivity. Qed.
Lemma lift : forall A cs0 cs u K i (Q : A -> Prop) o, cs0 = u ++ cs -> (K <= length u + i)%nat -> rv cs i Q o -> rv cs0 K Q o.
Proof.
  intros A cs0 cs u K i Q o -> L (r & q & E & X). exists r, q. split; [exact E |]. destruct r as [a | e].
  - destruct X as (X & Qa). split; [| exact Qa]. apply (plain_st src f G H G_all H_all). apply st_lost in X. destruct X as (u2 & c2 & -> & L2 & S2). exists (u ++ u2), c2. rewrite <- app_assoc, app_length. split; [reflexivity |]. split; [lia | exact S2].
  - destruct X as (u2 & c2 & -> & L2 & S2). exists (u ++ u2), c2. rewrite <- app_assoc. split; [reflexivity |]. split; [lia | exact S2].
Qed.
(* what a block asks of its rules: one that read nothing has seen the end of the block *)
Definition ended (q : parser) : Prop := p_at_end q = true \/ peek (peek_kind K_RightCurly) q = Some true.
Definition steps {A} (n : nat) (m : P A) : Prop := forall p cs, st cs 0 p -> (length cs <= n)%nat ->
  exists r q, m p = Some (r, q) /\ match r with Ok _ => st cs 1 q \/ st cs 0 q /\ ended q | Err _ => lost cs 0 q end.
Lemma goes_steps : forall A n (m : P A) Q, goes n 1 m Q -> steps n m.
Proof. intros A n m Q Hm p cs S0 L. destruct (call _ _ _ _ _ _ _ _ _ _ _ _ S0 Hm ltac:(lia)) as (r & q & E & X). exists r, q. split; [exact E |]. destruct r; [left; apply X | exact X]. Qed.
Lemma steps_less : forall A n n' (m : P A), steps n m -> (n' <= n)%nat -> steps n' m.
Proof. intros A n n' m Hm L p cs S0 L0. apply Hm; [exact S0 | lia]. Qed.
(* a turn of a block *)
Lemma block_turn_cps : forall A D R peek_d (decl_p : P D) (rule_p : P R) K Q (g : option (item D R) -> P A) p cs n, st cs 0 p -> (length cs <= n)%nat -> whole peek_d -> goes n 1 decl_p top -> steps n rule_p ->
  (forall i q, st cs 1 q -> rv cs K Q (g (Some i) q)) -> (~ ended p -> forall i q, st cs 0 q -> ended q -> rv cs K Q (g (Some i) q)) -> (forall q, st cs 0 q -> rv cs K Q (g None q)) -> rv cs K Q (bind (block_turn peek_d decl_p rule_p) g p).
Proof.
  intros A D R peek_d decl_p rule_p K Q g p cs n S0 L W Hd Hr X1 X3 X2. unfold block_turn. rewrite bind_bind. unfold if_whitespace. eapply do_bind_if; [st_ | whole_ | known | |].
  { intros w q _ Sq. rewrite bind_ret. apply X1. exact Sq. }
  intros d Pn Sd Kd. rewrite bind_bind. unfold if_kind at 1. eapply do_bind_if; [st_ | whole_ | known | |].
  { intros w q _ Sq. rewrite bind_ret. apply X1. exact Sq. }
  intros d2 _ Sd2 Kd2. unfold bind at 1. destruct (p_at_end p) eqn:Ae; [apply X2; st_ |]. unfold or_peek.
  destruct (peek_st _ _ _ _ (G_triv _ G_ok) _ _ _ (peek_kind K_RightCurly) S0 ltac:(whole_)) as (b & d3 & Ep & _). rewrite Ep. destruct b; [apply X2; st_ |].
  assert (Ne : ~ ended p) by (intros [E | E]; congruence). specialize (X3 Ne).
  assert (Xr : forall x q, st cs 1 q \/ st cs 0 q /\ ended q -> rv cs K Q (g (Some (IRule x)) (set_state q (pstate p)))).
  { intros x q [Y | (Y & E)]; [apply X1; apply st_state; exact Y | apply X3; [apply st_state; exact Y | exact E]]. }
  assert (S1 : st cs 0 (set_state p ST_NESTED)) by st_. destruct (peek_st _ _ _ _ (G_triv _ G_ok) _ _ _ (peek_kind K_AtKeyword) S1 ltac:(whole_)) as (b & d4 & -> & _). destruct b.
  - unfold pmap, bind, in_state. destruct (Hr _ cs S1 L) as ([a | e] & q & -> & Y); [apply Xr; exact Y | eapply rv_err; lost_].
  - unfold try_parse_if_peek. destruct (peek_st _ _ _ _ (G_triv _ G_ok) _ _ _ peek_d S1 W) as (b & d5 & -> & _).
    assert (Rest : forall q, st cs 0 q -> rv cs K Q (match match rule_p q with None => None | Some (Ok r, q') => Some (Ok (Some (IRule r)), set_state q' (pstate p)) | Some (Err e, q') => Some (Err e, set_state q' (pstate p)) end with
      | None => None | Some (Err e, p') => Some (Err e, p') | Some (Ok a, p') => g a p' end)).
    { intros q Sq. destruct (Hr q cs Sq L) as ([a | e] & q1 & -> & Y); [apply Xr; exact Y | eapply rv_err; lost_]. }
    destruct b; [| exact (Rest _ S1)]. unfold pmap, bind. destruct (call _ _ _ _ _ _ _ _ _ _ _ _ S1 (goes_try _ _ _ _ _ _ _ _ _ Hd) ltac:(lia)) as ([a | e] & q & -> & Y).
    + destruct Y as (Y & _). unfold ret. destruct (call _ _ _ _ _ _ _ (set_state q (pstate p)) _ _ _ _ (st_state _ _ _ _ _ _ _ _ Y) (p_if_kind src f G H G_ok G_all n K_Semicolon ltac:(discriminate)) ltac:(lia)) as ([s | e] & q1 & -> & Z); [apply X1; apply (st_le _ _ _ _ _ 1 (0 + 1 + 0)); [lia | apply Z] | eapply rv_err; lost_].
    + exact (Rest _ (plain_st src f G H G_all H_all _ _ _ Y)).
Qed.
Lemma p_block_loop : forall D R peek_d (decl_p : P D) (rule_p : P R) N, whole peek_d -> goes N 1 decl_p top -> steps N rule_p -> forall m p cs, (length cs <= N)%nat -> st cs 0 p ->
  (2 * length cs + 2 <= m \/ 2 * length cs + 1 <= m /\ ended p)%nat -> rv cs 0 top (block_loop peek_d decl_p rule_p m p).
Proof.
  intros D R peek_d decl_p rule_p N W Hd Hr m. induction m as [| m IH]; intros p cs Lc S0 L; [lia |]. cbn [block_loop]. eapply block_turn_cps; [st_ | exact Lc | exact W | exact Hd | exact Hr | | |].
  - intros i q Sq. pose proof (st_len _ _ _ _ _ _ _ Sq). go1. destruct Sq as (u & cs' & E & Lu & _ & Sq & Zq). apply (lift _ cs cs' u 0 0 _ _ E ltac:(lia)). apply IH; [rewrite E, app_length in *; lia | apply st_start; assumption |]. left. rewrite E, app_length in *. lia.
  - intros Ne i q Sq Eq. go1. apply IH; [exact Lc | exact Sq |]. right. split; [| exact Eq]. destruct L as [L | (_ & L)]; [lia | contradiction].
  - intros q Sq. go.
Qed.
Lemma p_block_t : forall D R peek_d (decl_p : P D) (rule_p : P R) n, whole peek_d -> (forall i, (i < n)%nat -> goes i 1 decl_p top /\ steps i rule_p) -> goes n 1 (block_t peek_d decl_p rule_p) top.
Proof.
  intros D R peek_d decl_p rule_p n W Hi. begin. unfold block_t. go1. pose proof (st_len _ _ _ _ _ _ _ Sq).
  eapply do_bind; [st_ | apply (goes_fuel src f G H _ _ 0 (fun m => block_loop peek_d decl_p rule_p m) top); intros i m Li Lm |].
  - destruct (Hi i ltac:(lia)). apply goes_start. intros p1 cs1 S1 L1. apply (p_block_loop _ _ _ _ _ i); auto. left. lia.
  - intros. go.
Qed.

Lemma parse_kind_split : forall p cs k c q, stands src f p cs -> k <> K_Eof -> parse_kind k p = Some (Ok c, q) -> exists sk rest, cs = sk ++ c :: rest /\ stands src f q rest /\ kind_of c = k.
Proof.
  intros p cs k c q S Nk E. pose proof (stands_ahead _ _ _ _ S) as A. destruct (parse_kind_inv k p cs c q Nk A E) as (_ & K). destruct (parse_single_kind _ _ _ _ _ _ _ (fun p o => kind_eof k p o Nk) A E) as (sk & c' & rest & Ec & F & St & _ & -> & T & A').
  exists sk, rest. split; [exact Ec |]. split; [| exact K]. destruct T as (_ & _ & _ & _ & _ & _ & _ & _ & Se). destruct Se as (_ & _ & Sk & _ & S1 & S2). destruct S as (S3 & S4 & _ & S6 & S7).
  unfold stands. rewrite S1, S2, Sk. split; [exact S3 |]. split; [exact S4 |]. split; [exact A' |]. split; [| exact S7]. rewrite Ec in S6. apply (supported_app _ (sk ++ [c'])). rewrite <- app_assoc. exact S6.
Qed.
Lemma p_at_rule_t : forall Pr B name (prelude_p : P Pr) (block_p : P B) n k,
  (forall at_ q rest, (length rest < n)%nat -> stands src f q rest -> supported src (at_ :: rest) -> kind_of at_ = K_AtKeyword -> (forall w, name = Some w -> eq_ignore_ascii_case at_ src w = Some true) -> rv rest 0 top (prelude_p q)) ->
  (forall i, (i < n)%nat -> goes i k block_p top) -> goes n (1 + k) (at_rule_t name prelude_p block_p) (fun x => kind_of (fst (fst x)) = K_AtKeyword /\ seen (fst (fst x))).
Proof.
  intros Pr B name prelude_p block_p n k Hp Hb. begin. destruct S0 as (u & cs' & E0 & _ & _ & S0 & Z0).
  assert (L1 : (length cs' <= n)%nat) by (rewrite E0, app_length in L0; lia). apply (lift _ cs cs' u (1 + k) (1 + k) _ _ E0 ltac:(lia)). clear E0 L0 cs u. rename cs' into cs.
  pose proof (st_start _ _ _ _ _ _ S0 Z0) as S1. unfold at_rule_t. unfold bind at 1. destruct (call _ _ _ _ _ _ _ _ _ _ _ _ S1 (p_kind src f G H G_ok G_all n K_AtKeyword ltac:(discriminate)) ltac:(lia)) as ([at_ | e] & q & E & X); rewrite E; [| eapply rv_err; lost_].
  destruct X as (Sq & Sat & Kat). destruct (parse_kind_split p cs K_AtKeyword at_ q S0 ltac:(discriminate) E) as (sk & rest & Ec & Sr & _).
  assert (Sup : supported src (at_ :: rest)) by (destruct S0 as (_ & _ & _ & S6 & _); rewrite Ec in S6; exact (supported_app _ _ _ S6)).
  assert (Lr : (length rest < n)%nat) by (rewrite Ec, app_length in L1; cbn [length] in L1; lia).
  assert (Main : (forall w, name = Some w -> eq_ignore_ascii_case at_ src w = Some true) -> rv cs (1 + k) (fun x => kind_of (fst (fst x)) = K_AtKeyword /\ seen (fst (fst x))) (match peek_next q with None => None | Some c =>
      bind (if p_at_end q || tok_in (ctok c) KS_LEFT_CURLY_OR_SEMICOLON then ret None else pmap Some prelude_p) (fun prelude => bind block_p (fun b => ret (at_, prelude, b))) q end)).
  { intro Nm. rewrite Ec in *. apply (lift _ _ rest (sk ++ [at_]) (1 + k) k); [rewrite <- app_assoc; reflexivity | rewrite app_length; cbn [length]; lia |].
    assert (S2 : st rest 0 q) by (apply (plain_st src f G H G_all H_all); exists [], rest; auto). go1.
    assert (Y : goes (length rest) k block_p top) by (apply Hb; exact Lr).
    destruct (p_at_end q || tok_in (ctok c) KS_LEFT_CURLY_OR_SEMICOLON).
    - rewrite bind_ret. eapply do_bind; [st_ | eapply goes_less; [exact Y | lia] |]. intros b q2 _ S3. eapply do_ret; [st_ | lia | auto].
    - unfold pmap. rewrite bind_bind. unfold bind at 1. destruct (Hp at_ q rest Lr Sr Sup Kat Nm) as ([a | e] & q2 & -> & X); [| eapply rv_err; lost_]. destruct X as (S3 & _). rewrite bind_ret.
      eapply do_bind; [st_ | eapply goes_less; [exact Y | lia] |]. intros b q3 _ S4. eapply do_ret; [st_ | lia | auto]. }
  unfold bind at 1. destruct name as [w |]; [| apply Main; discriminate]. rewrite (st_src _ _ _ _ _ _ _ Sq). destruct (eq_seen _ at_ w Sat ltac:(rewrite Kat; constructor)) as ([] & Ew); rewrite Ew; [| eapply rv_err; lost_].
  apply Main. intros w' [= <-]. exact Ew.
Qed.
Lemma p_no_prelude : forall n, goes n 0 no_prelude_allowed top.
Proof. intro n. begin. unfold no_prelude_allowed. go. Qed.
Lemma p_qualified_rule_t : forall Pr B X (prelude_p : P Pr) (block_p : P B) (bad_p : P X) n, goes n 0 prelude_p top -> goes n 1 block_p top -> goes n 0 bad_p top -> goes n 1 (qualified_rule_t prelude_p block_p bad_p) top.
Proof.
  intros Pr B X prelude_p block_p bad_p n Hp Hb Hx. begin. unfold qualified_rule_t. go1; [go |].
  assert (Rest : forall q, st cs 0 q -> rv cs 1 top (bind (in_stop (kindset_new [K_LeftCurly]) prelude_p) (fun prelude => pmap (fun b => (prelude, b)) block_p) q)).
  { intros q Sq. eapply do_bind; [st_ | eapply goes_in_stop; eapply goes_less; [exact Hp | lia] |]. intros a q2 _ S2. go1. eapply do_goes; [st_ | eapply goes_less; [exact Hb | lia] | lia | auto]. }
  assert (Dashed : rv cs 1 top (or_peek peek_dashed_ident (fun p0 => match parse_dashed_ident p0 with None => None | Some (_, p1) => match peek (peek_kind K_Colon) p1 with None => None | Some false => (bind (in_stop (kindset_new [K_LeftCurly]) prelude_p) (fun prelude => pmap (fun b => (prelude, b)) block_p)) (rewind p1 (checkpoint p))
      | Some true => if is_nested p1 then bind bad_p (fun _ => fail (D_Other E_BAD_DECLARATION (ckcursor (checkpoint p)))) (rewind p1 (checkpoint p)) else match block_p p1 with None => None | Some (_, p2) => Some (Err (D_Other E_BAD_DECLARATION (ckcursor (checkpoint p))), p2) end end end)
      (bind (in_stop (kindset_new [K_LeftCurly]) prelude_p) (fun prelude => pmap (fun b => (prelude, b)) block_p)) p)).
  { go1; [| apply Rest; st_]. destruct (call _ _ _ _ _ _ _ _ _ _ _ _ S0 (g_dashed src f G H G_ok n) ltac:(lia)) as (r & q & -> & Y).
    assert (Sq : st cs 0 q). { apply (plain_st src f G H G_all H_all). destruct r as [a | e]; [| exact Y]. destruct Y as (Y & _). eapply st_lost. apply (st_le _ _ _ _ _ 0 (0 + 1)); [lia | exact Y]. }
    destruct (peek_st _ _ _ _ (G_triv _ G_ok) _ _ _ (peek_kind K_Colon) Sq ltac:(whole_)) as ([] & d2 & -> & _); [| apply Rest; st_].
    destruct (is_nested q).
    - eapply do_bind; [st_ | eapply goes_less; [exact Hx | lia] |]. intros. eapply do_fail. lost_.
    - destruct (call _ _ _ _ _ _ _ _ _ _ _ _ Sq Hb ltac:(lia)) as (r2 & q2 & -> & Y2). destruct r2 as [a | e]; eapply rv_err; [destruct Y2; lost_ | lost_]. }
  destruct (is_nested p); [| exact Dashed]. unfold or_peek at 1. destruct (peek_st _ _ _ _ (G_triv _ G_ok) _ _ _ (peek_kind K_RightCurly) S0 ltac:(whole_)) as ([] & d2 & -> & _); [go | exact Dashed].
Qed.
Lemma p_sheet_loop : forall R (rule_p : P R) m n, (n < m)%nat -> goes n 1 rule_p top -> goes n 0 (sheet_loop rule_p m) top.
Proof.
  intros R rule_p m. induction m as [| m IH]; intros n L Hr; [lia |]. cbn [sheet_loop]. begin.
  assert (Next : forall q, st cs 1 q -> rv cs 0 top (sheet_loop rule_p m q)).
  { intros q Sq. pose proof (st_len _ _ _ _ _ _ _ Sq). eapply do_goes; [st_ | apply (IH (length cs - 1)%nat); [lia | eapply goes_less; [exact Hr | lia]] | lia | auto]. }
  unfold if_whitespace. eapply do_bind_if; [st_ | whole_ | known | intros; apply Next; assumption |]. intros d Pn Sd Kd. unfold if_kind. eapply do_bind_if; [st_ | whole_ | known | intros; apply Next; assumption |]. intros d2 _ _ _.
  go1; [go |]. go1. go1; [go |]. eapply do_bind; [st_ | eapply goes_less; [exact Hr | lia] |]. intros r q2 _ S2. go1. apply rv_imp with (k := 0%nat) (Q := top); [apply Next; st_ | lia | auto].
Qed.
Lemma p_sheet_t : forall R (rule_p : P R) n, goes n 1 rule_p top -> goes n 0 (sheet_t rule_p) top.
Proof. intros R rule_p n Hr. unfold sheet_t. apply (goes_fuel src f G H _ n 0 (fun m => sheet_loop rule_p m)). intros i m Li M. apply p_sheet_loop; [lia | eapply goes_less; [exact Hr | lia]]. Qed.
Lemma p_rules_loop : forall R (rule_p : P R) m n, (n < m)%nat -> goes n 1 rule_p top -> goes n 0 (rules_loop rule_p m) top.
Proof.
  intros R rule_p m. induction m as [| m IH]; intros n L Hr; [lia |]. cbn [rules_loop]. begin. go1. go1; [go |]. go1; [go |]. eapply do_bind; [st_ | eapply goes_less; [exact Hr | lia] |]. intros r q2 _ S2. go1.
  pose proof (st_len _ _ _ _ _ _ _ S2). eapply do_goes; [st_ | apply (IH (length cs - 1)%nat); [lia | eapply goes_less; [exact Hr | lia]] | lia | auto].
Qed.
Lemma p_rule_list_t : forall R (rule_p : P R) n, (forall i, (i < n)%nat -> goes i 1 rule_p top) -> goes n 1 (rule_list_t rule_p) top.
Proof.
  intros R rule_p n Hr. begin. unfold rule_list_t. go1. go1. pose proof (st_len _ _ _ _ _ _ _ Sq). eapply (do_fuel src f G H _ _ _ _ _ 0 (fun m => rules_loop rule_p m)); [st_ | | lia | auto]. intros i m Li M. apply p_rules_loop; [lia | apply Hr; lia].
Qed.
Lemma p_decls_loop : forall D (decl_p : P D) m n, (n < m)%nat -> goes n 1 decl_p top -> goes n 0 (decls_loop decl_p m) top.
Proof.
  intros R rule_p m. induction m as [| m IH]; intros n L Hr; [lia |]. cbn [decls_loop]. begin. go1; [go |]. go1; [go |]. eapply do_bind; [st_ | eapply goes_less; [exact Hr | lia] |]. intros r q2 _ S2. go1. go1.
  pose proof (st_len _ _ _ _ _ _ _ S2). eapply do_goes; [st_ | apply (IH (length cs - 1)%nat); [lia | eapply goes_less; [exact Hr | lia]] | lia | auto].
Qed.
Lemma p_declaration_list_t : forall D (decl_p : P D) n, (forall i, (i < n)%nat -> goes i 1 decl_p top) -> goes n 1 (declaration_list_t decl_p) top.
Proof.
  intros R rule_p n Hr. begin. unfold declaration_list_t. go1. go1. pose proof (st_len _ _ _ _ _ _ _ Sq). eapply (do_fuel src f G H _ _ _ _ _ 0 (fun m => decls_loop rule_p m)); [st_ | | lia | auto]. intros i m Li M. apply p_decls_loop; [lia | apply Hr; lia].
Qed.
Lemma p_comma_loop : forall A (m : P A) stop N (Hm : forall n, (n <= N)%nat -> goes n 1 m top) i n, (n <= N)%nat -> (n < i)%nat -> goes n 1 (comma_loop stop m i) top.
Proof.
  intros A m stop N Hm i. induction i as [| i IH]; intros n L I; [lia |]. cbn [comma_loop]. begin. eapply do_bind; [st_ | apply Hm; lia |]. intros a q _ Sq. pose proof (st_len _ _ _ _ _ _ _ Sq) as Ln.
  go. eapply do_goes; [st_ | apply IH; lia | lia | auto].
Qed.
Lemma p_comma_list : forall A (m : P A) stop N, (forall n, (n <= N)%nat -> goes n 1 m top) -> goes N 1 (comma_list_t stop m) top.
Proof. intros A m stop N Hm. unfold comma_list_t. apply (goes_fuel src f G H _ N 1 (fun i => comma_loop stop m i)). intros i k Li Lk. apply (p_comma_loop _ m stop N Hm); lia. Qed.
End Traits.
