(* Proofs about the parser's token-level operations. *)
From Coq Require Import ZifyBool ZifyNat ZifyN.
From Verif Require Import Parser SpecLex SpecTrace SpecParser LexBase TokenProofs KindProofs LexFacts LexTrace.
Open Scope N_scope.
Open Scope list_scope.
Ltac Zify.zify_post_hook ::= Z.div_mod_to_equations.

Lemma advance_fields : forall x t y, lexer_advance x = Some (t, y) -> lsrc y = lsrc x /\ lfeat y = lfeat x /\ loff y = loff x + tlen t.
Proof. intros x t y H. unfold lexer_advance in H. destruct (read_next_token _ _ _); [| discriminate]. inversion H; subst. repeat split. Qed.

Lemma ahead_exists : forall n pre l f x, (length l < n)%nat -> at_point pre l f x -> well_behaved (single_line_comments f) l -> exists cs, ahead x cs.
Proof.
  induction n as [| n IH]; intros pre l f x L P W; [lia |].
  destruct l as [| c l].
  - exists []. constructor. now apply (at_end pre f).
  - destruct (advance_step _ _ _ _ P W) as (p & r & t & El & Hp & A & P' & Lt & K & _); [discriminate |].
    destruct (IH (pre ++ p) r f (Lexer (lsrc x) (loff x + tlen t) t f)) as (cs & H).
    + rewrite El, app_length in L. destruct p; [congruence | cbn in L; lia].
    + exact P'.
    + rewrite El in W. now apply well_behaved_suffix in W.
    + exists (Cursor (loff x) t :: cs). econstructor; [exact A | exact K | rewrite Lt; now apply blen_pos | exact H].
Qed.

Lemma ahead_det : forall x cs, ahead x cs -> forall cs', ahead x cs' -> cs' = cs.
Proof.
  intros x cs H. induction H as [x E | x t y cs A K L H IH]; intros cs' H'.
  - destruct H' as [| x t y cs A K L H]; [reflexivity |]. rewrite (eof_stays _ E) in A. inversion A; subst. now contradiction K.
  - destruct H' as [x E | x t' y' cs' A' K' L' H'].
    + rewrite (eof_stays _ E) in A. inversion A; subst. now contradiction K.
    + rewrite A in A'. inversion A'; subst. f_equal. now apply IH.
Qed.
Lemma ahead_fuel : forall x cs, ahead x cs -> loff x + N.of_nat (length cs) <= blen (lsrc x).
Proof.
  intros x cs H. induction H as [x E | x t y cs A K L H IH]; cbn [length]; [lia |].
  destruct (advance_fields _ _ _ A) as (E1 & E2 & E3). rewrite E1, E3 in IH. lia.
Qed.
Lemma ahead_ltok : forall src o t f cs, ahead (Lexer src o t f) cs -> forall t', ahead (Lexer src o t' f) cs.
Proof.
  intros src o t f cs H t'. remember (Lexer src o t f) as x eqn:E. destruct H as [x H | x t0 y cs A K L H]; subst x.
  - constructor. exact H.
  - change (Cursor (loff (Lexer src o t f)) t0) with (Cursor (loff (Lexer src o t' f)) t0). econstructor; eauto.
Qed.
Lemma ahead_kind : forall x cs, ahead x cs -> forall c, In c cs -> tkind (ctok c) <> K_Eof.
Proof. intros x cs H. induction H; intros c [].  - subst. exact H0. - auto. Qed.
Lemma ahead_not_end : forall x c cs, ahead x (c :: cs) -> lexer_at_end x = false.
Proof.
  intros x c cs H. pose proof (ahead_fuel _ _ H). cbn [length] in H0. unfold lexer_at_end. lia.
Qed.
Lemma ahead_end : forall x, ahead x [] -> lexer_at_end x = true.
Proof. intros x H. remember [] as cs eqn:E. destruct H; [unfold lexer_at_end; lia | discriminate]. Qed.
Lemma ahead_app : forall a x b, ahead x (a ++ b) -> exists y, ahead y b /\ lsrc y = lsrc x /\ lfeat y = lfeat x.
Proof.
  induction a as [| c a IH]; intros x b H; [exists x; auto |].
  cbn in H. remember (c :: a ++ b) as l eqn:E. destruct H as [| x t y cs A K L H]; [discriminate |]. inversion E; subst.
  destruct (IH _ _ H) as (z & Hz & E1 & E2). destruct (advance_fields _ _ _ A) as (F1 & F2 & _). exists z. split; [exact Hz |]. split; congruence.
Qed.

Lemma in_kinds_tok : forall s c, tkind (ctok c) <> K_Eof -> (tok_in (ctok c) s = true <-> in_kinds s c).
Proof. intros s c K. unfold in_kinds. rewrite <- kindset_token; [tauto | now apply wf_of_kind]. Qed.
Lemma tok_in_true' : forall s o t, tkind t <> K_Eof -> in_kinds s (Cursor o t) -> tok_in t s = true.
Proof. intros s o t K H. exact (proj2 (in_kinds_tok s (Cursor o t) K) H). Qed.
Lemma tok_in_false' : forall s o t, tkind t <> K_Eof -> ~ in_kinds s (Cursor o t) -> tok_in t s = false.
Proof. intros s o t K H. destruct (tok_in t s) eqn:B; [| reflexivity]. now apply (in_kinds_tok s (Cursor o t) K) in B. Qed.

(* every list splits into the longest prefix in a kind set and the rest *)
Definition stops_skip (s : kindset) (l : list cursor) : Prop := match l with [] => True | c :: _ => ~ in_kinds s c end.
Lemma skip_split : forall s cs, exists sk rest, cs = sk ++ rest /\ Forall (in_kinds s) sk /\ stops_skip s rest.
Proof.
  intros s cs. induction cs as [| c cs (sk & rest & E & F & St)]; [exists [], []; repeat constructor |].
  destruct (kindset_contains s (tkind (ctok c))) eqn:B.
  - exists (c :: sk), rest. rewrite E. repeat split; [now constructor | exact St].
  - exists [], (c :: cs). repeat split; [constructor |]. cbn. unfold in_kinds. congruence.
Qed.
Lemma skip_split_unique : forall s sk rest, Forall (in_kinds s) sk -> stops_skip s rest -> forall sk' rest', Forall (in_kinds s) sk' -> stops_skip s rest' ->
  sk ++ rest = sk' ++ rest' -> sk = sk' /\ rest = rest'.
Proof.
  intros s sk. induction sk as [| c sk IH]; intros rest F St sk' rest' F' St' E.
  - destruct sk' as [| c' sk']; [auto |]. cbn in E. subst rest. inversion F'; subst. now contradiction St.
  - destruct sk' as [| c' sk'].
    + cbn in E. subst rest'. inversion F; subst. now contradiction St'.
    + injection E as E1 E2. subst c'. destruct (IH rest (Forall_inv_tail F) St sk' rest' (Forall_inv_tail F') St' E2). subst. auto.
Qed.

Definition eof_lexer (x : lexer) : lexer := Lexer (lsrc x) (blen (lsrc x)) T_EOF (lfeat x).
Lemma advance_eof : forall x, loff x = blen (lsrc x) -> lexer_advance x = Some (T_EOF, eof_lexer x).
Proof. intros x E. rewrite (eof_stays x E). unfold eof_lexer. now rewrite E. Qed.

(* inversion of [ahead] on a known list *)
Lemma ahead_inv : forall x c cs, ahead x (c :: cs) -> exists t y, c = Cursor (loff x) t /\ lexer_advance x = Some (t, y) /\ tkind t <> K_Eof /\ 0 < tlen t /\ ahead y cs /\
  lsrc y = lsrc x /\ lfeat y = lfeat x.
Proof.
  intros x c cs H. remember (c :: cs) as l eqn:E. destruct H as [| x t y cs' A K L H]; [discriminate |]. inversion E; subst.
  destruct (advance_fields _ _ _ A) as (F1 & F2 & _). exists t, y. auto 10.
Qed.

(* the loops on a lexer with known tokens ahead *)
Definition next_result (x : lexer) (tr sk rest : list cursor) (r : option (cursor * lexer * list cursor)) : Prop :=
  match rest with
  | [] => r = Some (Cursor (blen (lsrc x)) T_EOF, eof_lexer x, tr ++ sk)
  | c :: cs => exists y, r = Some (c, y, tr ++ sk) /\ ahead y cs /\ lsrc y = lsrc x /\ lfeat y = lfeat x
  end.
Lemma next_loop_spec : forall sk n s x tr rest, ahead x (sk ++ rest) -> Forall (in_kinds s) sk -> stops_skip s rest -> (length (sk ++ rest) < n)%nat ->
  next_result x tr sk rest (next_loop n s x tr).
Proof.
  induction sk as [| c sk IH]; intros n s x tr rest A F St L; (destruct n as [| n]; [lia |]); cbn [next_loop].
  - cbn [app] in *. unfold next_result. rewrite app_nil_r. destruct rest as [| c cs].
    + remember [] as l eqn:E. destruct A; [| discriminate]. rewrite advance_eof by assumption.
      replace (tok_is T_EOF K_Eof) with true by reflexivity. cbn [orb]. now rewrite H.
    + destruct (ahead_inv _ _ _ A) as (t & y & Ec & Ad & K & L' & A' & F1 & F2). rewrite Ad. subst c. cbn in St.
      assert (T : tok_in t s = false) by (destruct (tok_in t s) eqn:B; [exfalso; apply St; now apply (proj1 (in_kinds_tok s (Cursor (loff x) t) K)) | reflexivity]).
      rewrite T, orb_true_r. exists y. auto.
  - cbn [app length] in *. destruct (ahead_inv _ _ _ A) as (t & y & Ec & Ad & K & L' & A' & F1 & F2). rewrite Ad. subst c.
    rewrite (kind_eof_bits _ K). rewrite (tok_in_true' s _ t K (Forall_inv F)). cbn [orb negb].
    assert (L2 : (length (sk ++ rest) < n)%nat) by lia.
    specialize (IH n s y (tr ++ [Cursor (loff x) t]) rest A' (Forall_inv_tail F) St L2).
    unfold next_result in *. rewrite <- app_assoc in IH. cbn [app] in IH. unfold eof_lexer in *. rewrite F1, F2 in IH. exact IH.
Qed.

Lemma tok_in_false : forall s c, tkind (ctok c) <> K_Eof -> ~ in_kinds s c -> tok_in (ctok c) s = false.
Proof. intros s c K H. destruct (tok_in (ctok c) s) eqn:B; [| reflexivity]. now apply in_kinds_tok in B. Qed.

Definition hd_or_eof (x : lexer) (rest : list cursor) : cursor := match rest with [] => Cursor (blen (lsrc x)) T_EOF | c :: _ => c end.
Lemma peek_loop_spec : forall sk n s x rest, ahead x (sk ++ rest) -> Forall (in_kinds s) sk -> stops_skip s rest -> (length (sk ++ rest) < n)%nat ->
  peek_loop n s x = Some (hd_or_eof x rest).
Proof.
  induction sk as [| c sk IH]; intros n s x rest A F St L; (destruct n as [| n]; [lia |]); cbn [peek_loop].
  - cbn [app] in *. destruct rest as [| c cs].
    + remember [] as l eqn:E. destruct A; [| discriminate]. rewrite advance_eof by assumption.
      replace (tok_is T_EOF K_Eof) with true by reflexivity. cbn [orb hd_or_eof]. now rewrite H.
    + destruct (ahead_inv _ _ _ A) as (t & y & Ec & Ad & K & L' & A' & F1 & F2). rewrite Ad. subst c. cbn in St.
      rewrite (tok_in_false' s _ t K St), orb_true_r. reflexivity.
  - cbn [app length] in *. destruct (ahead_inv _ _ _ A) as (t & y & Ec & Ad & K & L' & A' & F1 & F2). rewrite Ad. subst c.
    rewrite (kind_eof_bits _ K). rewrite (tok_in_true' s _ t K (Forall_inv F)). cbn [orb negb].
    rewrite (IH n s y rest A' (Forall_inv_tail F) St) by lia. unfold hd_or_eof. now rewrite F1.
Qed.
(* skipping everything but whitespace *)
Definition ws_in (s : kindset) (c : cursor) : Prop := in_kinds s c /\ tkind (ctok c) <> K_Whitespace.
Lemma peek_ws_loop_spec : forall sk n s x rest, ahead x (sk ++ rest) -> Forall (ws_in s) sk -> match rest with [] => True | c :: _ => ~ ws_in s c end -> (length (sk ++ rest) < n)%nat ->
  peek_ws_loop n s x = Some (hd_or_eof x rest).
Proof.
  induction sk as [| c sk IH]; intros n s x rest A F St L; (destruct n as [| n]; [lia |]); cbn [peek_ws_loop].
  - cbn [app] in *. destruct rest as [| c cs].
    + remember [] as l eqn:E. destruct A; [| discriminate]. rewrite advance_eof by assumption.
      replace (tok_is T_EOF K_Eof) with true by reflexivity. cbn [orb hd_or_eof]. now rewrite H.
    + destruct (ahead_inv _ _ _ A) as (t & y & Ec & Ad & K & L' & A' & F1 & F2). rewrite Ad. subst c. cbn in St. unfold ws_in in St. cbn [ctok] in St.
      replace (tok_is t K_Eof || tok_is t K_Whitespace || negb (tok_in t s)) with true; [reflexivity |]. symmetry.
      destruct (tok_is t K_Whitespace) eqn:B; [now rewrite orb_true_r |].
      rewrite (tok_in_false' s (loff x) t K); [now rewrite orb_true_r |].
      intro Q. apply St. split; [exact Q |]. intro Q2. apply (tok_is_kind t K_Whitespace) in Q2; [congruence | now apply wf_of_kind].
  - cbn [app length] in *. destruct (ahead_inv _ _ _ A) as (t & y & Ec & Ad & K & L' & A' & F1 & F2). rewrite Ad. subst c.
    destruct (Forall_inv F) as [G1 G2]. cbn [ctok] in G2.
    rewrite (kind_eof_bits _ K). rewrite (tok_in_true' s _ t K G1).
    assert (B : tok_is t K_Whitespace = false) by (destruct (tok_is t K_Whitespace) eqn:B; [apply tok_is_kind in B; [congruence | now apply wf_of_kind] | reflexivity]).
    rewrite B. cbn [orb negb].
    rewrite (IH n s y rest A' (Forall_inv_tail F) St) by lia. unfold hd_or_eof. now rewrite F1.
Qed.
Lemma stop_loop_spec : forall sk n s stop x rest, kindset_contains s K_Eof = false -> ahead x (sk ++ rest) -> Forall (in_kinds s) sk -> stops_skip s rest -> (length (sk ++ rest) < n)%nat ->
  next_is_stop_loop n s stop x = Some (kindset_contains stop (tkind (ctok (hd_or_eof x rest)))).
Proof.
  induction sk as [| c sk IH]; intros n s stop x rest Z A F St L; (destruct n as [| n]; [lia |]); cbn [next_is_stop_loop].
  - cbn [app] in *. destruct rest as [| c cs].
    + remember [] as l eqn:E. destruct A; [| discriminate]. rewrite advance_eof by assumption.
      replace (tkind T_EOF) with K_Eof by reflexivity. rewrite Z. cbn [negb hd_or_eof ctok]. reflexivity.
    + destruct (ahead_inv _ _ _ A) as (t & y & Ec & Ad & K & L' & A' & F1 & F2). rewrite Ad. subst c. cbn in St. unfold in_kinds in St. cbn [ctok] in St.
      destruct (kindset_contains s (tkind t)); [now contradiction St | reflexivity].
  - cbn [app length] in *. destruct (ahead_inv _ _ _ A) as (t & y & Ec & Ad & K & L' & A' & F1 & F2). rewrite Ad. subst c.
    pose proof (Forall_inv F) as G. unfold in_kinds in G. cbn [ctok] in G. rewrite G. cbn [negb].
    rewrite (IH n s stop y rest Z A' (Forall_inv_tail F) St) by lia. unfold hd_or_eof. now rewrite F1.
Qed.
Lemma trivia_loop_spec : forall sk n s x tr rest, ahead x (sk ++ rest) -> Forall (in_kinds s) sk -> stops_skip s rest -> (length (sk ++ rest) < n)%nat ->
  exists y, consume_trivia_loop n s x tr = Some (y, tr ++ sk) /\ ahead y rest /\ lsrc y = lsrc x /\ lfeat y = lfeat x.
Proof.
  induction sk as [| c sk IH]; intros n s x tr rest A F St L; (destruct n as [| n]; [lia |]); cbn [consume_trivia_loop].
  - cbn [app] in *. rewrite app_nil_r. destruct rest as [| c cs].
    + remember [] as l eqn:E. destruct A; [| discriminate]. rewrite advance_eof by assumption.
      replace (tok_is T_EOF K_Eof) with true by reflexivity. exists (eof_lexer x). repeat split. subst. now constructor.
    + destruct (ahead_inv _ _ _ A) as (t & y & Ec & Ad & K & L' & A' & F1 & F2). rewrite Ad. subst c. cbn in St.
      rewrite (kind_eof_bits _ K). rewrite (tok_in_false' s _ t K St).
      exists (lexer_rewind y (Cursor (loff x) t)). split; [reflexivity |]. unfold lexer_rewind. cbn [coff ctok lsrc lfeat]. rewrite F1, F2.
      split; [| auto]. destruct x as [xs xo xt xf]. cbn [lsrc loff lfeat] in *. exact (ahead_ltok xs xo xt xf _ A t).
  - cbn [app length] in *. destruct (ahead_inv _ _ _ A) as (t & y & Ec & Ad & K & L' & A' & F1 & F2). rewrite Ad. subst c.
    rewrite (kind_eof_bits _ K). rewrite (tok_in_true' s _ t K (Forall_inv F)).
    assert (L2 : (length (sk ++ rest) < n)%nat) by lia.
    destruct (IH n s y (tr ++ [Cursor (loff x) t]) rest A' (Forall_inv_tail F) St L2) as (z & E & Az & G1 & G2).
    rewrite <- app_assoc in E. exists z. split; [exact E |]. split; [exact Az |]. split; congruence.
Qed.

(* enough fuel *)
Lemma pfuel_enough : forall p cs, ahead (plex p) cs -> (length cs < pfuel p)%nat.
Proof. intros p cs A. pose proof (ahead_fuel _ _ A). unfold pfuel. lia. Qed.

Lemma next_spec : forall p sk rest, ahead (plex p) (sk ++ rest) -> Forall (in_kinds (pskip p)) sk -> stops_skip (pskip p) rest ->
  exists q, next p = Some (hd_or_eof (plex p) rest, q) /\ ptrivia q = ptrivia p ++ sk /\ ahead (plex q) (tl rest) /\ same_settings p q.
Proof.
  intros p sk rest A F St. pose proof (next_loop_spec sk (pfuel p) (pskip p) (plex p) (ptrivia p) rest A F St (pfuel_enough _ _ A)) as H.
  unfold next. unfold next_result in H. destruct rest as [| c cs].
  - rewrite H. eexists. split; [reflexivity |]. cbn. repeat split. now constructor.
  - destruct H as (y & E & Ay & F1 & F2). rewrite E. eexists. split; [reflexivity |]. unfold same_settings. cbn. auto 10.
Qed.
Lemma peek_next_spec : forall p sk rest, ahead (plex p) (sk ++ rest) -> Forall (in_kinds (pskip p)) sk -> stops_skip (pskip p) rest ->
  peek_next p = Some (hd_or_eof (plex p) rest).
Proof. intros p sk rest A F St. unfold peek_next. apply (peek_loop_spec sk); auto. now apply pfuel_enough. Qed.
Lemma consume_trivia_spec : forall p sk rest, ahead (plex p) (sk ++ rest) -> Forall (in_kinds (pskip p)) sk -> stops_skip (pskip p) rest ->
  exists q, consume_trivia p = Some q /\ ptrivia q = ptrivia p ++ sk /\ ahead (plex q) rest /\ same_settings p q.
Proof.
  intros p sk rest A F St. destruct (trivia_loop_spec sk (pfuel p) (pskip p) (plex p) (ptrivia p) rest A F St (pfuel_enough _ _ A)) as (y & E & Ay & F1 & F2).
  unfold consume_trivia. rewrite E. eexists. split; [reflexivity |]. unfold same_settings. cbn. auto 10.
Qed.
Lemma next_is_stop_spec : forall p sk rest, ahead (plex p) (sk ++ rest) -> Forall (in_kinds (pskip p)) sk -> stops_skip (pskip p) rest -> kindset_contains (pskip p) K_Eof = false ->
  next_is_stop p = Some (kindset_contains (pstop p) (tkind (ctok (hd_or_eof (plex p) rest)))).
Proof. intros p sk rest A F St Z. unfold next_is_stop. apply (stop_loop_spec sk); auto. now apply pfuel_enough. Qed.
