From Coq Require Import String.
From Coq Require Import List.
From Coq Require Import Sorting.Permutation Sorting.Sorted.
From Coq Require Import ZifyBool ZifyNat ZifyN.
From Verif Require Import LspDoc SpecLspJson SpecLspDoc SpecSpan SpanProofs SpecLspHandler LspHandlerProofs LspMessageProofs.
Open Scope N_scope.
Open Scope list_scope.

(* ---- positions ---- *)
Lemma ordinary_break : forall c, ordinary_char c -> rope_break c = ((c =? 10) || (c =? 13)).
Proof. intros c (_ & H). unfold rope_break. cbn [In] in H. lia. Qed.
Lemma position_offset : forall t l col off, position t l col off -> ordinary t -> exists st, line_to_char t (N.to_nat l) = Some st /\ off = (st + N.to_nat col)%nat.
Proof.
  intros t l col off P. induction P; intros O.
  - exists 0%nat. split; [destruct t |]; reflexivity.
  - inversion O as [| ? ? (B & _) O']; subst. destruct (IHP O') as (st & E & ->). exists st.
    assert (st = 0%nat) as -> by (destruct t; cbn in E; congruence). split; [reflexivity |]. unfold utf16. replace (c <? 65536) with true by lia. lia.
  - inversion O as [| ? ? B O']; subst. destruct (IHP O') as (st & E & ->). exists (S st). split; [| lia].
    rewrite N2Nat.inj_succ in E |- *. cbn [line_to_char]. rewrite ordinary_break by assumption. replace ((c =? 10) || (c =? 13)) with false by lia.
    rewrite E. reflexivity.
  - inversion O as [| ? ? B O']; subst. destruct (IHP O') as (st & E & ->). exists (S st). split; [| lia].
    rewrite N2Nat.inj_succ. cbn [line_to_char]. rewrite ordinary_break by assumption. change ((10 =? 10) || (10 =? 13)) with true. cbv iota. rewrite E. reflexivity.
  - inversion O as [| ? ? B O']; subst. inversion O' as [| ? ? B' O'']; subst. destruct (IHP O'') as (st & E & ->). exists (S (S st)). split; [| lia].
    rewrite N2Nat.inj_succ. cbn [line_to_char]. rewrite ordinary_break by assumption. change ((13 =? 10) || (13 =? 13)) with true. cbv iota. rewrite E. reflexivity.
  - inversion O as [| ? ? B O']; subst. destruct (IHP O') as (st & E & ->). exists (S st). split; [| lia].
    rewrite N2Nat.inj_succ. cbn [line_to_char]. rewrite ordinary_break by assumption. change ((13 =? 10) || (13 =? 13)) with true. cbv iota.
    assert (G : option_map S (line_to_char t (N.to_nat l)) = Some (S st)) by now rewrite E.
    destruct t as [| x t]; [exact G |]. cbn [hd_error] in H. assert (x <> 10) by congruence.
    destruct x as [| x]; [exact G |]. destruct x as [x | x |]; try exact G. destruct x as [x | x |]; try exact G. destruct x as [x | x |]; try exact G. destruct x as [x | x |]; try exact G. congruence.
Qed.
Lemma position_in : forall t l col off, position t l col off -> (off <= length t)%nat.
Proof. intros t l col off P. induction P; cbn [length]; lia. Qed.
(* a position denotes one place *)
Lemma position_functional : forall t l col a b, position t l col a -> position t l col b -> a = b.
Proof.
  intros t l col a b P. revert b. induction P; intros b Q.
  - inversion Q; subst; try lia. unfold utf16 in *. destruct (c <? 65536); lia.
  - inversion Q; subst; try lia; try congruence. { unfold utf16 in *. destruct (c <? 65536); lia. } f_equal. apply IHP. assert (col0 = col) as <- by lia. assumption.
  - inversion Q; subst; try lia; try congruence. f_equal. apply IHP. assert (l0 = l) as <- by lia. assumption.
  - inversion Q; subst; try lia; try congruence. f_equal. apply IHP. assert (l0 = l) as <- by lia. assumption.
  - inversion Q; subst; try lia; try congruence. + f_equal. f_equal. apply IHP. assert (l0 = l) as <- by lia. assumption. + cbn in *. congruence.
  - inversion Q; subst; try lia; try congruence. + cbn in *. congruence. + f_equal. apply IHP. assert (l0 = l) as <- by lia. assumption.
Qed.

(* ---- edits ---- *)
Lemma insert_at : forall t a b s, (a <= b)%nat -> (b <= length t)%nat -> try_insert (try_remove t a (Some b)) a s = firstn a t ++ s ++ skipn b t.
Proof.
  intros t a b s A B. unfold try_remove. replace (Nat.leb a b && Nat.leb b (length t)) with true by lia. unfold try_insert.
  assert (L : length (firstn a t) = a) by (rewrite firstn_length; lia).
  replace (Nat.leb a (length (firstn a t ++ skipn b t))) with true by (rewrite app_length; lia).
  rewrite firstn_app, skipn_app, L, Nat.sub_diag, firstn_O, skipn_O, app_nil_r. rewrite firstn_firstn, Nat.min_id.
  rewrite (skipn_all2 (firstn a t)) by lia. reflexivity.
Qed.
Lemma whole_at : forall t s, try_insert (try_remove t O None) O s = s.
Proof.
  intros t s. unfold try_remove. replace (Nat.leb 0 (length t) && Nat.leb (length t) (length t)) with true by lia. rewrite skipn_all. cbn. apply app_nil_r.
Qed.
Lemma opened : forall s, open_text s = s.
Proof. intro s. apply whole_at. Qed.
Lemma change_applied : forall t c t', ordinary t -> edit t c t' -> apply_change t c = t'.
Proof.
  intros t c t' O E. destruct E; unfold apply_change; cbn [change_range crange ctext].
  - apply whole_at.
  - destruct (position_offset _ _ _ _ H O) as (st & -> & ->). destruct (position_offset _ _ _ _ H0 O) as (en & -> & ->).
    apply insert_at; [assumption | now apply position_in in H0].
Qed.
Lemma ordinary_firstn : forall t n, ordinary t -> ordinary (firstn n t).
Proof. intros t n H. unfold ordinary in *. rewrite Forall_forall in *. intros x I. apply H. rewrite <- (firstn_skipn n t). apply in_or_app. now left. Qed.
Lemma ordinary_skipn : forall t n, ordinary t -> ordinary (skipn n t).
Proof. intros t n H. unfold ordinary in *. rewrite Forall_forall in *. intros x I. apply H. rewrite <- (firstn_skipn n t). apply in_or_app. now right. Qed.
Lemma edit_ordinary : forall t c t', ordinary t -> ordinary (ctext c) -> edit t c t' -> ordinary t'.
Proof.
  intros t c t' O C E. destruct E; [exact C |]. unfold ordinary. apply Forall_app. split; [now apply ordinary_firstn |]. apply Forall_app. split; [exact C | now apply ordinary_skipn].
Qed.
Lemma changes_applied : forall cs t t', ordinary t -> Forall (fun c => ordinary (ctext c)) cs -> edits t cs t' -> apply_changes t cs = t' /\ ordinary t'.
Proof.
  induction cs as [| c cs IH]; intros t t' O F E; inversion E; subst; [now split |]. inversion F; subst. cbn [apply_changes fold_left].
  rewrite (change_applied _ _ _ O H2). apply IH; try assumption. eapply edit_ordinary; [exact O | | exact H2]. assumption.
Qed.

(* ---- parameters ---- *)
Lemma num_u32 : forall n, n < 2 ^ 32 -> u32_of (Some (num n)) = Some n.
Proof. intros n H. unfold num, u32_of. replace ((0 <=? Z.of_N n)%Z && (Z.of_N n <? 2 ^ 32)%Z) with true by lia. now rewrite N2Z.id. Qed.
Lemma position_read : forall a b, a < 2 ^ 32 -> b < 2 ^ 32 -> position_of (Some (position_json (a, b))) = Some (a, b).
Proof.
  intros a b A B. unfold position_of, position_json. cbn [fst snd].
  change (fields 2 [chars "line"; chars "character"] (JObj [(chars "line", num a); (chars "character", num b)])) with (Some [Some (num a); Some (num b)]).
  cbv beta iota. rewrite !num_u32 by assumption. reflexivity.
Qed.
Lemma change_read : forall t c t', edit t c t' -> change_of (change_json c) = Some c.
Proof.
  intros t c t' E. destruct E; unfold change_of, change_json; cbn [crange ctext app].
  - reflexivity.
  - set (r := JObj [(chars "start", position_json (sl, sc)); (chars "end", position_json (el, ec))]).
    change (fields 1 [chars "range"; chars "rangeLength"; chars "text"] (JObj [(chars "range", r); (chars "text", JStr s)])) with (Some [Some r; None; Some (JStr s)]).
    cbv beta iota. unfold opt_u32_ok. unfold r. unfold range_of.
    set (p := position_json (sl, sc)). set (q := position_json (el, ec)).
    change (fields 2 [chars "start"; chars "end"] (JObj [(chars "start", p); (chars "end", q)])) with (Some [Some p; Some q]). cbv beta iota.
    unfold p, q. rewrite !position_read by assumption. reflexivity.
Qed.
Lemma changes_read : forall cs t t', edits t cs t' -> all_some (map change_of (map change_json cs)) = Some cs.
Proof. induction cs as [| c cs IH]; intros t t' E; inversion E; subst; [reflexivity |]. cbn [map]. rewrite (change_read _ _ _ H2). cbn [all_some]. rewrite (IH _ _ H4). reflexivity. Qed.
Section Service.
Context (uri_ok : text -> bool) (hl : text -> option (list highlight)) (decodes : text -> json -> bool) (capabilities : json).
Notation run := (service_run uri_ok hl decodes capabilities).
Notation handle := (service_handle uri_ok hl decodes capabilities).

Lemma open_read : forall u lang v t, uri_ok u = true -> i32_ok v = true ->
  did_open_of uri_ok (params_of (open_message u lang v t)) = Some (u, t).
Proof.
  intros u lang v t U V. unfold did_open_of, open_message, params_of.
  set (d := JObj [(chars "uri", JStr u); (chars "languageId", JStr lang); (chars "version", JInt v); (chars "text", JStr t)]).
  change (fields 1 [chars "textDocument"] (JObj [(chars "textDocument", d)])) with (Some [Some d]). cbv beta iota.
  change (fields 4 [chars "uri"; chars "languageId"; chars "version"; chars "text"] d) with (Some [Some (JStr u); Some (JStr lang); Some (JInt v); Some (JStr t)]). cbv beta iota.
  unfold uri_of. rewrite U. cbn [string_of i32_opt]. rewrite V. reflexivity.
Qed.
Lemma change_msg_read : forall u v cs t t', uri_ok u = true -> i32_ok v = true -> edits t cs t' ->
  did_change_of uri_ok (params_of (change_message u v cs)) = Some (u, cs).
Proof.
  intros u v cs t t' U V E. unfold did_change_of, change_message, params_of.
  set (d := JObj [(chars "uri", JStr u); (chars "version", JInt v)]). set (l := JArr (map change_json cs)).
  change (fields 2 [chars "textDocument"; chars "contentChanges"] (JObj [(chars "textDocument", d); (chars "contentChanges", l)])) with (Some [Some d; Some l]). cbv beta iota.
  unfold l. change (fields 2 [chars "uri"; chars "version"] d) with (Some [Some (JStr u); Some (JInt v)]). cbv beta iota. unfold uri_of. rewrite U. cbn [i32_opt]. rewrite V.
  rewrite (changes_read _ _ _ E). reflexivity.
Qed.

(* ---- the file table ---- *)
Lemma find_store : forall u t l v, find v (store u t l) = if list_eq_dec N.eq_dec v u then Some t else find v l.
Proof.
  intros u t l v. induction l as [| [w s] l IH].
  - cbn [store find]. unfold same_key. destruct (list_eq_dec N.eq_dec u v), (list_eq_dec N.eq_dec v u); congruence.
  - cbn [store]. unfold same_key in *. destruct (list_eq_dec N.eq_dec w u); cbn [find]; unfold same_key; rewrite ?IH;
      destruct (list_eq_dec N.eq_dec w v), (list_eq_dec N.eq_dec v u); try congruence.
Qed.
(* what one message does to the documents *)
Lemma open_handled : forall s u lang v t, ready s = true -> uri_ok u = true -> i32_ok v = true ->
  handle s (open_message u lang v t) = Some (Service true (store u t (files s)), None).
Proof.
  intros s u lang v t R U V. unfold service_handle, LspHandler.handle. pose proof (open_read u lang v t U V) as P.
  change (is_exit (open_message u lang v t)) with false. rewrite R. cbn [negb andb]. change (method_of (open_message u lang v t)) with (chars "textDocument/didOpen").
  set (p := params_of (open_message u lang v t)) in *.
  change (member (chars "textDocument/didOpen") request_methods) with false. change (member (chars "textDocument/didOpen") bare_methods) with false.
  change (member (chars "textDocument/didOpen") notification_methods) with true. cbv iota.
  unfold service_decodes. change (same_key (chars "textDocument/didOpen") (chars "textDocument/didOpen")) with true. cbv iota. rewrite P. cbv iota.
  unfold service_notify. change (same_key (chars "textDocument/didOpen") (chars "textDocument/didOpen")) with true. cbv iota. rewrite P. rewrite opened, R. reflexivity.
Qed.
Lemma change_handled : forall s u v cs t t', ready s = true -> uri_ok u = true -> i32_ok v = true -> document s u = Some t -> edits t cs t' ->
  handle s (change_message u v cs) = Some (Service true (store u (apply_changes t cs) (files s)), None).
Proof.
  intros s u v cs t t' R U V D E. unfold service_handle, LspHandler.handle. pose proof (change_msg_read u v cs _ _ U V E) as P.
  change (is_exit (change_message u v cs)) with false. rewrite R. cbn [negb andb]. change (method_of (change_message u v cs)) with (chars "textDocument/didChange").
  set (p := params_of (change_message u v cs)) in *.
  change (member (chars "textDocument/didChange") request_methods) with false. change (member (chars "textDocument/didChange") bare_methods) with false.
  change (member (chars "textDocument/didChange") notification_methods) with true. cbv iota.
  unfold service_decodes. change (same_key (chars "textDocument/didChange") (chars "textDocument/didOpen")) with false. change (same_key (chars "textDocument/didChange") (chars "textDocument/didChange")) with true. cbv iota. rewrite P. cbv iota.
  unfold service_notify. change (same_key (chars "textDocument/didChange") (chars "textDocument/didOpen")) with false. change (same_key (chars "textDocument/didChange") (chars "textDocument/didChange")) with true. cbv iota. rewrite P, D, R. reflexivity.
Qed.
Lemma key_differs : forall a b, a <> b -> same_key a b = false.
Proof. intros a b H. unfold same_key. now destruct (list_eq_dec N.eq_dec a b). Qed.
Lemma other_handled : forall s m s' r, ~ In (method_of m) [chars "textDocument/didOpen"; chars "textDocument/didChange"; chars "exit"] -> handle s m = Some (s', r) -> files s' = files s.
Proof.
  intros s m s' r N H. unfold service_handle, LspHandler.handle, answer in H. destruct (is_exit m); [inversion H; now subst |].
  destruct (negb (ready s) && negb (is_initialize m)); [inversion H; now subst |].
  assert (A : same_key (method_of m) (chars "textDocument/didOpen") = false) by (apply key_differs; intro Q; apply N; rewrite Q; cbn [In]; tauto).
  assert (B : same_key (method_of m) (chars "textDocument/didChange") = false) by (apply key_differs; intro Q; apply N; rewrite Q; cbn [In]; tauto).
  assert (RQ : forall p s1 v, service_request uri_ok hl capabilities (method_of m) p s = Some (s1, v) -> files s1 = files s).
  { intros p s1 v Q. unfold service_request in Q. destruct (same_key _ (chars "initialize")); [inversion Q; reflexivity |].
    destruct (same_key _ (chars "textDocument/semanticTokens/full")).
    - destruct (semantic_of uri_ok p) as [u |]; [| inversion Q; now subst]. destruct (document s u) as [t |]; [| inversion Q; now subst]. destruct (hl t) as [l |]; [| discriminate]. destruct (highlight_reply t l); [inversion Q; now subst | discriminate].
    - destruct (same_key _ (chars "textDocument/completion")); inversion Q; now subst. }
  destruct (member (method_of m) request_methods).
  { destruct (service_decodes uri_ok decodes (method_of m) (params_of m)); [| inversion H; now subst].
    destruct (service_request uri_ok hl capabilities (method_of m) (params_of m) s) as [[s1 v] |] eqn:Q; inversion H; subst; eauto. }
  destruct (member (method_of m) bare_methods).
  { destruct (service_request uri_ok hl capabilities (method_of m) JNull s) as [[s1 v] |] eqn:Q; inversion H; subst; eauto. }
  destruct (member (method_of m) notification_methods).
  { destruct (service_decodes _ _ _ _); [| inversion H; now subst]. unfold service_notify in H. rewrite A, B in H. inversion H; now subst. }
  destruct m; inversion H; now subst.
Qed.
Lemma service_ready : forall s m s' r, handle s m = Some (s', r) -> ready s = true -> ready s' = true.
Proof.
  unfold service_handle. apply handle_ready.
  - intros me p s s' r Q R. unfold service_request in Q. destruct (same_key _ (chars "initialize")); [inversion Q; reflexivity |].
    destruct (same_key _ (chars "textDocument/semanticTokens/full")).
    + destruct (semantic_of uri_ok p) as [u |]; [| inversion Q; now subst]. destruct (document s u) as [t |]; [| inversion Q; now subst]. destruct (hl t) as [l |]; [| discriminate]. destruct (highlight_reply t l); [inversion Q; now subst | discriminate].
    + destruct (same_key _ (chars "textDocument/completion")); inversion Q; now subst.
  - intros me p s s' Q R. unfold service_notify in Q. destruct (same_key _ _).
    + destruct (did_open_of uri_ok p) as [[? ?] |]; inversion Q; now subst.
    + destruct (same_key _ _); [| inversion Q; now subst]. destruct (did_change_of uri_ok p) as [[u ?] |]; [| inversion Q; now subst]. destruct (document s u); inversion Q; now subst.
Qed.
Definition agrees (s : service) (d : documents) : Prop := forall u, document s u = d u /\ match d u with Some t => ordinary t | None => True end.
Lemma step_agrees : forall d m d' s s' r, client_step uri_ok d m d' -> ready s = true -> agrees s d -> handle s m = Some (s', r) -> agrees s' d'.
Proof.
  intros d m d' s s' r C R A H. destruct C.
  - rewrite open_handled in H by assumption. inversion H; subst. intros w. unfold document. cbn [files]. rewrite find_store. unfold set_doc. destruct (list_eq_dec N.eq_dec w u); [split; auto | apply A].
  - destruct (A u) as (A1 & A2). rewrite H2 in A1, A2. rewrite (change_handled _ _ _ _ t t') in H by assumption. inversion H; subst.
    destruct (changes_applied cs t t' A2 H3 H4) as (E & O). rewrite E. intros w. unfold document. cbn [files]. rewrite find_store. unfold set_doc. destruct (list_eq_dec N.eq_dec w u); [split; auto | apply A].
  - apply other_handled in H; [| assumption]. intros u. unfold document. rewrite H. apply A.
Qed.
Lemma step_not_exit : forall d m d', client_step uri_ok d m d' -> is_exit m = false.
Proof.
  intros d m d' C. destruct C; try reflexivity. destruct (is_exit m) eqn:E; [| reflexivity]. apply not_exit in E as (p & ->). cbn [method_of In] in H. tauto.
Qed.
Lemma run_agrees : forall ms d d' s out s', client_run uri_ok d ms d' -> ready s = true -> agrees s d -> run s ms = (out, Some s') -> agrees s' d'.
Proof.
  induction ms as [| m ms IH]; intros d d' s out s' C R A H; inversion C; subst; unfold service_run in H; cbn [LspHandler.serve] in H; [inversion H; now subst |].
  rewrite (step_not_exit _ _ _ H3) in H. fold (service_handle uri_ok hl decodes capabilities s m) in H. destruct (handle s m) as [[s1 r] |] eqn:Q; [| discriminate].
  fold (run s1 ms) in H. destruct (run s1 ms) as [o e] eqn:Q2. inversion H; subst. eapply IH; [exact H5 | eapply service_ready; eassumption | eapply step_agrees; eassumption | exact Q2].
Qed.
Lemma initialize_handled : forall i p, decodes (chars "initialize"%string) p = true ->
  handle service_new (Request i (chars "initialize"%string) p) = Some (Service true [], Some (ResponseOk i capabilities)).
Proof.
  intros i p D. unfold service_handle, LspHandler.handle. change (is_exit (Request i (chars "initialize") p)) with false. change (is_initialize (Request i (chars "initialize") p)) with true.
  cbn [ready service_new negb andb method_of params_of id_or_default]. change (member (chars "initialize") request_methods) with true. cbv iota.
  unfold service_decodes. change (same_key (chars "initialize") (chars "textDocument/didOpen")) with false. change (same_key (chars "initialize") (chars "textDocument/didChange")) with false.
  change (same_key (chars "initialize") (chars "textDocument/semanticTokens/full")) with false. cbv iota. rewrite D. reflexivity.
Qed.
Lemma session : forall i p ms d out s', decodes (chars "initialize"%string) p = true -> client_run uri_ok (fun _ => None) ms d ->
  run service_new (Request i (chars "initialize"%string) p :: ms) = (out, Some s') -> forall u, document s' u = d u.
Proof.
  intros i p ms d out s' D C H u. unfold service_run in H. cbn [LspHandler.serve] in H. change (is_exit (Request i (chars "initialize") p)) with false in H. cbv iota in H.
  fold (service_handle uri_ok hl decodes capabilities service_new (Request i (chars "initialize") p)) in H. rewrite (initialize_handled _ _ D) in H.
  fold (run (Service true []) ms) in H. destruct (run (Service true []) ms) as [o e] eqn:Q. inversion H; subst.
  assert (A : agrees (Service true []) (fun _ => None)) by (intro w; split; [reflexivity | exact I]).
  exact (proj1 (run_agrees _ _ _ (Service true []) _ _ C eq_refl A Q u)).
Qed.
(* the reply of semanticTokens/full is about the current text *)
Definition semantic_message (i : rpc_id) (u : text) : message :=
  Request i (chars "textDocument/semanticTokens/full"%string) (JObj [(chars "textDocument"%string, JObj [(chars "uri"%string, JStr u)])]).
Lemma semantic_handled : forall s i u t hs l, ready s = true -> uri_ok u = true -> document s u = Some t -> hl t = Some hs -> highlight_reply t hs = Some l ->
  handle s (semantic_message i u) = Some (s, Some (ResponseOk i (JObj [(chars "data"%string, JArr (flat_map (fun x => token_json (semantic_token x)) l))]))).
Proof.
  intros s i u t hs l R U D H L. unfold service_handle, LspHandler.handle, semantic_message.
  set (p := JObj [(chars "textDocument", JObj [(chars "uri", JStr u)])]).
  assert (P : semantic_of uri_ok p = Some u).
  { unfold semantic_of, p. set (d := JObj [(chars "uri", JStr u)]).
    change (obj_fields [chars "workDoneToken"; chars "partialResultToken"; chars "textDocument"] [(chars "textDocument", d)]) with (Some [None; None; Some d]). cbv beta iota.
    cbn [token_ok andb uri_in]. change (fields 1 [chars "uri"] d) with (Some [Some (JStr u)]). cbv beta iota. unfold uri_of. now rewrite U. }
  cbn [is_exit]. rewrite R. cbn [negb andb method_of params_of id_or_default]. change (member (chars "textDocument/semanticTokens/full") request_methods) with true. cbv iota.
  unfold service_decodes. change (same_key (chars "textDocument/semanticTokens/full") (chars "textDocument/didOpen")) with false. change (same_key (chars "textDocument/semanticTokens/full") (chars "textDocument/didChange")) with false.
  change (same_key (chars "textDocument/semanticTokens/full") (chars "textDocument/semanticTokens/full")) with true. cbv iota. rewrite P. cbv iota. unfold answer, service_request.
  change (same_key (chars "textDocument/semanticTokens/full") (chars "initialize")) with false. change (same_key (chars "textDocument/semanticTokens/full") (chars "textDocument/semanticTokens/full")) with true. cbv iota.
  rewrite P, D, H, L. reflexivity.
Qed.
End Service.

(* ---- semantic tokens ---- *)
Lemma span_leb_le : forall a b, span_leb a b = true <-> span_le a b.
Proof. intros a b. unfold span_leb, span_le. lia. Qed.
Lemma insert_perm : forall h l, Permutation (h :: l) (insert_sorted h l).
Proof.
  intros h l. induction l as [| x l IH]; cbn [insert_sorted]; [reflexivity |]. destruct (span_leb _ _); [reflexivity |].
  etransitivity; [apply perm_swap |]. now constructor.
Qed.
Lemma sorted_perm : forall l, Permutation l (sorted l).
Proof. induction l as [| h l IH]; cbn [sorted]; [reflexivity |]. etransitivity; [| apply insert_perm]. now constructor. Qed.
Notation hle := (fun a b => span_le (hspan a) (hspan b)).
Lemma insert_StronglySorted : forall h l, StronglySorted hle l -> StronglySorted hle (insert_sorted h l).
Proof.
  intros h l H. induction H as [| x l H IH F]; cbn [insert_sorted]; [repeat constructor |].
  destruct (span_leb (hspan h) (hspan x)) eqn:E.
  - apply span_leb_le in E. constructor; [now constructor |]. constructor; [exact E |]. rewrite Forall_forall in *. intros y I. specialize (F y I). unfold span_le in *. lia.
  - constructor; [exact IH |]. rewrite Forall_forall in *. intros y I. apply (Permutation_in _ (Permutation_sym (insert_perm h l))) in I. destruct I as [<- | I]; [| auto].
    unfold span_leb in E. unfold span_le. lia.
Qed.
Lemma sorted_sorted : forall l, StronglySorted hle (sorted l).
Proof. induction l as [| h l IH]; cbn [sorted]; [constructor | now apply insert_StronglySorted]. Qed.

Definition place (p : text) : N * N := (count_newlines p, col_after p 0).
Lemma place_at : forall src h p, starts_after src h p -> line_and_column (hspan h) src = Some (place p).
Proof.
  intros src [[a b] k m] p (r & -> & E). cbn [hspan sstart] in *. subst. unfold line_and_column. cbn [sstart]. rewrite line_col_spec. reflexivity.
Qed.
Lemma newlines_app : forall p q, count_newlines (p ++ q) = count_newlines p + count_newlines q.
Proof. intros p q. unfold count_newlines. rewrite count_occ_app. lia. Qed.
Lemma place_mono : forall p q, fst (place p) < fst (place (p ++ q)) \/ (fst (place p) = fst (place (p ++ q)) /\ snd (place p) <= snd (place (p ++ q))).
Proof.
  intros p q. unfold place. cbn [fst snd]. rewrite newlines_app, col_after_app. destruct (N.eq_dec (count_newlines q) 0) as [Z | Z]; [right | left; lia].
  split; [lia |]. assert (~ In 10 q) by (unfold count_newlines in Z; apply (count_occ_not_In N.eq_dec); lia). rewrite (col_after_nonl q) by assumption. lia.
Qed.
Lemma prefix_of : forall (a b c d : text), a ++ b = c ++ d -> blen a <= blen c -> exists e, c = a ++ e.
Proof.
  induction a as [| x a IH]; intros b c d E L; [now exists c |]. destruct c as [| y c].
  - cbn [blen] in L. unfold len_utf8 in L. destruct (x <? 128), (x <? 2048), (x <? 65536); lia.
  - cbn [app] in E. inversion E; subst. cbn [blen] in L. destruct (IH b c d H1 ltac:(lia)) as (e & ->). now exists e.
Qed.
Lemma deltas_decode : forall src l cl cs (ps : list text), Forall2 (starts_after src) l ps ->
  StronglySorted hle l -> (match ps with [] => True | p :: _ => cl < fst (place p) \/ (cl = fst (place p) /\ cs <= snd (place p)) end) ->
  exists r, deltas src cl cs l = Some r /\ map (fun x => fst (fst x)) r = l /\ decode cl cs (map (fun x => (snd (fst x), snd x)) r) = map place ps.
Proof.
  intros src l. induction l as [| h l IH]; intros cl cs ps F S G; inversion F; subst.
  - exists []. repeat split.
  - rename y into p. rename l' into ps. cbn [deltas]. rewrite (place_at _ _ _ H1). destruct (place p) as [line start] eqn:P. cbn [fst snd] in G.
    destruct (line <? cl) eqn:A; [lia |]. destruct ((line - cl =? 0) && (start <? cs)) eqn:B; [lia |].
    inversion S; subst.
    assert (G' : match ps with [] => True | q :: _ => line < fst (place q) \/ (line = fst (place q) /\ start <= snd (place q)) end).
    { destruct ps as [| q ps]; [exact I |]. inversion H3; subst. inversion H4 as [| ? ? LE ?]; subst. pose proof H1 as (ra & E1 & E2). pose proof H6 as (rb & E3 & E4).
      destruct (prefix_of p ra q rb) as (e & ->); [congruence | unfold span_le in LE; lia |]. pose proof (place_mono p e) as M. rewrite P in M. exact M. }
    destruct (IH line start ps H3 H2 G') as (r & D & M & K). rewrite D. eexists. split; [reflexivity |]. cbn [map fst snd decode]. split; [now rewrite M |].
    rewrite P. replace (cl + (line - cl)) with line by lia. 
    destruct (line - cl =? 0) eqn:C.
    + replace (cs + (start - cs)) with start by lia. now rewrite K.
    + now rewrite K.
Qed.
Lemma boundaries : forall src l, Forall (on_boundary src) l -> exists ps, Forall2 (starts_after src) l ps.
Proof. intros src l F. induction F as [| h l (p & H) F (ps & IH)]; [exists []; constructor |]. exists (p :: ps). now constructor. Qed.
Lemma reply_decodes : forall src hs, Forall (on_boundary src) hs ->
  exists l ps, highlight_reply src hs = Some l /\ Permutation hs (map (fun x => fst (fst x)) l) /\
    StronglySorted hle (map (fun x => fst (fst x)) l) /\
    Forall2 (starts_after src) (map (fun x => fst (fst x)) l) ps /\
    decode 0 0 (map (fun x => (snd (fst x), snd x)) l) = map place ps.
Proof.
  intros src hs F. assert (F' : Forall (on_boundary src) (sorted hs)) by (rewrite Forall_forall in *; intros x I; apply F; now apply (Permutation_in _ (Permutation_sym (sorted_perm hs)))).
  destruct (boundaries _ _ F') as (ps & B). destruct (deltas_decode src (sorted hs) 0 0 ps B (sorted_sorted hs)) as (l & D & M & K).
  - destruct ps as [| p ps]; [exact I |]. destruct (place p); cbn [fst snd]. lia.
  - exists l, ps. rewrite M. repeat split; try assumption; [apply sorted_perm | apply sorted_sorted].
Qed.
(* the model's place of a prefix is LSP's position when CR only occurs in CRLF and the text is in the BMP *)
Lemma place_position : forall p r, ordinary (p ++ r) -> no_lone_cr (p ++ r) -> (last p 0 <> 13 \/ hd_error r <> Some 10) ->
  position (p ++ r) (count_newlines p) (col_after p 0) (length p).
Proof.
  assert (G : forall n p r, (length p <= n)%nat -> ordinary (p ++ r) -> no_lone_cr (p ++ r) -> (last p 0 <> 13 \/ hd_error r <> Some 10) ->
    (forall k, ~ In 10 p -> col_after p k = k + N.of_nat (length p)) /\ (In 10 p -> forall k, col_after p k = col_after p 0) /\ position (p ++ r) (count_newlines p) (col_after p 0) (length p)).
  2:{ intros p r O L E. apply (G (length p) p r (le_n _) O L E). }
  induction n as [| n IH]; intros p r N O L E; (destruct p as [| c p]; [repeat split; [intros; cbn; lia | intros []| constructor] |]); [cbn [length] in N; lia |].
  cbn [length] in N. inversion O as [| ? ? B O']; subst. cbn [app no_lone_cr] in L. destruct L as (L1 & L2).
  assert (E' : last p 0 <> 13 \/ hd_error r <> Some 10). { destruct p; [left; discriminate | exact E]. }
  destruct (IH p r ltac:(lia) O' L2 E') as (I1 & I2 & I3).
  split; [| split].
  - intros k Q. apply col_after_nonl. exact Q.
  - intros Q k. cbn [col_after]. destruct (N.eq_dec c 10) as [-> | Hc]; [reflexivity |]. replace (c =? 10) with false by lia.
    assert (In 10 p) by (destruct Q; [congruence | assumption]). now rewrite (I2 H (k + 1)), (I2 H (0 + 1)).
  - cbn [app length col_after]. destruct (N.eq_dec c 10) as [-> | Hc].
    + change (10 =? 10) with true. cbv iota. replace (count_newlines (10 :: p)) with (N.succ (count_newlines p)) by (unfold count_newlines; cbn [count_occ]; destruct (N.eq_dec 10 10); [lia | congruence]). now constructor.
    + replace (c =? 10) with false by lia. replace (count_newlines (c :: p)) with (count_newlines p) by (unfold count_newlines; cbn [count_occ]; destruct (N.eq_dec c 10); [congruence | reflexivity]).
      destruct (N.eq_dec c 13) as [-> | Hr].
      * specialize (L1 eq_refl). destruct p as [| x p].
        { cbn [app] in L1. cbn [last] in E. destruct E; congruence. }
        cbn [app hd_error] in L1. inversion L1; subst x. cbn [app length col_after]. change (10 =? 10) with true. cbv iota.
        inversion O' as [| ? ? ? O'']; subst. cbn [app no_lone_cr] in L2. cbn [length] in N.
        assert (E'' : last p 0 <> 13 \/ hd_error r <> Some 10). { destruct p; [left; discriminate | exact E']. }
        destruct (IH p r ltac:(lia) O'' (proj2 L2) E'') as (_ & _ & P).
        replace (count_newlines (10 :: p)) with (N.succ (count_newlines p)) by (unfold count_newlines; cbn [count_occ]; destruct (N.eq_dec 10 10); [lia | congruence]). now constructor.
      * destruct (in_dec N.eq_dec 10 p) as [Q | Q].
        { rewrite (I2 Q (0 + 1)). destruct (count_newlines p) as [| k] eqn:K.
          - unfold count_newlines in K. apply (count_occ_In N.eq_dec) in Q. lia.
          - rewrite <- (N.succ_pred (N.pos k)) by lia. apply pos_skip; try assumption. rewrite N.succ_pred by lia. exact I3. }
        { rewrite (I1 _ Q). rewrite (I1 0 Q) in I3. assert (K : count_newlines p = 0) by (unfold count_newlines; apply (count_occ_not_In N.eq_dec) in Q; lia). rewrite K in *.
          assert (U : utf16 c = 1) by (destruct B as (B & _); unfold utf16; destruct (c <? 65536) eqn:W; [reflexivity | lia]).
          replace (0 + 1 + N.of_nat (length p)) with (utf16 c + (0 + N.of_nat (length p))) by lia. now apply pos_char. }
Qed.

(* ---- restatements for the property file ---- *)
Lemma reply_places : forall src hs, Forall (on_boundary src) hs ->
  exists l ps, highlight_reply src hs = Some l /\ Permutation hs (map (fun x => fst (fst x)) l) /\
    StronglySorted hle (map (fun x => fst (fst x)) l) /\
    Forall2 (starts_after src) (map (fun x => fst (fst x)) l) ps /\
    Forall2 (fun p x => exists q, last_line p q /\ x = (count_newlines p, N.of_nat (length q))) ps (decode 0 0 (map (fun x => (snd (fst x), snd x)) l)).
Proof.
  intros src hs F. destruct (reply_decodes src hs F) as (l & ps & A & B & C & D & E). exists l, ps. repeat (split; [assumption |]). rewrite E. clear.
  induction ps as [| p ps IH]; cbn [map]; constructor; [| exact IH]. destruct (last_line_exists p) as (q & Q). exists q. split; [exact Q |]. unfold place. now rewrite (col_after_last _ _ Q).
Qed.
Lemma last_line_position : forall p r q, ordinary (p ++ r) -> no_lone_cr (p ++ r) -> (last p 0 <> 13 \/ hd_error r <> Some 10) -> last_line p q ->
  position (p ++ r) (count_newlines p) (N.of_nat (length q)) (length p).
Proof. intros p r q O L E Q. rewrite <- (col_after_last _ _ Q). now apply place_position. Qed.
Lemma blen_app' : forall a b, blen (a ++ b) = blen a + blen b.
Proof. induction a as [| c a IH]; intro b; cbn [app blen]; [reflexivity | rewrite IH; lia]. Qed.
Lemma ascii_length : forall p w r k m, Forall (fun c => c < 128) w -> let h := Highlight (Span (blen p) (blen (p ++ w))) k m in
  slice (p ++ w ++ r) (sstart (hspan h)) (send (hspan h)) = Some w /\ semantic_token (h, 0, 0) = (0, 0, utf16_length w, k, m).
Proof.
  intros p w r k m F h. unfold h. cbn [hspan sstart send semantic_token hkind hmod]. rewrite blen_app'. split.
  - unfold slice. replace (blen p + blen w <? blen p) with false by lia. replace (blen p + blen w - blen p) with (blen w) by lia.
    assert (D : drop_bytes (blen p) (p ++ w ++ r) = Some (w ++ r)).
    { clear. induction p as [| c p IH]; cbn [app blen drop_bytes]; [destruct (w ++ r); reflexivity |].
      assert (1 <= len_utf8 c) by (unfold len_utf8; destruct (c <? 128), (c <? 2048), (c <? 65536); lia).
      replace (len_utf8 c + blen p =? 0) with false by lia. replace (len_utf8 c + blen p <? len_utf8 c) with false by lia. replace (len_utf8 c + blen p - len_utf8 c) with (blen p) by lia. exact IH. }
    rewrite D. clear. induction w as [| c w IH]; cbn [app blen take_bytes]; [destruct r; reflexivity |].
    assert (1 <= len_utf8 c) by (unfold len_utf8; destruct (c <? 128), (c <? 2048), (c <? 65536); lia).
    replace (len_utf8 c + blen w =? 0) with false by lia. replace (len_utf8 c + blen w <? len_utf8 c) with false by lia. replace (len_utf8 c + blen w - len_utf8 c) with (blen w) by lia. now rewrite IH.
  - replace (blen p + blen w - blen p) with (blen w) by lia. do 3 f_equal. clear h. induction F as [| c w C F IH]; [reflexivity |]. cbn [blen utf16_length fold_right]. fold (utf16_length w). rewrite IH.
    unfold len_utf8, utf16. replace (c <? 128) with true by lia. replace (c <? 65536) with true by lia. reflexivity.
Qed.
Section Answers.
Context (uri_ok : text -> bool) (hl : text -> option (list highlight)) (decodes : text -> json -> bool) (capabilities : json).
Lemma service_answers : forall i p ms out s', decodes (chars "initialize"%string) p = true -> Forall disciplined ms -> no_exit ms ->
  service_run uri_ok hl decodes capabilities service_new (Request i (chars "initialize"%string) p :: ms) = (out, Some s') -> Forall2 replies_to (i :: request_ids ms) out.
Proof.
  intros i p ms out s' D Ds X R. unfold service_run in R. cbn [LspHandler.serve] in R. change (is_exit (Request i (chars "initialize") p)) with false in R. cbv iota in R.
  fold (service_handle uri_ok hl decodes capabilities service_new (Request i (chars "initialize") p)) in R. rewrite (initialize_handled uri_ok hl decodes capabilities _ _ D) in R.
  fold (service_run uri_ok hl decodes capabilities (Service true []) ms) in R. destruct (service_run uri_ok hl decodes capabilities (Service true []) ms) as [o e] eqn:Q. inversion R; subst.
  constructor; [reflexivity |]. eapply (answers ready) with (s := Service true []) (s' := s'); [| | exact eq_refl | exact Ds | exact X | exact Q].
  - intros me q s s1 r Z K. unfold service_request in Z. destruct (same_key _ (chars "initialize")); [inversion Z; reflexivity |].
    destruct (same_key _ (chars "textDocument/semanticTokens/full")).
    + destruct (semantic_of uri_ok q) as [u |]; [| inversion Z; now subst]. destruct (document s u) as [t |]; [| inversion Z; now subst]. destruct (hl t) as [l |]; [| discriminate]. destruct (highlight_reply t l); [inversion Z; now subst | discriminate].
    + destruct (same_key _ (chars "textDocument/completion")); inversion Z; now subst.
  - intros me q s s1 Z K. unfold service_notify in Z. destruct (same_key _ _).
    + destruct (did_open_of uri_ok q) as [[? ?] |]; inversion Z; now subst.
    + destruct (same_key _ _); [| inversion Z; now subst]. destruct (did_change_of uri_ok q) as [[u ?] |]; [| inversion Z; now subst]. destruct (document s u); inversion Z; now subst.
Qed.
Lemma notification_method_silent : forall i p me s s' r, In me notification_methods -> ready s = true ->
  service_handle uri_ok hl decodes capabilities s (Request i me p) = Some (s', r) -> r = None.
Proof.
  intros i p me s s' r M R Q. destruct (tables_disjoint _ M) as (A & B). apply member_in in M. unfold service_handle, handle in Q. cbn [is_exit] in Q. rewrite R in Q. cbn [negb andb method_of params_of] in Q.
  rewrite A, B, M in Q. destruct (service_decodes _ _ _ _); [| now inversion Q]. destruct (service_notify _ _ _ _); now inversion Q.
Qed.
End Answers.
