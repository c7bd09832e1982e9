(* Theorems for C36 (requests and notifications), C37 (documents), C38 (semantic tokens) and C39 (document threads). *)
From Coq Require Import String.
From Coq Require Import List.
From Coq Require Import Sorting.Permutation Sorting.Sorted.
From Verif Require Import LspHandler SpecLspHandler LspHandlerProofs SpecLspJson SpecSpan Span LspDoc SpecLspDoc LspDocProofs LspThreads SpecLspThreads LspThreadsProofs.
Open Scope N_scope.
Open Scope list_scope.

(* ---- C36: for every implementation of the Handler trait ---- *)
(* a thread that has handled a history has sent one response per request, in order, each with the request's id *)
Theorem C36_requests_answered_once_partial : forall (S : Type) initialized decodes request notify,
  (forall me p (s s' : S) r, request me p s = Some (s', r) -> initialized s = true -> initialized s' = true) ->
  (forall me p (s s' : S), notify me p s = Some s' -> initialized s = true -> initialized s' = true) ->
  forall ms s out s', initialized s = true -> Forall disciplined ms -> no_exit ms ->
  serve initialized decodes request notify s ms = (out, Some s') -> Forall2 replies_to (request_ids ms) out.
Proof. exact @answers. Qed.
Print Assumptions C36_requests_answered_once_partial.
(* if it gets stuck in a callback, everything before has been answered *)
Theorem C36_stuck_after_answers : forall (S : Type) initialized decodes request notify,
  (forall me p (s s' : S) r, request me p s = Some (s', r) -> initialized s = true -> initialized s' = true) ->
  (forall me p (s s' : S), notify me p s = Some s' -> initialized s = true -> initialized s' = true) ->
  forall ms s out, initialized s = true -> Forall disciplined ms -> no_exit ms ->
  serve initialized decodes request notify s ms = (out, None) ->
  exists before m after, ms = before ++ m :: after /\ Forall2 replies_to (request_ids before) out.
Proof. exact @answers_stuck. Qed.
Print Assumptions C36_stuck_after_answers.
Theorem C36_never_stuck : forall (S : Type) initialized decodes request notify,
  (forall me p (s : S), request me p s <> None) -> (forall me p (s : S), notify me p s <> None) ->
  forall ms s, snd (serve initialized decodes request notify s ms) <> None.
Proof. exact @never_stuck. Qed.
Print Assumptions C36_never_stuck.
Theorem C36_nothing_before_initialize : forall (S : Type) initialized decodes request notify ms (s : S),
  initialized s = false -> Forall not_initialize ms -> serve initialized decodes request notify s ms = ([], Some s).
Proof. exact @serve_not_ready. Qed.
Print Assumptions C36_nothing_before_initialize.
Theorem C36_nothing_after_exit : forall (S : Type) initialized decodes request notify ms p (s : S) r,
  serve initialized decodes request notify s (ms ++ Notification (chars "exit"%string) p :: r) = serve initialized decodes request notify s ms.
Proof. exact @after_exit. Qed.
Print Assumptions C36_nothing_after_exit.
Theorem C36_responses_ignored : forall (S : Type) initialized decodes request notify (s : S) m,
  match m with ResponseOk _ _ | ResponseErr _ _ _ _ => True | _ => False end -> handle initialized decodes request notify s m = Some (s, None).
Proof. exact @response_ignored. Qed.
Print Assumptions C36_responses_ignored.
Theorem C36_notifications_unanswered : forall (S : Type) initialized decodes request notify (s : S) me p s' r,
  ~ In me request_methods -> ~ In me bare_methods -> handle initialized decodes request notify s (Notification me p) = Some (s', r) -> r = None.
Proof. exact @notification_silent. Qed.
Print Assumptions C36_notifications_unanswered.

(* the service of this program, with any document highlighter, any decoder of the other parameters *)
Section Service.
Context (uri_ok : text -> bool) (hl : text -> option (list highlight)) (decodes : text -> json -> bool) (capabilities : json).
Notation run := (service_run uri_ok hl decodes capabilities).
Theorem C36_service_requests_answered_once_partial : forall i p ms out s', decodes (chars "initialize"%string) p = true -> Forall disciplined ms -> no_exit ms ->
  run service_new (Request i (chars "initialize"%string) p :: ms) = (out, Some s') -> Forall2 replies_to (i :: request_ids ms) out.
Proof. exact (service_answers uri_ok hl decodes capabilities). Qed.
(* a request with the method of a notification is never answered *)
Theorem C36_request_with_a_notification_method_refuted : forall i p me s s' r, In me notification_methods -> ready s = true ->
  service_handle uri_ok hl decodes capabilities s (Request i me p) = Some (s', r) -> r = None.
Proof. exact (notification_method_silent uri_ok hl decodes capabilities). Qed.
(* a notification with the method of a request is answered, with id 0 *)
Theorem C36_notification_answered_refuted : exists m s r, s = Service true [] /\ m = Notification (chars "shutdown"%string) JNull /\
  service_handle uri_ok hl decodes capabilities s m = Some (s, Some r) /\ replies_to (IdNumber 0) r.
Proof. eexists _, _, _. split; [reflexivity |]. split; [reflexivity |]. split; reflexivity. Qed.
(* requests before initialize are dropped: LSP asks for an error response *)
Theorem C36_early_request_dropped_refuted : forall i me p, me <> chars "initialize"%string -> run service_new [Request i me p] = ([], Some service_new).
Proof. intros i me p N. apply serve_not_ready; [reflexivity |]. constructor; [exact N | constructor]. Qed.
(* shutdown is not implemented, and semanticTokens/full/delta is advertised but not implemented *)
Theorem C36_shutdown_not_found_refuted : forall i p s, ready s = true ->
  service_handle uri_ok hl decodes capabilities s (Request i (chars "shutdown"%string) p) = Some (s, Some (ResponseErr i EC_MethodNotFound [] JNull)).
Proof. intros i p s R. unfold service_handle, handle. cbn [is_exit]. rewrite R. reflexivity. Qed.
End Service.
Print Assumptions C36_service_requests_answered_once_partial.
Print Assumptions C36_request_with_a_notification_method_refuted.
Print Assumptions C36_notification_answered_refuted.
Print Assumptions C36_early_request_dropped_refuted.
Print Assumptions C36_shutdown_not_found_refuted.
Definition c36_history : list message :=
  [Notification (chars "initialized"%string) (JObj []); Request (IdNumber 1) (chars "nonsense"%string) JNull; ResponseOk (IdNumber 9) JNull;
   Request (IdString (chars "s"%string)) (chars "shutdown"%string) JNull].
Example C36_case : let run := service_run (fun _ => true) (fun _ => Some []) (fun _ _ => true) (JObj []) in
  Forall disciplined c36_history /\ no_exit c36_history /\
  exists s, run service_new (Request (IdNumber 5) (chars "initialize"%string) JNull :: c36_history) =
    ([ResponseOk (IdNumber 5) (JObj []); ResponseErr (IdNumber 1) EC_MethodNotFound (chars "MethodNotFound"%string) JNull; ResponseErr (IdString (chars "s"%string)) EC_MethodNotFound [] JNull], Some s).
Proof.
  assert (D : forall a l, member a l = false -> ~ In a l) by (intros a l M I; apply member_in in I; congruence).
  cbv zeta. split; [| split].
  - unfold c36_history. repeat constructor; cbn [disciplined]; try split; apply D; vm_compute; reflexivity.
  - unfold c36_history, no_exit. repeat constructor; discriminate.
  - eexists. vm_compute. reflexivity.
Qed.

(* ---- C37 ---- *)
(* after initialize, any history: the server's documents are the client's. Partial: for texts in the BMP without the line
   breaks only ropey knows (the refuted theorems below), and if no token request hangs *)
Theorem C37_documents_follow_the_client_partial : forall uri_ok hl decodes capabilities i p ms d out s', decodes (chars "initialize"%string) p = true ->
  client_run uri_ok (fun _ => None) ms d -> service_run uri_ok hl decodes capabilities service_new (Request i (chars "initialize"%string) p :: ms) = (out, Some s') ->
  forall u, document s' u = d u.
Proof. exact session. Qed.
Print Assumptions C37_documents_follow_the_client_partial.
(* one notification: its changes are applied in order *)
Theorem C37_changes_applied_partial : forall cs t t', ordinary t -> Forall (fun c => ordinary (ctext c)) cs -> edits t cs t' -> apply_changes t cs = t' /\ ordinary t'.
Proof. exact changes_applied. Qed.
Print Assumptions C37_changes_applied_partial.
(* a change without a range replaces any text by any text *)
Theorem C37_whole_text : forall t s, apply_change t (Change None s) = s.
Proof. intros t s. apply whole_at. Qed.
Print Assumptions C37_whole_text.
Theorem C37_open : forall s, open_text s = s.
Proof. exact opened. Qed.
Print Assumptions C37_open.
(* a position denotes at most one place, inside the text *)
Theorem C37_positions_are_places : forall t l col a b, position t l col a -> position t l col b -> a = b /\ (a <= length t)%nat.
Proof. intros t l col a b P Q. split; [exact (position_functional _ _ _ _ _ P Q) | exact (position_in _ _ _ _ P)]. Qed.
Print Assumptions C37_positions_are_places.
(* characters outside the BMP: columns are counted in characters *)
Theorem C37_astral_column_refuted : exists t c t', t = [128512; 97; 98] /\ edit t c t' /\ apply_change t c <> t'.
Proof.
  exists [128512; 97; 98], (Change (Some ((0, 2), (0, 3))) (chars "x"%string)), [128512; 120; 98]. split; [reflexivity |]. split; [| discriminate].
  apply (edit_range [128512; 97; 98] 0 2 0 3 1 2); try lia.
  - apply (pos_char 128512 [97; 98] 0 0); try discriminate. constructor.
  - apply (pos_char 128512 [97; 98] 1 1); try discriminate. apply (pos_char 97 [98] 0 0); try discriminate. constructor.
Qed.
Print Assumptions C37_astral_column_refuted.
(* a form feed is a line break for ropey only *)
Theorem C37_form_feed_refuted : exists t c t', t = [97; 12; 98; 10; 99] /\ edit t c t' /\ apply_change t c <> t'.
Proof.
  exists [97; 12; 98; 10; 99], (Change (Some ((1, 0), (1, 1))) []), [97; 12; 98; 10]. split; [reflexivity |]. split; [| discriminate].
  apply (edit_range [97; 12; 98; 10; 99] 1 0 1 1 4 5); try lia.
  - apply (pos_skip 97 [12; 98; 10; 99] 0); try discriminate. apply (pos_skip 12 [98; 10; 99] 0); try discriminate. apply (pos_skip 98 [10; 99] 0); try discriminate. apply (pos_lf [99] 0). constructor.
  - apply (pos_skip 97 [12; 98; 10; 99] 0); try discriminate. apply (pos_skip 12 [98; 10; 99] 0); try discriminate. apply (pos_skip 98 [10; 99] 0); try discriminate. apply (pos_lf [99] 0).
    apply (pos_char 99 [] 0 0); try discriminate. constructor.
Qed.
Print Assumptions C37_form_feed_refuted.
(* a column past the end of a line, which LSP says means the end of the line, reaches into the next lines *)
Theorem C37_long_column_refuted : apply_change (chars "ab"%string ++ [10] ++ chars "cd"%string) (Change (Some ((0, 2), (0, 4))) []) = chars "abd"%string.
Proof. reflexivity. Qed.
Print Assumptions C37_long_column_refuted.
(* a start line past the end replaces the whole document; an end line past the end is taken for the end *)
Theorem C37_out_of_range_lines_refuted : apply_change (chars "abc"%string) (Change (Some ((7, 0), (7, 0))) (chars "x"%string)) = chars "x"%string /\
  apply_change (chars "abc"%string) (Change (Some ((0, 1), (7, 0))) (chars "x"%string)) = chars "ax"%string.
Proof. split; reflexivity. Qed.
Print Assumptions C37_out_of_range_lines_refuted.
(* a range that ends before it starts inserts without removing *)
Theorem C37_reversed_range_refuted : apply_change (chars "abc"%string) (Change (Some ((0, 2), (0, 1))) (chars "x"%string)) = chars "abxc"%string.
Proof. reflexivity. Qed.
Print Assumptions C37_reversed_range_refuted.
Example C37_case : let u := chars "file:///a.css"%string in
  client_run (fun _ => true) (fun _ => None) [open_message u (chars "css"%string) 1 (chars "a"%string ++ [13; 10] ++ chars "bc"%string); change_message u 2 [Change (Some ((1, 1), (1, 2))) [233]]]
    (set_doc (set_doc (fun _ => None) u (chars "a"%string ++ [13; 10] ++ chars "bc"%string)) u (chars "a"%string ++ [13; 10] ++ [98; 233])) /\
  exists out s, service_run (fun _ => true) (fun _ => Some []) (fun _ _ => true) JNull service_new
    [Request (IdNumber 1) (chars "initialize"%string) JNull; open_message u (chars "css"%string) 1 (chars "a"%string ++ [13; 10] ++ chars "bc"%string); change_message u 2 [Change (Some ((1, 1), (1, 2))) [233]]] = (out, Some s) /\
    document s u = Some (chars "a"%string ++ [13; 10] ++ [98; 233]).
Proof.
  assert (Od : forall l, forallb (fun c => (c <? 65536) && negb (existsb (N.eqb c) [11; 12; 133; 8232; 8233])) l = true -> ordinary l).
  { intros l F. unfold ordinary. rewrite Forall_forall. intros c I. rewrite forallb_forall in F. specialize (F c I). cbn [existsb] in F. unfold ordinary_char. cbn [In]. lia. }
  cbv zeta. split.
  - eapply run_cons; [apply step_open; [reflexivity | reflexivity | apply Od; vm_compute; reflexivity] |]. eapply run_cons; [| apply run_nil].
    eapply step_change; [reflexivity | reflexivity | vm_compute; reflexivity | |].
    + constructor; [apply Od; vm_compute; reflexivity | constructor].
    + eapply edits_cons; [| apply edits_nil]. apply (edit_range [97; 13; 10; 98; 99] 1 1 1 2 4 5 [233]); try lia.
      * apply (pos_skip 97 [13; 10; 98; 99] 0); try discriminate. apply (pos_crlf [98; 99] 0). apply (pos_char 98 [99] 0 0); try discriminate. constructor.
      * apply (pos_skip 97 [13; 10; 98; 99] 0); try discriminate. apply (pos_crlf [98; 99] 0). apply (pos_char 98 [99] 1 1); try discriminate. apply (pos_char 99 [] 0 0); try discriminate. constructor.
  - eexists _, _. split; vm_compute; reflexivity.
Qed.

(* ---- C38 ---- *)
(* for every text and every set of highlights that start between characters: no subtraction underflows, every highlight is
   sent once, in document order, and decoding the deltas by the rule of the specification gives the line and the column
   (number of characters since the last newline) of every start *)
Theorem C38_deltas_decode_partial : forall src hs, Forall (on_boundary src) hs ->
  exists l ps, highlight_reply src hs = Some l /\ Permutation hs (map (fun x => fst (fst x)) l) /\
    StronglySorted (fun a b => span_le (hspan a) (hspan b)) (map (fun x => fst (fst x)) l) /\
    Forall2 (starts_after src) (map (fun x => fst (fst x)) l) ps /\
    Forall2 (fun p x => exists q, last_line p q /\ x = (count_newlines p, N.of_nat (length q))) ps (decode 0 0 (map (fun x => (snd (fst x), snd x)) l)).
Proof. exact reply_places. Qed.
Print Assumptions C38_deltas_decode_partial.
(* ... which are LSP's positions for texts in the BMP where CR only occurs in CRLF *)
Theorem C38_places_are_positions_partial : forall p r q, ordinary (p ++ r) -> no_lone_cr (p ++ r) -> (last p 0 <> 13 \/ hd_error r <> Some 10) -> last_line p q ->
  position (p ++ r) (count_newlines p) (N.of_nat (length q)) (length p).
Proof. exact last_line_position. Qed.
Print Assumptions C38_places_are_positions_partial.
(* the document is the one the service holds *)
Theorem C38_reply_is_about_the_document : forall uri_ok hl decodes capabilities s i u t hs l, ready s = true -> uri_ok u = true -> document s u = Some t -> hl t = Some hs -> highlight_reply t hs = Some l ->
  service_handle uri_ok hl decodes capabilities s
    (Request i (chars "textDocument/semanticTokens/full"%string) (JObj [(chars "textDocument"%string, JObj [(chars "uri"%string, JStr u)])]))
  = Some (s, Some (ResponseOk i (JObj [(chars "data"%string, JArr (flat_map (fun x => token_json (semantic_token x)) l))]))).
Proof. exact semantic_handled. Qed.
Print Assumptions C38_reply_is_about_the_document.
(* lengths: bytes, which is what LSP counts only in ASCII *)
Theorem C38_ascii_length_partial : forall p w r k m, Forall (fun c => c < 128) w -> let h := Highlight (Span (blen p) (blen (p ++ w))) k m in
  slice (p ++ w ++ r) (sstart (hspan h)) (send (hspan h)) = Some w /\ semantic_token (h, 0, 0) = (0, 0, utf16_length w, k, m).
Proof. exact ascii_length. Qed.
Print Assumptions C38_ascii_length_partial.
Theorem C38_length_in_bytes_refuted : exists src h, src = [233; 120] /\ slice src (sstart (hspan h)) (send (hspan h)) = Some [233] /\
  semantic_token (h, 0, 0) = (0, 0, 2, 0, 0) /\ utf16_length [233] = 1.
Proof. exists [233; 120], (Highlight (Span 0 2) 0 0). repeat split. Qed.
Print Assumptions C38_length_in_bytes_refuted.
(* a lone CR ends a line for LSP, not for the server *)
Theorem C38_lone_cr_refuted : exists src h, src = [13; 97] /\ sstart (hspan h) = 1 /\ (exists l, highlight_reply src [h] = Some l /\ decode 0 0 (map (fun x => (snd (fst x), snd x)) l) = [(0, 1)]) /\
  position src 1 0 1 /\ ~ position src 0 1 1.
Proof.
  exists [13; 97], (Highlight (Span 1 2) 0 0). split; [reflexivity |]. split; [reflexivity |]. split; [eexists; split; vm_compute; reflexivity |]. split.
  - apply (pos_cr [97] 0); [discriminate | constructor].
  - intro Q. inversion Q; congruence || lia.
Qed.
Print Assumptions C38_lone_cr_refuted.
(* columns count characters, LSP counts UTF-16 units *)
Theorem C38_astral_column_refuted : exists src h, src = [128512; 97] /\ sstart (hspan h) = 4 /\ (exists l, highlight_reply src [h] = Some l /\ decode 0 0 (map (fun x => (snd (fst x), snd x)) l) = [(0, 1)]) /\
  position src 0 2 1.
Proof.
  exists [128512; 97], (Highlight (Span 4 5) 0 0). split; [reflexivity |]. split; [reflexivity |]. split; [eexists; split; vm_compute; reflexivity |].
  apply (pos_char 128512 [97] 0 0); try discriminate. constructor.
Qed.
Print Assumptions C38_astral_column_refuted.
Example C38_case : let src := chars "a{b:c}"%string ++ [10] ++ chars "de"%string in let h a b := Highlight (Span a b) 1 0 in
  Forall (on_boundary src) [h 7 9; h 0 1; h 2 3] /\
  (exists l, highlight_reply src [h 7 9; h 0 1; h 2 3] = Some l /\ map (fun x => (snd (fst x), snd x)) l = [(0, 0); (0, 2); (1, 0)]).
Proof.
  cbv zeta. split; [| eexists; split; vm_compute; reflexivity].
  constructor; [exists (chars "a{b:c}"%string ++ [10]), (chars "de"%string); split; reflexivity |].
  constructor; [exists [], (chars "a{b:c}"%string ++ [10] ++ chars "de"%string); split; reflexivity |].
  constructor; [exists (chars "a{"%string), (chars "b:c}"%string ++ [10] ++ chars "de"%string); split; reflexivity | constructor].
Qed.

(* ---- C39 ---- *)
Section Documents.
Context {H : Type} (hl : text -> option H).
(* in every reachable state of every schedule, the replies sent are the first of those the calls alone determine *)
Theorem C39_replies_are_for_the_latest_commit : forall cs s, steps hl (start cs) s -> exists rest, expected hl (fun _ => None) cs = replies s ++ rest.
Proof. exact (replies_prefix hl). Qed.
(* if every document has highlights, a schedule can only stop when all calls are answered *)
Theorem C39_no_deadlock_partial : (forall t, hl t <> None) -> forall cs s, steps hl (start cs) s -> stuck hl s -> replies s = expected hl (fun _ => None) cs /\ svc s = Idle [].
Proof. exact (stuck_done hl). Qed.
(* every schedule is finite *)
Theorem C39_schedules_end : forall s : @state H, Acc (fun b a => step hl a b) s.
Proof. exact (no_infinite_run hl). Qed.
End Documents.
Print Assumptions C39_replies_are_for_the_latest_commit.
Print Assumptions C39_no_deadlock_partial.
Print Assumptions C39_schedules_end.
(* a document whose parse has no output is never answered: the handler thread waits for ever, and with it every later call *)
Theorem C39_no_output_hangs_refuted : exists (hl : text -> option unit) cs s, steps hl (start cs) s /\ stuck hl s /\ svc s = Receiving 0 [Tokens [2]] /\ replies s = [].
Proof.
  exists (fun _ => None), [Open [1] [97]; Tokens [1]; Tokens [2]].
  eexists. split; [| split; [| split]].
  - eapply steps_more; [eapply steps_more; [eapply steps_more; [eapply steps_more; [eapply steps_more; [eapply steps_more; [apply steps_refl |] |] |] |] |] |].
    + apply st_open.
    + apply st_commit with (cur := []). reflexivity.
    + apply st_parse with (i := 0%nat) (t := [97]) (cur := []). reflexivity.
    + apply st_tokens with (i := 0%nat). reflexivity.
    + apply st_ask with (cur := [97]). reflexivity.
    + apply st_no_output with (i := 0%nat) (cur := [97]); reflexivity.
  - intros s' S. inversion S; subst; try discriminate; repeat match goal with E : nth_error _ ?i = Some _ |- _ => destruct i as [| [| ?]]; cbn in E; try discriminate end.
  - reflexivity.
  - reflexivity.
Qed.
Print Assumptions C39_no_output_hangs_refuted.
Example C39_case : expected (fun t => Some (length t)) (fun _ => None) [Open [1] [97]; Tokens [1]; Edit [1] [97; 98]; Tokens [1]; Tokens [2]; Open [2] []; Tokens [2]; Tokens [1]]
  = [Highlights 1%nat; Highlights 2%nat; Unknown; Highlights 0%nat; Highlights 2%nat].
Proof. reflexivity. Qed.
