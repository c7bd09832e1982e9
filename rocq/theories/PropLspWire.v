(* Theorems for C34 (framing) and C35 (messages, ids and error codes). [sf] and [fl] print and read floats: any. *)
From Coq Require Import String.
From Coq Require Import List.
From Verif Require Import LspFrame SpecLspFrame LspFrameProofs LspMessage SpecLspMessage LspMessageProofs LspJson SpecLspJson LspJsonProofs.
Open Scope N_scope.
Open Scope list_scope.

(* ---- C34 ---- *)
Theorem C34_bodies_round_trip : forall bodies, Forall sendable bodies -> read_all (flat_map write_frame bodies) = (bodies, Ended).
Proof. exact round_trip. Qed.
Print Assumptions C34_bodies_round_trip.
Theorem C34_messages_round_trip : forall sf fl ms,
  Forall (fun m => readable m /\ plain_message m /\ N.of_nat (length (message_body sf m)) < USIZE) ms ->
  receive_all fl (flat_map (write_message sf) ms) = (ms, true).
Proof. exact messages_round. Qed.
Print Assumptions C34_messages_round_trip.
(* header names in any case, an optional Content-Type before or after, blanks before the value, leading zeros *)
Theorem C34_header_variants_accepted : forall n h body rest, header_block n h -> 0 < n -> n = N.of_nat (length body) ->
  read_frame (h ++ [13; 10] ++ body ++ rest) = FBody body rest.
Proof. exact read_accepts. Qed.
Print Assumptions C34_header_variants_accepted.
(* whatever the input: a body is a contiguous piece after a blank line, the rest is untouched, and later bytes do not matter *)
Theorem C34_no_leak : forall r b rest, read_frame r = FBody b rest ->
  (exists head, r = head ++ b ++ rest /\ (exists p, head = p ++ CRLF2)) /\ forall s, read_frame (r ++ s) = FBody b (rest ++ s).
Proof. exact read_frame_body. Qed.
Print Assumptions C34_no_leak.
(* a stream cut at any point gives the whole messages before the cut and nothing of the one it cuts *)
Theorem C34_cut_stream : forall bodies pre suf, Forall sendable bodies -> flat_map write_frame bodies = pre ++ suf -> forall n, (length pre < n)%nat ->
  exists whole rest cut, bodies = whole ++ rest /\ pre = flat_map write_frame whole ++ cut /\ fst (read_stream n pre) = whole /\
    (cut = [] \/ exists b more, rest = b :: more /\ exists tl, write_frame b = cut ++ tl /\ tl <> []).
Proof. exact cut_stream. Qed.
Print Assumptions C34_cut_stream.
(* a stream that ends inside the headers looks like a proper end *)
Theorem C34_cut_headers_look_like_the_end_refuted : exists pre suf, write_frame (chars "{}"%string) = pre ++ suf /\ pre <> [] /\ suf <> [] /\ read_frame pre = FEnd.
Proof. exists (chars "Content-Len"%string), (chars "gth: 2"%string ++ [13; 10; 13; 10; 123; 125]). vm_compute. repeat split; discriminate. Qed.
Print Assumptions C34_cut_headers_look_like_the_end_refuted.
(* an empty body cannot be sent, and a third header is an error *)
Theorem C34_empty_body_refuted : read_frame (write_frame []) = FErr FE_NoLength.
Proof. reflexivity. Qed.
Print Assumptions C34_empty_body_refuted.
Theorem C34_three_headers_refuted : exists h, read_frame (h ++ [13; 10] ++ chars "{}"%string) = FErr FE_Headers /\
  h = chars "Content-Type: a"%string ++ [13; 10] ++ chars "Content-Type: b"%string ++ [13; 10] ++ chars "Content-Length: 2"%string ++ [13; 10].
Proof. eexists. split; [| reflexivity]. vm_compute. reflexivity. Qed.
Print Assumptions C34_three_headers_refuted.
(* the last of two lengths wins *)
Theorem C34_two_lengths_refuted : exists h, read_frame (h ++ [13; 10] ++ chars "{}{}"%string) = FBody (chars "{}{}"%string) [] /\
  h = chars "Content-Length: 2"%string ++ [13; 10] ++ chars "Content-Length: 4"%string ++ [13; 10].
Proof. eexists. split; [| reflexivity]. vm_compute. reflexivity. Qed.
Print Assumptions C34_two_lengths_refuted.
(* any other header stops the connection *)
Theorem C34_other_header_refuted : read_frame (chars "X-A: 1"%string ++ [13; 10] ++ chars "Content-Length: 2"%string ++ [13; 10; 13; 10] ++ chars "{}"%string) = FErr FE_InvalidHeader.
Proof. vm_compute. reflexivity. Qed.
Print Assumptions C34_other_header_refuted.
Definition case_messages : list message :=
  [Request (IdNumber (-5)) (chars "a/b"%string) (JArr [JInt 1; JStr [233; 13; 10; 128512]]); Notification (chars "exit"%string) JNull;
   ResponseErr (IdString (chars "x"%string)) EC_InternalError [] JNull; ResponseOk (IdNumber 7) (JObj [([97], JBool true)])].
Example C34_case : receive_all (fun _ => None) (flat_map (write_message (fun _ => [])) case_messages) = (case_messages, true).
Proof. vm_compute. reflexivity. Qed.
Example C34_case_hypotheses : Forall (fun m => readable m /\ plain_message m /\ N.of_nat (length (message_body (fun _ => []) m)) < USIZE) case_messages.
Proof.
  assert (L : forall k v, plain_json k v -> forall d, (k <= d)%nat -> plain_json d v) by (intros k v P d Le; induction Le; [exact P | now apply plain_mono]).
  assert (V : forall t, forallb valid_char t = true -> valid_text t) by (intros t F; unfold valid_text; rewrite Forall_forall; now apply forallb_forall).
  unfold case_messages. constructor; [| constructor; [| constructor; [| constructor; [| constructor]]]].
  - split; [vm_compute; split; discriminate || reflexivity |]. split; [| vm_compute; reflexivity]. split; [exact I |]. split; [now apply V |].
    apply (L 1%nat); [| repeat constructor]. constructor; [cbn [plain_json]; lia |]. constructor; [now apply V | constructor].
  - split; [exact I |]. split; [| vm_compute; reflexivity]. split; [now apply V | exact I].
  - split; [split; [exact I | split; [vm_compute; split; discriminate || reflexivity | reflexivity]] |]. split; [| vm_compute; reflexivity]. split; [now apply V |]. split; [now apply V | exact I].
  - split; [split; [vm_compute; split; discriminate || reflexivity | discriminate] |]. split; [| vm_compute; reflexivity]. split; [exact I |]. apply (L 1%nat); [| repeat constructor]. constructor; [| constructor]. split; [now apply V | exact I].
Qed.

(* ---- C35 ---- *)
Theorem C35_codes_survive : forall z, code_to_i32 (code_of_i32 z) = z.
Proof. exact code_survives. Qed.
Print Assumptions C35_codes_survive.
Theorem C35_named_codes_survive : forall c, named_code c -> c <> EC_LspReservedErrorEnd -> code_of_i32 (code_to_i32 c) = c.
Proof. exact named_codes. Qed.
Print Assumptions C35_named_codes_survive.
Theorem C35_unnamed_codes_survive : forall z, (forall c, named_code c -> code_to_i32 c <> z) -> code_of_i32 (code_to_i32 (EC_Unknown z)) = EC_Unknown z.
Proof. exact unnamed_codes. Qed.
Print Assumptions C35_unnamed_codes_survive.
(* the constant -32800 has two names *)
Theorem C35_shared_code_refuted : code_of_i32 (code_to_i32 EC_LspReservedErrorEnd) = EC_RequestCancelled.
Proof. reflexivity. Qed.
Print Assumptions C35_shared_code_refuted.
(* a message that has been written is read back as the same message, so ids, methods, parameters, codes and data survive *)
Theorem C35_messages_survive : forall m, readable m -> of_json (to_json m) = Some m.
Proof. exact message_round. Qed.
Print Assumptions C35_messages_survive.
Theorem C35_ids_survive : forall m m', (forall i, message_id m = Some i -> id_ok i) -> of_json (to_json m) = Some m' -> message_id m' = message_id m.
Proof. exact id_survives. Qed.
Print Assumptions C35_ids_survive.
(* a success without a result cannot be read *)
Theorem C35_null_result_refuted : exists i, id_ok i /\ of_json (to_json (ResponseOk i JNull)) = None.
Proof. exists (IdNumber 1). split; [cbn; unfold i32; lia | reflexivity]. Qed.
Print Assumptions C35_null_result_refuted.
(* a request whose id is not an i32 or a string is taken for a notification, so it is never answered with its id *)
Theorem C35_large_id_is_a_notification_refuted : forall z p, (z < - 2 ^ 31 \/ 2 ^ 31 <= z)%Z ->
  of_json (JObj [(chars "jsonrpc"%string, JStr (chars "2.0"%string)); (chars "id"%string, JInt z); (chars "method"%string, JStr (chars "shutdown"%string)); (chars "params"%string, p)])
    = Some (Notification (chars "shutdown"%string) p).
Proof.
  intros z p Z. unfold of_json, request_of, response_of, notification_of.
  match goal with |- context [fields 2 ?k ?v] => change (fields 2 k v) with (Some [Some (JInt z); Some (JStr (chars "shutdown")); Some p]) end. cbv beta iota.
  assert (I : id_of (Some (JInt z)) = None) by (cbn [id_of]; unfold i32_ok; destruct ((-2147483648 <=? z)%Z && (z <=? 2147483647)%Z) eqn:Q; [lia | reflexivity]). rewrite I.
  match goal with |- context [fields 3 ?k ?v] => change (fields 3 k v) with (Some [Some (JInt z); @None json; @None json]) end. cbv beta iota. rewrite I.
  match goal with |- context [fields 1 ?k ?v] => change (fields 1 k v) with (Some [Some (JStr (chars "shutdown")); Some p]) end. reflexivity.
Qed.
Print Assumptions C35_large_id_is_a_notification_refuted.
(* JSON-RPC 2.0 objects only: serde also takes arrays for messages *)
Theorem C35_array_message_refuted : of_json (JArr [JInt 1; JStr (chars "shutdown"%string)]) = Some (Request (IdNumber 1) (chars "shutdown"%string) JNull).
Proof. reflexivity. Qed.
Print Assumptions C35_array_message_refuted.
Example C35_case : readable (ResponseErr (IdString (chars "x"%string)) (EC_Unknown 12) (chars "m"%string) (JInt 3)) /\
  to_json (ResponseErr (IdNumber 4) EC_MethodNotFound [] JNull) =
    JObj [(chars "jsonrpc"%string, JStr (chars "2.0"%string)); (chars "id"%string, JInt 4); (chars "result"%string, JNull);
          (chars "error"%string, JObj [(chars "code"%string, JInt (-32601)); (chars "message"%string, JStr []); (chars "data"%string, JNull)])].
Proof. repeat split; cbn; unfold i32; try lia. Qed.
