(* csskit_lsp/src/server/handler.rs and the handler thread of csskit_lsp/src/server.rs: dispatch of messages.
   - Any implementation of the Handler trait is a state with the callbacks of the Section; a callback returning None
     hangs or panics. [decodes] says whether serde can read the parameters of a method (lsp-types is not modelled here).
   - The METHOD constants come from lsp-types 0.97, i.e. the names of the LSP specification. *)
From Coq Require Import String.
From Coq Require Import List.
From Verif Require Export LspMessage.
Open Scope N_scope.
Open Scope list_scope.

Definition names (l : list string) : list text := map chars l.
(* handler.rs:37-308: the arms that answer and take parameters, in order *)
Definition request_methods : list text := names [
  "workspace/applyEdit"; "callHierarchy/incomingCalls"; "callHierarchy/outgoingCalls"; "textDocument/prepareCallHierarchy";
  "textDocument/codeAction"; "codeAction/resolve"; "textDocument/codeLens"; "codeLens/resolve";
  "textDocument/colorPresentation"; "textDocument/completion"; "textDocument/documentColor"; "textDocument/diagnostic";
  "textDocument/documentHighlight"; "textDocument/documentLink"; "documentLink/resolve"; "textDocument/documentSymbol";
  "workspace/executeCommand"; "textDocument/foldingRange"; "textDocument/formatting"; "textDocument/declaration";
  "textDocument/definition"; "textDocument/implementation"; "textDocument/typeDefinition"; "textDocument/hover";
  "initialize"; "textDocument/inlayHint"; "inlayHint/resolve"; "textDocument/inlineValue";
  "textDocument/linkedEditingRange"; "textDocument/moniker"; "textDocument/onTypeFormatting"; "textDocument/prepareRename";
  "textDocument/rangeFormatting"; "textDocument/references"; "client/registerCapability"; "textDocument/rename";
  "completionItem/resolve"; "textDocument/selectionRange"; "textDocument/semanticTokens/full/delta";
  "textDocument/semanticTokens/full"; "textDocument/semanticTokens/range"; "window/showDocument"; "window/showMessageRequest";
  "textDocument/signatureHelp"; "textDocument/prepareTypeHierarchy"; "typeHierarchy/subtypes"; "typeHierarchy/supertypes";
  "client/unregisterCapability"; "workspace/willCreateFiles"; "workspace/willDeleteFiles"; "workspace/willRenameFiles";
  "textDocument/willSaveWaitUntil"; "window/workDoneProgress/create"; "workspace/configuration"; "workspace/diagnostic";
  "workspace/symbol"; "workspaceSymbol/resolve"]%string.
(* handler.rs:37-308: the arms that answer without reading parameters *)
Definition bare_methods : list text := names [
  "workspace/codeLens/refresh"; "workspace/inlayHint/refresh"; "workspace/inlineValue/refresh";
  "workspace/semanticTokens/refresh"; "shutdown"; "workspace/diagnostic/refresh"; "workspace/workspaceFolders"]%string.
(* handler.rs:310-462: the arms that return None *)
Definition notification_methods : list text := names [
  "$/cancelRequest"; "workspace/didChangeConfiguration"; "notebookDocument/didChange"; "textDocument/didChange";
  "workspace/didChangeWatchedFiles"; "workspace/didChangeWorkspaceFolders"; "notebookDocument/didClose";
  "textDocument/didClose"; "workspace/didCreateFiles"; "workspace/didDeleteFiles"; "notebookDocument/didOpen";
  "textDocument/didOpen"; "workspace/didRenameFiles"; "notebookDocument/didSave"; "textDocument/didSave"; "initialized";
  "window/logMessage"; "$/logTrace"; "$/progress"; "textDocument/publishDiagnostics"; "$/setTrace"; "window/showMessage";
  "telemetry/event"; "textDocument/willSave"; "window/workDoneProgress/cancel"]%string.
Definition member (m : text) (l : list text) : bool := existsb (same_key m) l.

(* message.rs:27-43 *)
Definition is_exit (m : message) : bool := match m with Notification me _ => same_key me (chars "exit"%string) | _ => false end.
Definition is_initialize (m : message) : bool := match m with Request _ me _ => same_key me (chars "initialize"%string) | _ => false end.
(* message.rs:45-51 with unwrap_or_default, handler.rs:34 *)
Definition method_of (m : message) : text := match m with Request _ me _ | Notification me _ => me | _ => [] end.
(* message.rs:53-60 with unwrap_or_default, handler.rs:26 *)
Definition id_or_default (m : message) : rpc_id :=
  match m with Request i _ _ | ResponseOk i _ | ResponseErr i _ _ _ => i | Notification _ _ => default_id end.
(* message.rs:62-69 *)
Definition params_of (m : message) : json :=
  match m with Request _ _ p | Notification _ p | ResponseOk _ p | ResponseErr _ _ _ p => p end.
(* message.rs:71-76 *)
Definition from_result (i : rpc_id) (r : json + error_code) : message :=
  match r with inr c => ResponseErr i c [] JNull | inl v => ResponseOk i v end.
(* handler.rs:7-13 *)
Definition invalid_params (i : rpc_id) : message := ResponseErr i EC_InvalidParams (chars "InvalidParams"%string) JNull.
Definition method_not_found (i : rpc_id) : message := ResponseErr i EC_MethodNotFound (chars "MethodNotFound"%string) JNull.

Section Handler.
Context {S : Type} (initialized : S -> bool) (decodes : text -> json -> bool)
        (request : text -> json -> S -> option (S * (json + error_code))) (notify : text -> json -> S -> option S).

(* the arms of requests: handler.rs:36-40 *)
Definition answer (i : rpc_id) (me : text) (p : json) (s : S) : option (S * option message) :=
  match request me p s with Some (s', r) => Some (s', Some (from_result i r)) | None => None end.
(* handler.rs:23-472 *)
Definition handle (s : S) (m : message) : option (S * option message) :=
  if is_exit m then Some (s, None) else
  if negb (initialized s) && negb (is_initialize m) then Some (s, None) else
  let i := id_or_default m in
  let me := method_of m in
  let p := params_of m in
  if member me request_methods then
    if decodes me p then answer i me p s else Some (s, Some (invalid_params i))
  else if member me bare_methods then answer i me JNull s
  else if member me notification_methods then
    if decodes me p then match notify me p s with Some s' => Some (s', None) | None => None end else Some (s, None)
  else match m with Request i _ _ => Some (s, Some (method_not_found i)) | _ => Some (s, None) end.

(* server.rs:57-92: the handler thread; what it has sent, and its state if it is not stuck in a callback. The $/setTrace
   branch (the trace level) is not modelled; sending to the writer is assumed to succeed. *)
Fixpoint serve (s : S) (ms : list message) : list message * option S :=
  match ms with
  | [] => ([], Some s)
  | m :: r =>
      if is_exit m then ([], Some s) else
      match handle s m with
      | None => ([], None)
      | Some (s', reply) => let '(out, e) := serve s' r in (match reply with Some x => x :: out | None => out end, e)
      end
  end.
End Handler.
