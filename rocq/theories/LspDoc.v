(* csskit_lsp/src/service.rs: documents, their edits, and the service as a Handler.
   - ropey::Rope (1.6, default features) is modelled by its characters; its line breaks are LF, VT, FF, CR, CRLF, NEL, LS
     and PS; its fallible operations fail exactly on out-of-range arguments.
   - The parser and the highlighter of css_ast are a parameter [hl] (None: the document has no output, service.rs:78).
   - lsp-types' InitializeParams and the parameters of methods the service does not implement are a parameter [decodes];
     [uri_ok] stands for fluent_uri's parser; [capabilities] is the InitializeResult of service.rs:148-235. *)
From Coq Require Import String.
From Coq Require Import List.
From Verif Require Export LspHandler Span.
Open Scope N_scope.
Open Scope list_scope.

(* ---- ropey ---- *)
Definition rope_break (c : char) : bool :=
  (c =? 10) || (c =? 11) || (c =? 12) || (c =? 13) || (c =? 133) || (c =? 8232) || (c =? 8233).
(* Rope::try_line_to_char: the index after the last line is allowed and stands for the end *)
Fixpoint line_to_char (t : text) (line : nat) : option nat :=
  match line with
  | O => Some O
  | S n =>
      match t with
      | [] => match n with O => Some O | S _ => None end
      | c :: r =>
          if rope_break c then
            match c, r with
            | 13, 10 :: r' => option_map (fun k => S (S k)) (line_to_char r' n)
            | _, _ => option_map S (line_to_char r n)
            end
          else option_map S (line_to_char r line)
      end
  end.
(* Rope::try_remove(a..b), with the end of the text for an open range; a failure leaves the rope alone (.ok()) *)
Definition try_remove (t : text) (a : nat) (b : option nat) : text :=
  let b := match b with Some b => b | None => length t end in
  if Nat.leb a b && Nat.leb b (length t) then firstn a t ++ skipn b t else t.
(* Rope::try_insert *)
Definition try_insert (t : text) (a : nat) (s : text) : text :=
  if Nat.leb a (length t) then firstn a t ++ s ++ skipn a t else t.

(* lsp_types::{Position, TextDocumentContentChangeEvent} *)
Record change : Set := Change { crange : option ((N * N) * (N * N)); ctext : text }.
(* service.rs:275-290 *)
Definition change_range (t : text) (r : option ((N * N) * (N * N))) : nat * option nat :=
  match r with
  | None => (O, None)
  | Some ((sl, sc), (el, ec)) =>
      match line_to_char t (N.to_nat sl) with
      | None => (O, None)
      | Some st =>
          match line_to_char t (N.to_nat el) with
          | None => ((st + N.to_nat sc)%nat, None)
          | Some en => ((st + N.to_nat sc)%nat, Some (en + N.to_nat ec)%nat)
          end
      end
  end.
(* service.rs:291-301 *)
Definition apply_change (t : text) (c : change) : text :=
  let '(st, en) := change_range t (crange c) in try_insert (try_remove t st en) st (ctext c).
(* service.rs:274-302 *)
Definition apply_changes (t : text) (cs : list change) : text := fold_left apply_change cs t.
(* service.rs:256-259 *)
Definition open_text (s : text) : text := try_insert (try_remove [] O None) O s.

(* ---- semantic tokens ---- *)
(* csskit_highlight/src/lib.rs:77-82; kind and modifier by their numbers *)
Record highlight : Set := Highlight { hspan : span; hkind : N; hmod : N }.
(* span.rs derives Ord: by start, then end *)
Definition span_leb (a b : span) : bool := (sstart a <? sstart b) || ((sstart a =? sstart b) && (send a <=? send b)).
(* itertools::sorted_by: a stable sort *)
Fixpoint insert_sorted (h : highlight) (l : list highlight) : list highlight :=
  match l with [] => [h] | x :: r => if span_leb (hspan h) (hspan x) then h :: l else x :: insert_sorted h r end.
Fixpoint sorted (l : list highlight) : list highlight := match l with [] => [] | h :: r => insert_sorted h (sorted r) end.
(* service.rs:81-97; None: u32 subtraction overflows (a panic in debug builds), or the start is inside a character *)
Fixpoint deltas (src : text) (cur_line cur_start : N) (l : list highlight) : option (list (highlight * N * N)) :=
  match l with
  | [] => Some []
  | h :: r =>
      match line_and_column (hspan h) src with
      | None => None
      | Some (line, start) =>
          if line <? cur_line then None else
          let dl := line - cur_line in
          if (dl =? 0) && (start <? cur_start) then None else
          let ds := if dl =? 0 then start - cur_start else start in
          match deltas src line start r with Some r => Some ((h, dl, ds) :: r) | None => None end
      end
  end.
Definition highlight_reply (src : text) (hs : list highlight) : option (list (highlight * N * N)) := deltas src 0 0 (sorted hs).
(* service.rs:238-255: deltaLine, deltaStart, length, type, modifiers *)
(* Span::len is send - sstart; TokenHighlighter only stores spans with start <= end *)
Definition semantic_token (x : highlight * N * N) : N * N * N * N * N :=
  let '(h, dl, ds) := x in (dl, ds, send (hspan h) - sstart (hspan h), hkind h, hmod h).
Definition token_json (x : N * N * N * N * N) : list json :=
  let '(a, b, c, d, e) := x in map (fun n => JInt (Z.of_N n)) [a; b; c; d; e].

(* ---- parameters (lsp-types' derived Deserialize) ---- *)
Definition u32_of (v : option json) : option N := match v with Some (JInt z) => if (0 <=? z)%Z && (z <? 2 ^ 32)%Z then Some (Z.to_N z) else None | _ => None end.
Definition i32_opt (v : option json) : bool := match v with Some (JInt z) => i32_ok z | _ => false end.
Definition position_of (v : option json) : option (N * N) :=
  match v with
  | Some v => match fields 2 [chars "line"%string; chars "character"%string] v with
              | Some [l; c] => match u32_of l, u32_of c with Some l, Some c => Some (l, c) | _, _ => None end
              | _ => None
              end
  | None => None
  end.
Definition range_of (v : option json) : option (option ((N * N) * (N * N))) :=
  match v with
  | None | Some JNull => Some None
  | Some v => match fields 2 [chars "start"%string; chars "end"%string] v with
              | Some [a; b] => match position_of a, position_of b with Some a, Some b => Some (Some (a, b)) | _, _ => None end
              | _ => None
              end
  end.
Definition opt_u32_ok (v : option json) : bool := match v with None | Some JNull => true | _ => match u32_of v with Some _ => true | None => false end end.
Definition change_of (v : json) : option change :=
  match fields 1 [chars "range"%string; chars "rangeLength"%string; chars "text"%string] v with
  | Some [r; n; t] => if opt_u32_ok n then match range_of r, string_of t with Some r, Some t => Some (Change r t) | _, _ => None end else None
  | _ => None
  end.
Fixpoint all_some {A : Type} (l : list (option A)) : option (list A) :=
  match l with [] => Some [] | Some x :: r => option_map (cons x) (all_some r) | None :: _ => None end.
(* a progress token: absent, null, a number or a string *)
Definition token_ok (v : option json) : bool := match v with None | Some JNull | Some (JStr _) => true | Some (JInt z) => i32_ok z | _ => false end.

Section Service.
Context (uri_ok : text -> bool) (hl : text -> option (list highlight)) (decodes : text -> json -> bool) (capabilities : json).
Definition uri_of (v : option json) : option text := match v with Some (JStr u) => if uri_ok u then Some u else None | _ => None end.
Definition uri_in (v : option json) : option text :=
  match v with
  | Some v => match fields 1 [chars "uri"%string] v with Some [u] => uri_of u | _ => None end
  | None => None
  end.
Definition did_open_of (p : json) : option (text * text) :=
  match fields 1 [chars "textDocument"%string] p with
  | Some [Some d] =>
      match fields 4 [chars "uri"%string; chars "languageId"%string; chars "version"%string; chars "text"%string] d with
      | Some [u; l; v; t] => match uri_of u, string_of l, i32_opt v, string_of t with Some u, Some _, true, Some t => Some (u, t) | _, _, _, _ => None end
      | _ => None
      end
  | _ => None
  end.
Definition did_change_of (p : json) : option (text * list change) :=
  match fields 2 [chars "textDocument"%string; chars "contentChanges"%string] p with
  | Some [Some d; Some (JArr cs)] =>
      match fields 2 [chars "uri"%string; chars "version"%string] d with
      | Some [u; v] => match uri_of u, i32_opt v, all_some (map change_of cs) with Some u, true, Some cs => Some (u, cs) | _, _, _ => None end
      | _ => None
      end
  | _ => None
  end.
(* SemanticTokensParams flattens two structs, so only an object is accepted *)
Definition semantic_of (p : json) : option text :=
  match p with
  | JObj l => match obj_fields [chars "workDoneToken"%string; chars "partialResultToken"%string; chars "textDocument"%string] l with
              | Some [a; b; d] => if token_ok a && token_ok b then uri_in d else None
              | _ => None
              end
  | _ => None
  end.

(* service.rs:124-133. A document is what was last committed to it (File::commit, service.rs:108-111); its thread is modelled
   in LspThreads.v. A Uri is its text (Eq and Hash of fluent_uri). *)
Record service : Set := Service { ready : bool; files : list (text * text) }.
Fixpoint find (u : text) (l : list (text * text)) : option text :=
  match l with [] => None | (v, t) :: r => if same_key v u then Some t else find u r end.
Fixpoint store (u t : text) (l : list (text * text)) : list (text * text) :=
  match l with [] => [(u, t)] | (v, s) :: r => if same_key v u then (v, t) :: r else (v, s) :: store u t r end.
Definition document (s : service) (u : text) : option text := find u (files s).

(* does serde read the parameters *)
Definition service_decodes (me : text) (p : json) : bool :=
  if same_key me (chars "textDocument/didOpen"%string) then match did_open_of p with Some _ => true | None => false end else
  if same_key me (chars "textDocument/didChange"%string) then match did_change_of p with Some _ => true | None => false end else
  if same_key me (chars "textDocument/semanticTokens/full"%string) then match semantic_of p with Some _ => true | None => false end else
  decodes me p.
(* the requests LSPService implements, service.rs:146-253; every other one is the default of handler.rs:474-884. None: the
   document thread never replies or has panicked, so recv or send does not return normally *)
Definition service_request (me : text) (p : json) (s : service) : option (service * (json + error_code)) :=
  if same_key me (chars "initialize"%string) then Some (Service true (files s), inl capabilities) else
  if same_key me (chars "textDocument/semanticTokens/full"%string) then
    match semantic_of p with
    | None => Some (s, inr EC_InvalidParams)
    | Some u =>
        match document s u with
        | None => Some (s, inr EC_InternalError)
        | Some t =>
            match hl t with
            | None => None
            | Some hs => match highlight_reply t hs with
                         | None => None
                         | Some l => Some (s, inl (JObj [(chars "data"%string, JArr (flat_map (fun x => token_json (semantic_token x)) l))]))
                         end
            end
        end
    end else
  if same_key me (chars "textDocument/completion"%string) then Some (s, inl JNull) else
  Some (s, inr EC_MethodNotFound).
(* service.rs:255-307 *)
Definition service_notify (me : text) (p : json) (s : service) : option service :=
  if same_key me (chars "textDocument/didOpen"%string) then
    match did_open_of p with Some (u, t) => Some (Service (ready s) (store u (open_text t) (files s))) | None => Some s end else
  if same_key me (chars "textDocument/didChange"%string) then
    match did_change_of p with
    | Some (u, cs) => match document s u with
                      | Some t => Some (Service (ready s) (store u (apply_changes t cs) (files s)))
                      | None => Some s
                      end
    | None => Some s
    end else
  Some s.
Definition service_handle : service -> message -> option (service * option message) := handle ready service_decodes service_request service_notify.
Definition service_run : service -> list message -> list message * option service := serve ready service_decodes service_request service_notify.
End Service.
(* service.rs:135-139 *)
Definition service_new : service := Service false [].
