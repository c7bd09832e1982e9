(* csskit_lsp/src/jsonrpc/{error_code,id,notification,request,response,message}.rs: messages as JSON values.
   - serde's derived impls are modelled from serde's documentation: a struct is read from an object (unknown keys ignored,
     a repeated known key is an error) or from an array of its fields in order; an untagged enum tries its variants in
     order; Option<Value> reads null as None.
   - a JSON number is an integer or a float given by its bits (floats are only passed through).
   - the JSON text itself is handled in LspJson.v. *)
From Coq Require Import String.
From Coq Require Import List.
From Verif Require Export Chars Units.
Open Scope N_scope.
Open Scope list_scope.

(* serde_json::Value *)
Inductive json : Set :=
  | JNull | JBool (b : bool) | JInt (z : Z) | JFloat (bits : N) | JStr (s : text) | JArr (l : list json) | JObj (l : list (text * json)).

(* error_code.rs:5-66 *)
Inductive error_code : Set :=
  | EC_ParseError | EC_InvalidRequest | EC_MethodNotFound | EC_InvalidParams | EC_InternalError | EC_ReservedErrorStart
  | EC_ServerNotInitialized | EC_UnknownErrorCode | EC_ReservedErrorEnd | EC_LspReservedErrorStart | EC_ContentModified
  | EC_RequestCancelled | EC_LspReservedErrorEnd | EC_Unknown (code : Z).
(* error_code.rs:68-93 *)
Definition code_to_i32 (c : error_code) : Z :=
  match c with
  | EC_ParseError => -32700 | EC_InvalidRequest => -32600 | EC_MethodNotFound => -32601 | EC_InvalidParams => -32602
  | EC_InternalError => -32603 | EC_ReservedErrorStart => -32099 | EC_ServerNotInitialized => -32002
  | EC_UnknownErrorCode => -32001 | EC_ReservedErrorEnd => -32000 | EC_LspReservedErrorStart => -32899
  | EC_ContentModified => -32801 | EC_RequestCancelled => -32800 | EC_LspReservedErrorEnd => -32800
  | EC_Unknown z => z
  end%Z.
(* error_code.rs:95-118; the match arms in order *)
Definition code_of_i32 (z : Z) : error_code :=
  if (z =? -32700)%Z then EC_ParseError else
  if (z =? -32600)%Z then EC_InvalidRequest else
  if (z =? -32601)%Z then EC_MethodNotFound else
  if (z =? -32602)%Z then EC_InvalidParams else
  if (z =? -32603)%Z then EC_InternalError else
  if (z =? -32099)%Z then EC_ReservedErrorStart else
  if (z =? -32002)%Z then EC_ServerNotInitialized else
  if (z =? -32001)%Z then EC_UnknownErrorCode else
  if (z =? -32000)%Z then EC_ReservedErrorEnd else
  if (z =? -32899)%Z then EC_LspReservedErrorStart else
  if (z =? -32801)%Z then EC_ContentModified else
  if (z =? -32800)%Z then EC_RequestCancelled else EC_Unknown z.

(* id.rs:3-14 *)
Inductive rpc_id : Set := IdNumber (z : Z) | IdString (s : text).
Definition default_id : rpc_id := IdNumber 0.
(* request.rs:6-12, notification.rs:4-9, response.rs:6-14, message.rs:14-22 *)
Inductive message : Set :=
  | Request (id : rpc_id) (method : text) (params : json)
  | ResponseOk (id : rpc_id) (result : json)
  | ResponseErr (id : rpc_id) (code : error_code) (msg : text) (data : json)
  | Notification (method : text) (params : json).

(* ---- Serialize ---- *)
Definition id_json (i : rpc_id) : json := match i with IdNumber z => JInt z | IdString s => JStr s end.
Definition params_field (p : json) : list (text * json) := match p with JNull => [] | _ => [(chars "params"%string, p)] end.
(* message.rs:121-127 with the Serialize impls of request.rs, notification.rs and response.rs:16-43 *)
Definition to_json (m : message) : json :=
  JObj ((chars "jsonrpc"%string, JStr (chars "2.0"%string)) ::
    match m with
    | Request id method params => (chars "id"%string, id_json id) :: (chars "method"%string, JStr method) :: params_field params
    | ResponseOk id result => [(chars "id"%string, id_json id); (chars "result"%string, result); (chars "error"%string, JNull)]
    | ResponseErr id code msg data =>
        [(chars "id"%string, id_json id); (chars "result"%string, JNull);
         (chars "error"%string, JObj [(chars "code"%string, JInt (code_to_i32 code)); (chars "message"%string, JStr msg); (chars "data"%string, data)])]
    | Notification method params => (chars "method"%string, JStr method) :: params_field params
    end).

(* ---- Deserialize ---- *)
(* a field of an object: absent, present once, or repeated (an error) *)
Inductive field : Set := Absent | Present (v : json) | Repeated.
Definition same_key (a b : text) : bool := if list_eq_dec N.eq_dec a b then true else false.
Fixpoint get (k : text) (l : list (text * json)) : field :=
  match l with
  | [] => Absent
  | (k', v) :: r => if same_key k' k then match get k r with Absent => Present v | _ => Repeated end else get k r
  end.
(* the fields named ks of a struct, in order, from an object or an array with at least [required] elements *)
Fixpoint seq_fields (required : nat) (ks : list text) (l : list json) : option (list (option json)) :=
  match ks, l with
  | [], [] => Some []
  | [], _ :: _ => None
  | _ :: ks, [] => match required with O => match seq_fields O ks [] with Some r => Some (None :: r) | None => None end | S _ => None end
  | _ :: ks, v :: l => match seq_fields (pred required) ks l with Some r => Some (Some v :: r) | None => None end
  end.
Fixpoint obj_fields (ks : list text) (l : list (text * json)) : option (list (option json)) :=
  match ks with
  | [] => Some []
  | k :: ks =>
      match get k l, obj_fields ks l with
      | Absent, Some r => Some (None :: r)
      | Present v, Some r => Some (Some v :: r)
      | _, _ => None
      end
  end.
Definition fields (required : nat) (ks : list text) (v : json) : option (list (option json)) :=
  match v with JObj l => obj_fields ks l | JArr l => seq_fields required ks l | _ => None end.
Definition i32_ok (z : Z) : bool := (-2147483648 <=? z)%Z && (z <=? 2147483647)%Z.
(* id.rs:3-8 *)
Definition id_of (v : option json) : option rpc_id :=
  match v with
  | Some (JInt z) => if i32_ok z then Some (IdNumber z) else None
  | Some (JStr s) => Some (IdString s)
  | _ => None
  end.
Definition string_of (v : option json) : option text := match v with Some (JStr s) => Some s | _ => None end.
Definition or_null (v : option json) : json := match v with Some v => v | None => JNull end.
(* request.rs:6-12 *)
Definition request_of (v : json) : option message :=
  match fields 2 [chars "id"%string; chars "method"%string; chars "params"%string] v with
  | Some [i; m; p] => match id_of i, string_of m with Some i, Some m => Some (Request i m (or_null p)) | _, _ => None end
  | _ => None
  end.
(* notification.rs:4-9 *)
Definition notification_of (v : json) : option message :=
  match fields 1 [chars "method"%string; chars "params"%string] v with
  | Some [m; p] => match string_of m with Some m => Some (Notification m (or_null p)) | None => None end
  | _ => None
  end.
(* response.rs:45-81. [error]: None if the field is absent or null, Some None if it cannot be read *)
Definition error_of (v : option json) : option (option (Z * text * json)) :=
  match v with
  | None | Some JNull => None
  | Some v => Some
      match fields 2 [chars "code"%string; chars "message"%string; chars "data"%string] v with
      | Some [Some (JInt z); m; d] => if i32_ok z then match string_of m with Some m => Some (z, m, or_null d) | None => None end else None
      | _ => None
      end
  end.
Definition response_of (v : json) : option message :=
  match fields 3 [chars "id"%string; chars "result"%string; chars "error"%string] v with
  | Some [i; r; e] =>
      match id_of i, error_of e with
      | None, _ | _, Some None => None
      | Some i, None => match r with None | Some JNull => None | Some r => Some (ResponseOk i r) end
      | Some i, Some (Some (z, m, d)) => match r with None | Some JNull => Some (ResponseErr i (code_of_i32 z) m d) | Some _ => None end
      end
  | _ => None
  end.
(* message.rs:14-22 *)
Definition of_json (v : json) : option message :=
  match request_of v with
  | Some m => Some m
  | None => match response_of v with Some m => Some m | None => notification_of v end
  end.
