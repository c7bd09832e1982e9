(* Vocabulary for JSON-RPC messages. *)
From Coq Require Import String.
From Coq Require Import List.
From Verif Require Import LspMessage.
Open Scope Z_scope.

Definition i32 (z : Z) : Prop := - 2 ^ 31 <= z < 2 ^ 31.
Definition id_ok (i : rpc_id) : Prop := match i with IdNumber z => i32 z | IdString _ => True end.
Definition message_id (m : message) : option rpc_id :=
  match m with Request i _ _ | ResponseOk i _ | ResponseErr i _ _ _ => Some i | Notification _ _ => None end.
(* ids and codes are i32; a success carries a result; the code is one its number stands for *)
Definition readable (m : message) : Prop :=
  match m with
  | Request i _ _ => id_ok i
  | ResponseOk i r => id_ok i /\ r <> JNull
  | ResponseErr i c _ _ => id_ok i /\ i32 (code_to_i32 c) /\ code_of_i32 (code_to_i32 c) = c
  | Notification _ _ => True
  end.
(* codes of the LSP and JSON-RPC specifications *)
Definition named_code (c : error_code) : Prop := match c with EC_Unknown _ => False | _ => True end.
