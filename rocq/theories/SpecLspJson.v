(* Vocabulary for JSON values as text. *)
From Coq Require Import List.
From Verif Require Import LspMessage.
Open Scope N_scope.

Definition valid_text (t : text) : Prop := Forall (fun c => valid_char c = true) t.
(* values with at most [d] nested arrays and objects, no floats, and integers of 64 bits *)
Fixpoint plain_json (d : nat) (v : json) : Prop :=
  match v with
  | JNull | JBool _ => True
  | JInt z => (- 2 ^ 63 <= z < 2 ^ 64)%Z
  | JFloat _ => False
  | JStr s => valid_text s
  | JArr l => match d with O => False | S d => Forall (plain_json d) l end
  | JObj l => match d with O => False | S d => Forall (fun kv => valid_text (fst kv) /\ plain_json d (snd kv)) l end
  end.
Definition plain_message (m : message) : Prop :=
  match m with
  | Request i me p => (match i with IdString s => valid_text s | _ => True end) /\ valid_text me /\ plain_json 126 p
  | ResponseOk i r => (match i with IdString s => valid_text s | _ => True end) /\ plain_json 126 r
  | ResponseErr i _ s d => (match i with IdString s => valid_text s | _ => True end) /\ valid_text s /\ plain_json 125 d
  | Notification me p => valid_text me /\ plain_json 126 p
  end.
