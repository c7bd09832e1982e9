(* Vocabulary for the discipline of requests and notifications. *)
From Coq Require Import String.
From Coq Require Import List.
From Verif Require Import LspHandler.
Open Scope N_scope.
Open Scope list_scope.

(* the ids of the requests in a history, in order *)
Definition request_ids (ms : list message) : list rpc_id := flat_map (fun m => match m with Request i _ _ => [i] | _ => [] end) ms.
(* a reply with an id *)
Definition replies_to (i : rpc_id) (m : message) : Prop :=
  match m with ResponseOk j _ | ResponseErr j _ _ _ => j = i | _ => False end.
(* the specification's own table: a client sends request methods as requests and notification methods as notifications *)
Definition disciplined (m : message) : Prop :=
  match m with
  | Request _ me _ => ~ In me notification_methods
  | Notification me _ => ~ In me request_methods /\ ~ In me bare_methods
  | _ => True
  end.
Definition no_exit (ms : list message) : Prop := Forall (fun m => match m with Notification me _ => me <> chars "exit"%string | _ => True end) ms.
Definition not_initialize (m : message) : Prop := match m with Request _ me _ => me <> chars "initialize"%string | _ => True end.
