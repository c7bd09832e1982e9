(* csskit_lsp/src/service.rs:44-123, 255-307: the handler thread and the document threads, which talk over rendezvous
   channels (crossbeam bounded(0)). One step of [step] is one atomic action of one thread, or one rendezvous.
   - [hl] is what a document thread computes for a text: None if the parse has no output (service.rs:78: no reply is sent).
   - Every document thread is assumed to finish parsing; a thread whose File was replaced stays in the list, without a sender. *)
From Coq Require Import List.
From Verif Require Export Chars.
Open Scope list_scope.

Section Threads.
Context {H : Type} (hl : text -> option H).

(* what the handler thread is asked to do: didOpen, didChange (with the resulting text), semanticTokens/full *)
Inductive call : Type := Open (u t : text) | Edit (u t : text) | Tokens (u : text).
Inductive reply : Type := Unknown | Highlights (h : H).
(* service.rs:27-33 *)
Inductive file_call : Type := RopeChange (t : text) | HighlightCall.
(* a document thread: waiting for a call, working on one, or sending a reply (service.rs:56-104) *)
Inductive doc_thread : Type := Waiting (cur : text) | Working (cur : text) (c : file_call) | Replying (cur : text) (h : H).
(* the handler thread: between calls, in sender.send (commit, service.rs:108-111, or get_highlights, :114), or in
   receiver.recv (:115) *)
Inductive service_thread : Type := Idle (todo : list call) | Sending (i : nat) (c : file_call) (todo : list call) | Receiving (i : nat) (todo : list call).
Record state : Type := State { svc : service_thread; threads : list doc_thread; table : text -> option nat; replies : list reply }.

Fixpoint update (i : nat) (x : doc_thread) (l : list doc_thread) : list doc_thread :=
  match l, i with [], _ => [] | _ :: r, O => x :: r | y :: r, S i => y :: update i x r end.
Definition set_thread (f : text -> option nat) (u : text) (i : nat) : text -> option nat := fun v => if list_eq_dec N.eq_dec v u then Some i else f v.

Inductive step : state -> state -> Prop :=
  (* service.rs:255-264: a new File with its thread, and the first commit *)
  | st_open : forall u t cs ths tb rs,
      step (State (Idle (Open u t :: cs)) ths tb rs) (State (Sending (length ths) (RopeChange t) cs) (ths ++ [Waiting []]) (set_thread tb u (length ths)) rs)
  (* service.rs:268-306 *)
  | st_edit : forall u t cs ths tb rs i, tb u = Some i -> step (State (Idle (Edit u t :: cs)) ths tb rs) (State (Sending i (RopeChange t) cs) ths tb rs)
  | st_edit_unknown : forall u t cs ths tb rs, tb u = None -> step (State (Idle (Edit u t :: cs)) ths tb rs) (State (Idle cs) ths tb rs)
  (* service.rs:238-253 *)
  | st_tokens : forall u cs ths tb rs i, tb u = Some i -> step (State (Idle (Tokens u :: cs)) ths tb rs) (State (Sending i HighlightCall cs) ths tb rs)
  | st_tokens_unknown : forall u cs ths tb rs, tb u = None -> step (State (Idle (Tokens u :: cs)) ths tb rs) (State (Idle cs) ths tb (rs ++ [Unknown]))
  (* rendezvous of sender.send and read_receiver.recv *)
  | st_commit : forall i t cs ths tb rs cur, nth_error ths i = Some (Waiting cur) ->
      step (State (Sending i (RopeChange t) cs) ths tb rs) (State (Idle cs) (update i (Working cur (RopeChange t)) ths) tb rs)
  | st_ask : forall i cs ths tb rs cur, nth_error ths i = Some (Waiting cur) ->
      step (State (Sending i HighlightCall cs) ths tb rs) (State (Receiving i cs) (update i (Working cur HighlightCall) ths) tb rs)
  (* service.rs:60-71 *)
  | st_parse : forall s i t ths tb rs cur, nth_error ths i = Some (Working cur (RopeChange t)) ->
      step (State s ths tb rs) (State s (update i (Waiting t) ths) tb rs)
  (* service.rs:73-99 *)
  | st_highlight : forall s i ths tb rs cur h, nth_error ths i = Some (Working cur HighlightCall) -> hl cur = Some h ->
      step (State s ths tb rs) (State s (update i (Replying cur h) ths) tb rs)
  | st_no_output : forall s i ths tb rs cur, nth_error ths i = Some (Working cur HighlightCall) -> hl cur = None ->
      step (State s ths tb rs) (State s (update i (Waiting cur) ths) tb rs)
  (* rendezvous of write_sender.send and receiver.recv *)
  | st_reply : forall i cs ths tb rs cur h, nth_error ths i = Some (Replying cur h) ->
      step (State (Receiving i cs) ths tb rs) (State (Idle cs) (update i (Waiting cur) ths) tb (rs ++ [Highlights h])).

Inductive steps : state -> state -> Prop :=
  | steps_refl : forall s, steps s s
  | steps_more : forall a b c, steps a b -> step b c -> steps a c.
Definition start (cs : list call) : state := State (Idle cs) [] (fun _ => None) [].
End Threads.
Arguments Unknown {H}.
