(* Theorems for C34: what other programs write. [json_spelled] (RFC 8259) is in SpecLspGrammar.v. *)
From Coq Require Import String.
From Coq Require Import List Lia.
From Verif Require Import LspFrame LspMessage SpecLspFrame SpecLspMessage LspMessageProofs LspJson SpecLspJson SpecLspString SpecLspGrammar LspStringProofs LspGrammarProofs LspGrammarProofs2.
Open Scope N_scope.
Open Scope list_scope.

(* every text of a value, with blanks anywhere between its tokens and any escapes in its strings, is read as the value, up to 127 arrays and objects deep *)
Theorem C34_json_texts_are_read : forall fl w t w' v, blank w -> json_spelled 127 t v -> blank w' -> valid_text (w ++ t ++ w') -> read_json fl (utf8_encode (w ++ t ++ w')) = Some v.
Proof. exact text_read. Qed.
Print Assumptions C34_json_texts_are_read.
(* and nothing else is: with a reader that takes no float, what is read is exactly the texts of values *)
Theorem C34_only_json_is_read : forall t v, valid_text t ->
  read_json (fun _ => None) (utf8_encode t) = Some v <-> exists w p w', t = w ++ p ++ w' /\ blank w /\ json_spelled 127 p v /\ blank w'.
Proof. intros t v V. split; [now apply read_texts |]. intros (w & p & w' & -> & Hw & Hp & Hw'). now apply text_read. Qed.
Print Assumptions C34_only_json_is_read.
(* so a text has one value, and a message is read from every text of it *)
Theorem C34_one_value : forall t v v', valid_text t -> json_spelled 127 t v -> json_spelled 127 t v' -> v = v'.
Proof.
  intros t v v' V H H'. assert (B : blank []) by constructor. assert (V' : valid_text ([] ++ t ++ [])) by (cbn [app]; rewrite app_nil_r; exact V).
  pose proof (text_read (fun _ => None) [] t [] v B H B V') as E. rewrite (text_read (fun _ => None) [] t [] v' B H' B V') in E. congruence.
Qed.
Print Assumptions C34_one_value.
Theorem C34_messages_in_any_layout : forall fl m w t w', readable m -> blank w -> json_spelled 127 t (to_json m) -> blank w' -> valid_text (w ++ t ++ w') -> read_body fl (utf8_encode (w ++ t ++ w')) = Some m.
Proof. intros fl m w t w' R Hw Ht Hw' V. unfold read_body. rewrite (text_read fl w t w' _ Hw Ht Hw' V). now apply message_round. Qed.
Print Assumptions C34_messages_in_any_layout.
(* a case: [ 10 , {"a" : -2}] and a message with an escape and blanks *)
Lemma blanks : forall w, forallb (fun c => existsb (N.eqb c) [32; 9; 10; 13]) w = true -> blank w.
Proof. intros w H. rewrite forallb_forall in H. apply Forall_forall. intros c I. apply H in I. apply existsb_exists in I. destruct I as (x & I & E). apply N.eqb_eq in E. now subst. Qed.
Lemma plain_spelled : forall t, forallb (fun c => (32 <=? c) && negb (c =? 34) && negb (c =? 92)) t = true -> string_spelled t t.
Proof.
  induction t as [| c t IH]; intros H; [constructor |]. cbn [forallb] in H. apply andb_prop in H. destruct H as (H1 & H2). change (c :: t) with ([c] ++ t) at 1. constructor; [| now apply IH].
  apply andb_prop in H1. destruct H1 as (H1 & H4). apply andb_prop in H1. destruct H1 as (H1 & H3). apply N.leb_le in H1. apply negb_true_iff, N.eqb_neq in H3, H4. now constructor.
Qed.
Example C34_json_case : json_spelled 127 (chars "[ 10 , {""a"" : -2}]"%string) (JArr [JInt 10; JObj [([97], JInt (-2))]]).
Proof.
  apply (js_array 126 (chars " 10 , {""a"" : -2}"%string)). apply (es_more 126 [32] [49; 48] [32] (JInt 10) (chars " {""a"" : -2}"%string)); [now apply blanks | | now apply blanks |].
  - apply (js_positive 126 [49; 48]); [split; [split; [discriminate | repeat constructor; lia] | right; discriminate] | reflexivity].
  - apply (es_one 126 [32] (chars "{""a"" : -2}"%string) []); [now apply blanks | | now apply blanks]. apply (js_object 125 (chars """a"" : -2"%string)).
    apply (ms_one 125 [] [97] [97] [32] [32] [45; 50] []); try (now apply blanks); [now apply plain_spelled |].
    apply (js_negative 125 [50]); [split; [split; [discriminate | repeat constructor; lia] | right; discriminate] | split; [reflexivity | discriminate]].
Qed.
Example C34_layout_case : readable (Notification (chars "exit"%string) JNull) /\ json_spelled 127 (chars "{ ""jsonrpc"":""2.0"",""method"" : ""exit"" }"%string) (to_json (Notification (chars "exit"%string) JNull)).
Proof.
  split; [repeat split; discriminate |].
  apply (js_object 126 (chars " ""jsonrpc"":""2.0"",""method"" : ""exit"" "%string)).
  apply (ms_more 126 [32] (chars "jsonrpc"%string) (chars "jsonrpc"%string) [] [] (chars """2.0"""%string) [] (JStr (chars "2.0"%string)) (chars """method"" : ""exit"" "%string)); try (now apply blanks); [now apply plain_spelled | apply (js_string 126 (chars "2.0"%string)); now apply plain_spelled |].
  apply (ms_one 126 [] (chars "method"%string) (chars "method"%string) [32] [32] (chars """exit"""%string) [32] (JStr (chars "exit"%string))); try (now apply blanks); [now apply plain_spelled | apply (js_string 126 (chars "exit"%string)); now apply plain_spelled].
Qed.
(* a comma before the bracket, a leading zero, a second value, a name without quotes and a tab in a string are refused *)
Example C34_json_refused : forall t v, In t [chars "[1,]"%string; chars "[01]"%string; chars "1 2"%string; chars "{a:1}"%string; [34; 9; 34]; chars "{""a"":1,}"%string; chars "[1 2]"%string] ->
  ~ exists w p w', t = w ++ p ++ w' /\ blank w /\ json_spelled 127 p v /\ blank w'.
Proof.
  intros t v I H. assert (V : valid_text t) by (cbn [In] in I; repeat (destruct I as [<- | I]; [repeat constructor |]); destruct I).
  apply (C34_only_json_is_read t v V) in H. cbn [In] in I. repeat (destruct I as [<- | I]; [vm_compute in H; discriminate H |]). destruct I.
Qed.
