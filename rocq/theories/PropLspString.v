(* Theorems for C34: the strings of a message are what their JSON spelling says. [string_spelled] (RFC 8259) is in SpecLspString.v. *)
From Coq Require Import String.
From Coq Require Import List Lia.
From Verif Require Import LspJson SpecLspJson SpecLspString LspJsonProofs LspStringProofs.
Open Scope N_scope.
Open Scope list_scope.

(* a text between quotes is read as the string it spells, with escapes in either case and pairs of surrogates, and nothing else is read *)
Theorem C34_strings_are_read : forall fl t s, valid_text t -> read_json fl (utf8_encode (34 :: t ++ [34])) = Some (JStr s) <-> string_spelled t s.
Proof.
  intros fl t s V. unfold read_json. rewrite utf8_round by (constructor; [reflexivity |]; apply Forall_app; split; [exact V | repeat constructor]).
  cbn [length value_at skip_ws]. change (json_ws 34) with false. cbv iota. change (34 =? 110) with false. change (34 =? 116) with false. change (34 =? 102) with false. change ((34 =? 45) || is_ascii_digit 34) with false. change (34 =? 34) with true. cbv iota.
  split.
  - destruct (read_str (t ++ [34])) as [(s', rest) |] eqn:E; [| discriminate]. destruct (skip_ws rest) eqn:W; [| discriminate]. intros [= ->].
    destruct (spelled_read _ _ _ _ (le_n _) E) as (p & Ep & Hp). destruct rest as [| x rest] using rev_ind.
    + apply app_inj_tail in Ep. destruct Ep as (-> & _). exact Hp.
    + exfalso. change (34 :: rest ++ [x]) with ((34 :: rest) ++ [x]) in Ep. rewrite app_assoc in Ep. apply app_inj_tail in Ep. destruct Ep as (_ & <-). clear - W.
      induction rest as [| y rest IH]; [discriminate W |]. cbn [app skip_ws] in W. destruct (json_ws y); [now apply IH | discriminate W].
  - intros H. rewrite (read_spelled t s [] H). reflexivity.
Qed.
Print Assumptions C34_strings_are_read.
(* so a string has one reading *)
Theorem C34_one_string : forall t s s', valid_text t -> string_spelled t s -> string_spelled t s' -> s = s'.
Proof. intros t s s' V H H'. apply (C34_strings_are_read (fun _ => None)) in H, H'; try exact V. congruence. Qed.
Print Assumptions C34_one_string.
(* a case: a newline, an e with an accent, and U+1F600 as a pair *)
Example C34_strings_case : valid_text (chars "a\n\u00E9\uD83d\ude00"%string) /\ string_spelled (chars "a\n\u00E9\uD83d\ude00"%string) [97; 10; 233; 128512].
Proof.
  assert (V : valid_text (chars "a\n\u00E9\uD83d\ude00"%string)) by (repeat constructor). split; [exact V |].
  apply (C34_strings_are_read (fun _ => None)); [exact V | vm_compute; reflexivity].
Qed.
(* and a lone surrogate, a control character and an unknown escape spell nothing *)
Example C34_strings_refused : forall t s, In t [chars "\ud83d"%string; [10]; chars "\x41"%string; chars "\u00g0"%string] -> ~ string_spelled t s.
Proof.
  intros t s I H. assert (V : valid_text t) by (cbn [In] in I; repeat (destruct I as [<- | I]; [repeat constructor |]); destruct I).
  apply (C34_strings_are_read (fun _ => None)) in H; [| exact V]. cbn [In] in I. repeat (destruct I as [<- | I]; [vm_compute in H; discriminate H |]). destruct I.
Qed.
