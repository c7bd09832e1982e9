(* C35: ids and codes *)
From Coq Require Import ZifyBool ZifyNat ZifyN.
From Coq Require Import String.
From Coq Require Import List.
From Verif Require Import LspMessage SpecLspMessage.
Open Scope Z_scope.
Open Scope list_scope.

Lemma code_survives : forall z, code_to_i32 (code_of_i32 z) = z.
Proof.
  intro z. unfold code_of_i32.
  repeat match goal with |- context [if z =? ?k then _ else _] => let E := fresh in destruct (z =? k) eqn:E; [apply Z.eqb_eq in E; subst z; reflexivity | clear E] end. reflexivity.
Qed.
Lemma named_codes : forall c, named_code c -> c <> EC_LspReservedErrorEnd -> code_of_i32 (code_to_i32 c) = c.
Proof. intros c N1 N2. destruct c; try reflexivity; easy. Qed.
Lemma unnamed_codes : forall z, (forall c, named_code c -> code_to_i32 c <> z) -> code_of_i32 (code_to_i32 (EC_Unknown z)) = EC_Unknown z.
Proof.
  intros z N. cbn [code_to_i32]. unfold code_of_i32.
  repeat match goal with |- context [if z =? ?k then ?c else _] => let E := fresh in destruct (z =? k) eqn:E; [exfalso; apply Z.eqb_eq in E; apply (N c I); cbn [code_to_i32]; congruence | clear E] end. reflexivity.
Qed.
Lemma i32_ok_spec : forall z, i32_ok z = true <-> i32 z.
Proof. intro z. unfold i32_ok, i32. lia. Qed.
Lemma id_round : forall i, id_ok i -> id_of (Some (id_json i)) = Some i.
Proof. intros [z | s] H; [| reflexivity]. cbn [id_json id_of]. cbn [id_ok] in H. apply i32_ok_spec in H. now rewrite H. Qed.
Ltac fields_now := unfold fields, obj_fields, get, same_key, chars; cbn -[list_eq_dec]; repeat match goal with |- context [list_eq_dec N.eq_dec ?a ?b] => let d := eval vm_compute in (if list_eq_dec N.eq_dec a b then true else false) in
  match d with true => destruct (list_eq_dec N.eq_dec a b) as [_ | ?]; [| congruence] | false => destruct (list_eq_dec N.eq_dec a b); [discriminate |] end; cbn -[list_eq_dec] end.
Definition fields_of (m : message) : list (text * json) := match to_json m with JObj l => l | _ => [] end.
Lemma params_null : forall p, or_null (match p with JNull => None | _ => Some p end) = p.
Proof. now destruct p. Qed.
Lemma request_fields : forall i m p, fields 2 [chars "id"%string; chars "method"%string; chars "params"%string] (to_json (Request i m p)) = Some [Some (id_json i); Some (JStr m); match p with JNull => None | _ => Some p end].
Proof. intros i m p. destruct p; reflexivity. Qed.
Lemma ok_not_request : forall i r, request_of (to_json (ResponseOk i r)) = None.
Proof. intros i r. unfold request_of. change (fields 2 [chars "id"%string; chars "method"%string; chars "params"%string] (to_json (ResponseOk i r))) with (Some [Some (id_json i); None; None : option json]). cbv beta iota. destruct (id_of (Some (id_json i))); reflexivity. Qed.
Lemma err_not_request : forall i c s d, request_of (to_json (ResponseErr i c s d)) = None.
Proof. intros i c s d. unfold request_of. change (fields 2 [chars "id"%string; chars "method"%string; chars "params"%string] (to_json (ResponseErr i c s d))) with (Some [Some (id_json i); None; None : option json]). cbv beta iota. destruct (id_of (Some (id_json i))); reflexivity. Qed.
Lemma err_fields : forall i c s d, fields 3 [chars "id"%string; chars "result"%string; chars "error"%string] (to_json (ResponseErr i c s d)) =
  Some [Some (id_json i); Some JNull; Some (JObj [(chars "code"%string, JInt (code_to_i32 c)); (chars "message"%string, JStr s); (chars "data"%string, d)])].
Proof. reflexivity. Qed.
Lemma err_inner : forall z s d, fields 2 [chars "code"%string; chars "message"%string; chars "data"%string] (JObj [(chars "code"%string, JInt z); (chars "message"%string, JStr s); (chars "data"%string, d)]) = Some [Some (JInt z); Some (JStr s); Some d].
Proof. reflexivity. Qed.
Lemma message_round : forall m, readable m -> of_json (to_json m) = Some m.
Proof.
  intros m R. unfold of_json. destruct m as [i me p | i r | i c s d | me p]; cbn [readable] in R.
  - unfold request_of. rewrite request_fields. cbv beta iota. rewrite id_round by exact R. cbn [string_of]. now rewrite params_null.
  - destruct R as [R NN]. rewrite ok_not_request. assert (Q2 : response_of (to_json (ResponseOk i r)) = Some (ResponseOk i r)); [| now rewrite Q2]. unfold response_of.
    change (fields 3 [chars "id"%string; chars "result"%string; chars "error"%string] (to_json (ResponseOk i r))) with (Some [Some (id_json i); Some r; Some JNull]). cbv beta iota. rewrite id_round by exact R. cbn [error_of]. destruct r; try reflexivity. now elim NN.
  - destruct R as (R & Ri & Rc). rewrite err_not_request. assert (Q2 : response_of (to_json (ResponseErr i c s d)) = Some (ResponseErr i c s d)); [| now rewrite Q2]. unfold response_of.
    change (fields 3 [chars "id"%string; chars "result"%string; chars "error"%string] (to_json (ResponseErr i c s d))) with (Some [Some (id_json i); Some JNull; Some (JObj [(chars "code"%string, JInt (code_to_i32 c)); (chars "message"%string, JStr s); (chars "data"%string, d)])]).
    cbv beta iota. rewrite id_round by exact R. unfold error_of.
    change (fields 2 [chars "code"%string; chars "message"%string; chars "data"%string] (JObj [(chars "code"%string, JInt (code_to_i32 c)); (chars "message"%string, JStr s); (chars "data"%string, d)])) with (Some [Some (JInt (code_to_i32 c)); Some (JStr s); Some d]).
    cbv beta iota. apply i32_ok_spec in Ri. rewrite Ri. cbn [string_of or_null]. now rewrite Rc.
  - assert (Q : request_of (to_json (Notification me p)) = None) by (destruct p; reflexivity). rewrite Q.
    assert (Q2 : response_of (to_json (Notification me p)) = None) by (destruct p; reflexivity). rewrite Q2. unfold notification_of.
    assert (F : fields 1 [chars "method"%string; chars "params"%string] (to_json (Notification me p)) = Some [Some (JStr me); match p with JNull => None | _ => Some p end]) by (destruct p; reflexivity).
    rewrite F. cbv beta iota. cbn [string_of]. now rewrite params_null.
Qed.
(* whatever is read back from a written message has its id *)
Lemma id_survives : forall m m', (forall i, message_id m = Some i -> id_ok i) -> of_json (to_json m) = Some m' -> message_id m' = message_id m.
Proof.
  intros m m' Ok E. destruct m as [i me p | i r | i c s d | me p]; cbn [message_id] in *.
  - rewrite message_round in E by (cbn; auto). now injection E as <-.
  - destruct r; try (rewrite message_round in E by (cbn; split; [auto | discriminate]); now injection E as <-). exfalso. unfold of_json in E. rewrite ok_not_request in E.
    unfold response_of in E. change (fields 3 [chars "id"%string; chars "result"%string; chars "error"%string] (to_json (ResponseOk i JNull))) with (Some [Some (id_json i); Some JNull; Some JNull]) in E. cbv beta iota in E. rewrite id_round in E by auto. discriminate.
  - unfold of_json in E. rewrite err_not_request in E. unfold response_of in E. rewrite err_fields in E. cbv beta iota in E. rewrite id_round in E by auto. unfold error_of in E. rewrite err_inner in E. cbv beta iota in E.
    destruct (i32_ok (code_to_i32 c)); cbn [string_of or_null] in E; [now injection E as <- |]. discriminate.
  - rewrite message_round in E by (cbn; auto). now injection E as <-.
Qed.
