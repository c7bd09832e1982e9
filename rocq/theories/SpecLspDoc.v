(* The LSP specification's text documents: positions, edits, what a client sends, and the semantic token encoding. *)
From Coq Require Import String.
From Coq Require Import List.
From Coq Require Import Sorting.Permutation Sorting.Sorted.
From Verif Require Import LspDoc SpecLspJson.
Open Scope N_scope.
Open Scope list_scope.

(* UTF-16 code units of a character *)
Definition utf16 (c : char) : N := if c <? 65536 then 1 else 2.
Definition utf16_length (t : text) : N := fold_right (fun c n => utf16 c + n) 0 t.
(* "(line, col) is the position before the [off]-th character": lines end at \n, \r\n and \r, columns are UTF-16 *)
Inductive position : text -> N -> N -> nat -> Prop :=
  | pos_here : forall t, position t 0 0 0
  | pos_char : forall c t col off, c <> 10 -> c <> 13 -> position t 0 col off -> position (c :: t) 0 (utf16 c + col) (S off)
  | pos_skip : forall c t l col off, c <> 10 -> c <> 13 -> position t (N.succ l) col off -> position (c :: t) (N.succ l) col (S off)
  | pos_lf : forall t l col off, position t l col off -> position (10 :: t) (N.succ l) col (S off)
  | pos_crlf : forall t l col off, position t l col off -> position (13 :: 10 :: t) (N.succ l) col (S (S off))
  | pos_cr : forall t l col off, hd_error t <> Some 10 -> position t l col off -> position (13 :: t) (N.succ l) col (S off).

(* one change: the whole text, or the text between two positions *)
Inductive edit : text -> change -> text -> Prop :=
  | edit_whole : forall t s, edit t (Change None s) s
  | edit_range : forall t sl sc el ec a b s, position t sl sc a -> position t el ec b -> (a <= b)%nat ->
      sl < 2 ^ 32 -> sc < 2 ^ 32 -> el < 2 ^ 32 -> ec < 2 ^ 32 ->
      edit t (Change (Some ((sl, sc), (el, ec))) s) (firstn a t ++ s ++ skipn b t).
Inductive edits : text -> list change -> text -> Prop :=
  | edits_nil : forall t, edits t [] t
  | edits_cons : forall t c t1 cs t2, edit t c t1 -> edits t1 cs t2 -> edits t (c :: cs) t2.

(* texts on which ropey's lines and characters are LSP's: no VT, FF, NEL, LS, PS, and nothing beyond the BMP *)
Definition ordinary_char (c : char) : Prop := c < 65536 /\ ~ In c [11; 12; 133; 8232; 8233].
Definition ordinary (t : text) : Prop := Forall ordinary_char t.

(* what a client sends *)
Definition num (n : N) : json := JInt (Z.of_N n).
Definition position_json (p : N * N) : json := JObj [(chars "line"%string, num (fst p)); (chars "character"%string, num (snd p))].
Definition change_json (c : change) : json :=
  JObj (match crange c with
        | Some (a, b) => [(chars "range"%string, JObj [(chars "start"%string, position_json a); (chars "end"%string, position_json b)])]
        | None => []
        end ++ [(chars "text"%string, JStr (ctext c))]).
Definition open_message (u lang : text) (version : Z) (t : text) : message :=
  Notification (chars "textDocument/didOpen"%string)
    (JObj [(chars "textDocument"%string,
            JObj [(chars "uri"%string, JStr u); (chars "languageId"%string, JStr lang); (chars "version"%string, JInt version); (chars "text"%string, JStr t)])]).
Definition change_message (u : text) (version : Z) (cs : list change) : message :=
  Notification (chars "textDocument/didChange"%string)
    (JObj [(chars "textDocument"%string, JObj [(chars "uri"%string, JStr u); (chars "version"%string, JInt version)]);
           (chars "contentChanges"%string, JArr (map change_json cs))]).
(* the client's own documents along a history *)
Definition documents := text -> option text.
Definition set_doc (d : documents) (u t : text) : documents := fun v => if list_eq_dec N.eq_dec v u then Some t else d v.
Inductive client_step (uri_ok : text -> bool) : documents -> message -> documents -> Prop :=
  | step_open : forall d u lang v t, uri_ok u = true -> i32_ok v = true -> ordinary t -> client_step uri_ok d (open_message u lang v t) (set_doc d u t)
  | step_change : forall d u v cs t t', uri_ok u = true -> i32_ok v = true -> d u = Some t -> Forall (fun c => ordinary (ctext c)) cs -> edits t cs t' ->
      client_step uri_ok d (change_message u v cs) (set_doc d u t')
  | step_other : forall d m, ~ In (method_of m) [chars "textDocument/didOpen"%string; chars "textDocument/didChange"%string; chars "exit"%string] ->
      client_step uri_ok d m d.
Inductive client_run (uri_ok : text -> bool) : documents -> list message -> documents -> Prop :=
  | run_nil : forall d, client_run uri_ok d [] d
  | run_cons : forall d m d1 ms d2, client_step uri_ok d m d1 -> client_run uri_ok d1 ms d2 -> client_run uri_ok d (m :: ms) d2.

(* ---- semantic tokens ---- *)
(* the specification's decoding of (deltaLine, deltaStart) *)
Fixpoint decode (line col : N) (l : list (N * N)) : list (N * N) :=
  match l with
  | [] => []
  | (dl, ds) :: r => let line' := line + dl in let col' := if dl =? 0 then col + ds else ds in (line', col') :: decode line' col' r
  end.
(* the start of a highlight is the end of a prefix of the text *)
Definition starts_after (src : text) (h : highlight) (p : text) : Prop := exists r, src = p ++ r /\ sstart (hspan h) = blen p.
Definition on_boundary (src : text) (h : highlight) : Prop := exists p, starts_after src h p.
(* document order *)
Definition span_le (a b : span) : Prop := sstart a < sstart b \/ (sstart a = sstart b /\ send a <= send b).
(* every CR is followed by LF *)
Fixpoint no_lone_cr (t : text) : Prop := match t with [] => True | c :: r => (c = 13 -> hd_error r = Some 10) /\ no_lone_cr r end.
