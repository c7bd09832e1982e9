(* Vocabulary for the properties about writing tokens (C23, C32, C33). *)
From Verif Require Import Chars Token Cursor SpecToken SpecLex SpecTrace.
Open Scope N_scope.
Open Scope list_scope.

(* the bits of a finite binary32, of either sign *)
Definition finite_f32 (bits : N) : Prop := bits < 2 ^ 32 /\ bits mod 2 ^ 31 < 255 * 2 ^ 23.
(* the characters that can make a number longer, or turn it into a dimension *)
Definition number_continues (c : char) : Prop := ident_cp c \/ c = 46 \/ c = 37 \/ c = 92.
(* the tokens that are written as they were spelled *)
Definition verbatim (t : token) : Prop := tkind t <> K_Number /\ (tkind t = K_Dimension -> dimension_unit t = U_Unknown).

(* what separates a token from the one written before it *)
Definition separator_before (prev : option token) (t : token) : list text :=
  match prev with Some p => if needs_separator_for p t then [[32]] else [] | None => [] end.
(* the pieces of a sequence of tokens, each with its own pieces, in order *)
Fixpoint joined (prev : option token) (items : list (token * list text)) : list text :=
  match items with
  | [] => []
  | (t, ps) :: r => separator_before prev t ++ ps ++ joined (Some t) r
  end.
(* the same for a sink that keeps cursors: [sep] stands where a separator is needed *)
Fixpoint vec_joined (sep : cursor) (prev : option token) (cs : list cursor) : list cursor :=
  match cs with
  | [] => []
  | c :: r => map (fun _ => sep) (separator_before prev (ctok c)) ++ c :: vec_joined sep (Some (ctok c)) r
  end.
(* what a writer that fails on its piece number n (from 0), or never, has been handed of [out], and whether it failed:
   everything up to and including the failing piece *)
Definition delivered (fails : option nat) (out : list text) : list text * bool :=
  match fails with None => (out, false) | Some n => (firstn (S n) out, (n <? length out)%nat) end.

(* ---- C23: placing the text of a token before other text ---- *)
(* the text ends inside an escape: a backslash followed by nothing but hex digits and whitespace *)
Definition open_escape (p : text) : Prop := exists a b, p = a ++ 92 :: b /\ Forall (fun c => hex c \/ white c) b.
(* at most four whitespace characters, then a quote *)
Definition quote_soon (l : text) : Prop := exists w c r, l = w ++ c :: r /\ Forall white w /\ (length w <= 4)%nat /\ quote c.
(* What the separator rule does not look at. The text p1 of the token t1 (found in a source where r1 follows it) is about to
   be followed by l2, which starts with the token t2. Each field is a way in which the two would merge although
   needs_separator_for says they do not. *)
Record apart (f : feature) (t1 : token) (p1 r1 : text) (t2 : token) (l2 : text) : Prop := {
  (* a trailing hex escape or backslash takes in what follows *)
  ap_escape : ~ open_escape p1;
  (* a string, url or comment cut off by the end of its source is not closed *)
  ap_closed : In (tkind t1) [K_String; K_Url; K_BadUrl; K_Comment] -> r1 <> [];
  ap_bad_string : tkind t1 <> K_BadString;
  ap_line_comment : tkind t1 = K_Comment -> exists z, p1 = 47 :: 42 :: z;
  ap_white : tkind t1 = K_Whitespace -> tkind t2 <> K_Whitespace;
  (* a delimiter '-', or a number -0, after a name *)
  ap_dash : In (tkind t1) [K_Ident; K_AtKeyword; K_Hash] \/ (tkind t1 = K_Dimension /\ dimension_unit t1 <> U_Percent) -> ~ starts (eq 45) l2;
  (* 1e +5 *)
  ap_exponent : (exists n e, p1 = n ++ [e] /\ css_number n /\ (e = 101 \/ e = 69)) -> ~ starts (eq 43) l2;
  (* -- > *)
  ap_cdc : p1 = [45; 45] -> ~ starts (eq 62) l2;
  (* < !-- *)
  ap_cdo : p1 = [60] -> forall r, l2 <> 33 :: 45 :: 45 :: r;
  (* / /* with line comments on *)
  ap_slash : p1 = [47] -> single_line_comments f = true -> ~ starts (eq 47) l2;
  (* url( whose quote is not near: the text of the function token alone lexes as a url *)
  ap_url : tkind t1 = K_Function -> (exists tu, token_at f [] p1 tu /\ tkind tu = K_Url) -> quote_soon l2 }.

(* A sequence of tokens with their texts, each found in some source where a further text follows it. *)
Record item : Set := Item { it_tok : token; it_text : text; it_after : text }.
Definition found (f : feature) (i : item) : Prop :=
  it_text i <> [] /\ tlen (it_tok i) = blen (it_text i) /\ (exists pre, token_at f pre (it_text i ++ it_after i) (it_tok i)) /\
  well_behaved (single_line_comments f) (it_text i ++ it_after i) /\ ~ In 0 (it_text i ++ it_after i).
(* the text of the sequence, each token as it was spelled, with a space wherever needs_separator_for asks for one *)
Definition spelled (prev : option token) (its : list item) : text := concat (joined prev (map (fun i => (it_tok i, [it_text i])) its)).
(* its tokens, with a one-space token at the same places *)
Definition space_token : token := new_whitespace WS_Space 1.
Fixpoint spaced (prev : option token) (ts : list token) : list token :=
  match ts with
  | [] => []
  | t :: r => map (fun _ => space_token) (separator_before prev t) ++ t :: spaced (Some t) r
  end.
(* no two neighbours fall under an exclusion of [apart]; the last token, when it was not the end of its source, must not need what followed *)
Fixpoint all_apart (f : feature) (its : list item) : Prop :=
  match its with
  | [] => True
  | i :: r =>
      match r with
      | [] => it_after i = [] \/ apart f (it_tok i) (it_text i) (it_after i) T_EOF []
      | j :: _ => apart f (it_tok i) (it_text i) (it_after i) (if needs_separator_for (it_tok i) (it_tok j) then space_token else it_tok j) (spelled (Some (it_tok i)) r)
      end /\ all_apart f r
  end.

(* p1 is the text of a token (found with r1 after it) and y starts with another token that, says needs_separator_for, needs no separator;
   yet put together they lex with a different first boundary *)
Definition merges (f : feature) (p1 r1 y : text) : Prop := exists t1 t2 t,
  token_at f [] (p1 ++ r1) t1 /\ tlen t1 = blen p1 /\ token_at f [] y t2 /\ needs_separator_for t1 t2 = false /\
  token_at f [] (p1 ++ y) t /\ tlen t <> tlen t1.
