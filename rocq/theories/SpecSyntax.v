(* Vocabulary for statements about component values, blocks and rules. *)
From Coq Require Import Permutation.
From Verif Require Import Syntax SpecLex SpecTrace SpecParser.
Open Scope N_scope.
Open Scope list_scope.

Definition is_opener (k : kind) : Prop := k = K_LeftCurly \/ k = K_LeftSquare \/ k = K_LeftParen.
Definition is_closer (k : kind) : Prop := k = K_RightCurly \/ k = K_RightSquare \/ k = K_RightParen.
(* the kinds that stand for themselves in a component value *)
Definition is_plain (k : kind) : Prop :=
  In k [K_Whitespace; K_Number; K_Dimension; K_Ident; K_AtKeyword; K_Hash; K_String; K_Url; K_Delim; K_Colon; K_Semicolon; K_Comma].
Definition kind_of (c : cursor) : kind := tkind (ctok c).

(* [e] is the cursor that was read, except that the offset of a bracket may differ *)
Definition re_emitted (c e : cursor) : Prop := e = c \/ ctok e = ctok c /\ (is_opener (kind_of c) \/ is_closer (kind_of c)).

(* bracketed sequences of kinds: every opened block is closed by a closing bracket (of any kind), every function by ')' *)
Inductive grouped : list kind -> Prop :=
  | gr_nil : grouped []
  | gr_plain : forall k l, is_plain k -> grouped l -> grouped (k :: l)
  | gr_block : forall o a c b, is_opener o -> grouped a -> is_closer c -> grouped b -> grouped (o :: a ++ c :: b)
  | gr_function : forall a b, grouped a -> grouped b -> grouped (K_Function :: a ++ K_RightParen :: b).
(* the same, cut off inside one or more groups *)
Inductive left_open : list kind -> Prop :=
  | lo_here : forall o a, is_opener o \/ o = K_Function -> grouped a -> left_open (o :: a)
  | lo_inside : forall o a, is_opener o \/ o = K_Function -> left_open a -> left_open (o :: a)
  | lo_after : forall a b, grouped a -> left_open b -> left_open (a ++ b).

(* the next token is neither a closing bracket nor the start of a component value *)
Definition stuck (p : parser) : Prop :=
  exists c, peek_next p = Some c /\ ~ is_closer (kind_of c) /\ ~ is_plain (kind_of c) /\ ~ is_opener (kind_of c) /\ kind_of c <> K_Function.

(* the parser's skip set has comments and not the end of the input: true of KS_TRIVIA, the default, and KS_COMMENTS *)
Definition skips_comments (p : parser) : Prop := kindset_contains (pskip p) K_Comment = true /\ kindset_contains (pskip p) K_Eof = false.

(* the closing bracket of an opening one *)
Definition closer_of (k : kind) : kind :=
  match k with K_LeftCurly => K_RightCurly | K_LeftSquare => K_RightSquare | _ => K_RightParen end.
Definition is_trivia (c : cursor) : Prop := kind_of c = K_Whitespace \/ kind_of c = K_Comment.
(* component values as CSS Syntax writes them: every block closed by its own bracket, every function by ')', comments
   anywhere, and outside all groups only kinds with [ok] (whitespace is always allowed) *)
Inductive values_text : (kind -> Prop) -> list cursor -> Prop :=
  | vt_nil : forall ok, values_text ok []
  | vt_comment : forall (ok : kind -> Prop) c l, kind_of c = K_Comment -> values_text ok l -> values_text ok (c :: l)
  | vt_plain : forall (ok : kind -> Prop) c l, is_plain (kind_of c) -> (kind_of c = K_Whitespace \/ ok (kind_of c)) -> values_text ok l -> values_text ok (c :: l)
  | vt_block : forall (ok : kind -> Prop) o a c b, is_opener (kind_of o) -> ok (kind_of o) -> values_text (fun _ => True) a -> kind_of c = closer_of (kind_of o) -> values_text ok b ->
      values_text ok (o :: a ++ c :: b)
  | vt_function : forall (ok : kind -> Prop) f a c b, kind_of f = K_Function -> ok K_Function -> values_text (fun _ => True) a -> kind_of c = K_RightParen -> values_text ok b ->
      values_text ok (f :: a ++ c :: b).
(* [rest] does not continue a list of component values that stops at [stop] *)
Definition ends_values (stop : kindset) (rest : list cursor) : Prop :=
  match rest with
  | [] => True
  | c :: _ => ~ is_trivia c /\ (kindset_contains stop (kind_of c) = true \/ ~ (is_plain (kind_of c) \/ is_opener (kind_of c) \/ kind_of c = K_Function))
  end.

(* a simple block [v] read from the tokens [used], with the parser left at [q] *)
Definition block_result (q : parser) (v : cval) (used : list cursor) : Prop :=
  exists start o vs close oc inner, v = CvBlock start o vs close /\ ctok oc = o /\ is_opener (kind_of oc) /\ Forall2 re_emitted inner (cvs_cursors vs) /\
    match close with
    | Some t => exists c, ctok c = t /\ is_closer (kind_of c) /\ used = oc :: inner ++ [c] /\ grouped (map kind_of inner)
    | None => used = oc :: inner /\ left_open (map kind_of used) /\ stuck q
    end.
