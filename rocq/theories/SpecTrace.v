(* Vocabulary for statements about runs of the lexer. *)
From Verif Require Import Lexer SpecLex.
Open Scope N_scope.
Open Scope list_scope.

(* every lexer a user can hold for [src]: created, advanced, or rewound / hopped to a checkpoint taken from another one *)
Inductive reached (src : text) (f : feature) : lexer -> Prop :=
  | rc_new : reached src f (lexer_new src f)
  | rc_advance : forall x t x', reached src f x -> lexer_advance x = Some (t, x') -> reached src f x'
  | rc_rewind : forall x y, reached src f x -> reached src f y -> reached src f (lexer_rewind x (lexer_checkpoint y))
  | rc_hop : forall x y, reached src f x -> reached src f y -> reached src f (lexer_hop x (lexer_checkpoint y)).

(* [advances x ts y]: the calls of advance from x return ts and end in y *)
Inductive advances : lexer -> list token -> lexer -> Prop :=
  | av_nil : forall x, advances x [] x
  | av_cons : forall x t y ts z, lexer_advance x = Some (t, y) -> advances y ts z -> advances x (t :: ts) z.

(* the cursors cover the text [l] placed at offset [o], in order, without gap or overlap, each on character boundaries *)
Inductive tiles : N -> text -> list cursor -> Prop :=
  | tl_nil : forall o, tiles o [] []
  | tl_cons : forall o p r t cs, p <> [] -> tlen t = blen p -> tiles (o + blen p) r cs -> tiles o (p ++ r) (Cursor o t :: cs).

(* the token that advance returns in a source [pre ++ l] at the boundary between [pre] and [l] *)
Definition token_at (f : feature) (pre l : text) (t : token) : Prop :=
  forall last, exists x', lexer_advance (Lexer (pre ++ l) (blen pre) last f) = Some (t, x').

(* a whitespace style is a set of the three bits *)
Definition style_has (style bit : N) : Prop := N.land style bit <> 0.

(* comment styles, from comment_style.rs documentation: [l] is the text after the two opening characters *)
Inductive documented_block_style : text -> comment_style -> Prop :=
  | bs_star : forall l, ~ starts (eq 47) l -> documented_block_style (42 :: l) CS_BlockStar
  | bs_bang : forall l, documented_block_style (33 :: l) CS_BlockBang
  | bs_pound : forall l, documented_block_style (35 :: l) CS_BlockPound
  | bs_heading : forall c l, c = 61 \/ c = 45 -> documented_block_style (c :: l) CS_BlockHeading
  | bs_block : forall l, ~ starts (fun c => c = 33 \/ c = 35 \/ c = 61 \/ c = 45) l ->
      ~ (exists l', l = 42 :: l' /\ ~ starts (eq 47) l') -> documented_block_style l CS_Block.
Inductive documented_line_style : text -> comment_style -> Prop :=
  | ls_star : forall l, documented_line_style (42 :: l) CS_SingleStar
  | ls_bang : forall l, documented_line_style (33 :: l) CS_SingleBang
  | ls_single : forall l, ~ starts (fun c => c = 42 \/ c = 33) l -> documented_line_style l CS_Single.

(* facts about the pieces of an ident sequence *)
Definition has_escape (ps : list piece) : Prop := exists e, In (Esc e) ps.
Definition plain_chars (ps : list piece) : text := flat_map (fun x => match x with Plain c => [c] | Esc _ => [] end) ps.
Definition starts_dashed (ps : list piece) : Prop := exists rest, ps = Plain 45 :: Plain 45 :: rest.
(* the flags of an ident or function token *)
Definition ident_facts (t : token) (ps : list piece) : Prop :=
  (is_dashed_ident t = true <-> starts_dashed ps) /\ (contains_escape_chars t = true <-> has_escape ps) /\
  (is_lower_case t = true -> forall c, In c (plain_chars ps) -> lower c \/ c = 45) /\
  ((forall c, In c (plain_chars ps) -> lower c) -> is_lower_case t = true).

