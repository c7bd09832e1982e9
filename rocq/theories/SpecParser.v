(* Vocabulary for statements about the parser: the tokens ahead of a lexer, and the parsers a user can hold. *)
From Verif Require Import Parser SpecLex SpecTrace.
Open Scope N_scope.
Open Scope list_scope.

(* [ahead x cs]: the calls of advance from x return the tokens cs, each at the offset the lexer had, then end of input *)
Inductive ahead : lexer -> list cursor -> Prop :=
  | ah_end : forall x, loff x = blen (lsrc x) -> ahead x []
  | ah_cons : forall x t y cs, lexer_advance x = Some (t, y) -> tkind t <> K_Eof -> 0 < tlen t -> ahead y cs ->
      ahead x (Cursor (loff x) t :: cs).

(* kind membership of a cursor *)
Definition in_kinds (s : kindset) (c : cursor) : Prop := kindset_contains s (tkind (ctok c)) = true.
Definition eof_cursor (p : parser) : cursor := Cursor (blen (lsrc (plex p))) T_EOF.

(* everything but the lexer's position and the trivia *)
Definition same_settings (p q : parser) : Prop :=
  perrs q = perrs p /\ pstate q = pstate p /\ pskip q = pskip p /\ pstop q = pstop p /\ lsrc (plex q) = lsrc (plex p) /\ lfeat (plex q) = lfeat (plex p).

(* the same, errors aside *)
Definition same_mode (p q : parser) : Prop :=
  pstate q = pstate p /\ pskip q = pskip p /\ pstop q = pstop p /\ lsrc (plex q) = lsrc (plex p) /\ lfeat (plex q) = lfeat (plex p).

(* fewer errors and trivia than a checkpoint's counters can hold *)
Definition small (p : parser) : Prop := N.of_nat (length (perrs p)) < 256 /\ N.of_nat (length (ptrivia p)) < 65536.

(* the part of [small] about errors *)
Definition few_errors (p : parser) : Prop := N.of_nat (length (perrs p)) < 256.

(* what code holding a parser can do between two points: its own operations, and rewinds to checkpoints it took in
   between, at parsers that satisfy [ok] *)
Inductive steps (ok : parser -> Prop) : parser -> parser -> Prop :=
  | st_refl : forall p, steps ok p p
  | st_next : forall p q c r, steps ok p q -> next q = Some (c, r) -> steps ok p r
  | st_trivia : forall p q r, steps ok p q -> consume_trivia q = Some r -> steps ok p r
  | st_state : forall p q s, steps ok p q -> steps ok p (set_state q s)
  | st_skip : forall p q s, steps ok p q -> steps ok p (set_skip q s)
  | st_stop : forall p q s, steps ok p q -> steps ok p (set_stop q s)
  | st_error : forall p q e, steps ok p q -> steps ok p (with_errs q (perrs q ++ [e]))
  | st_rewind : forall p q r, steps ok p q -> steps ok q r -> ok q -> steps ok p (rewind r (checkpoint q)).

(* a parser made for [src] and used in any way *)
Definition reached_parser (src : text) (f : feature) (p : parser) : Prop := steps (fun _ => True) (parser_new src f) p.

(* the operations of a straight-line history, and what they output *)
Inductive op : Set := ONext | OTrivia | OSkip (s : kindset) | OStop (s : kindset) | OState (s : N).
Definition exec (p : parser) (o : op) : option (list cursor * parser) :=
  match o with
  | ONext => match next p with None => None | Some (c, q) => Some ([c], q) end
  | OTrivia => match consume_trivia p with None => None | Some q => Some ([], q) end
  | OSkip s => Some ([], set_skip p s)
  | OStop s => Some ([], set_stop p s)
  | OState s => Some ([], set_state p s)
  end.
Inductive exec_all : parser -> list op -> list cursor -> parser -> Prop :=
  | ea_nil : forall p, exec_all p [] [] p
  | ea_cons : forall p o os cs q cs' r, exec p o = Some (cs, q) -> exec_all q os cs' r -> exec_all p (o :: os) (cs ++ cs') r.

(* [c] is [a] and [b] merged, each kept in order *)
Inductive merged {A} : list A -> list A -> list A -> Prop :=
  | mg_nil : merged [] [] []
  | mg_left : forall x a b c, merged a b c -> merged (x :: a) b (x :: c)
  | mg_right : forall x a b c, merged a b c -> merged a (x :: b) (x :: c).

Definition is_eof (c : cursor) : bool := tok_is (ctok c) K_Eof.

(* n calls of next, and the last cursor returned *)
Inductive nexts : nat -> parser -> cursor -> Prop :=
  | nx_one : forall p c q, next p = Some (c, q) -> nexts 1 p c
  | nx_more : forall n p c q d, next p = Some (c, q) -> nexts (S n) q d -> nexts (S (S n)) p d.

(* [took p q used]: between p and q exactly the tokens [used] and some tokens now in the trivia list were consumed, in
   source order, and nothing else changed but the lexer *)
Definition took (p q : parser) (used : list cursor) : Prop :=
  exists cs new rest, ahead (plex p) (cs ++ rest) /\ ahead (plex q) rest /\ ptrivia q = ptrivia p ++ new /\ merged used new cs /\
    Forall (in_kinds (pskip p)) new /\ same_settings p q.

(* q is p with at least k tokens fewer ahead, the settings of p in place *)
Definition moved (k : nat) (p q : parser) : Prop :=
  exists used rest, ahead (plex p) (used ++ rest) /\ ahead (plex q) rest /\ (k <= length used)%nat /\ same_mode p q.

(* the characters of a comparison operator *)
Definition is_delim (ch : char) (c : cursor) : Prop := tkind (ctok c) = K_Delim /\ tchar (ctok c) = Some ch.
(* two tokens with nothing between them *)
Definition adjacent (a b : cursor) : Prop := coff b = coff a + tlen (ctok a).
Definition comparison_spelled (x : comparison_t) : Prop :=
  match x with
  | CmpLt c => is_delim 60 c
  | CmpGt c => is_delim 62 c
  | CmpEq c => is_delim 61 c
  | CmpLe a b => is_delim 60 a /\ is_delim 61 b /\ adjacent a b
  | CmpGe a b => is_delim 62 a /\ is_delim 61 b /\ adjacent a b
  end.
