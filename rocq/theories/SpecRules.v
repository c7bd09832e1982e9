(* Vocabulary for statements about the tokens of blocks, rules and stylesheets. *)
From Coq Require Import Permutation.
From Verif Require Import Traits Syntax SpecParser SpecSyntax SpecTraits.
Open Scope N_scope.
Open Scope list_scope.

(* the tokens a tree may leave out: whitespace, comments, semicolons, and the two comment delimiters of HTML *)
Definition droppable (c : cursor) : Prop := In (kind_of c) [K_Whitespace; K_Comment; K_Semicolon; K_CdcOrCdo].

(* [emits mixed cs out]: the tokens cs are, in order, those kept and some droppable ones; out is the tokens kept (a bracket's
   offset aside), in their order when [mixed] is false, in some order when it is true *)
Definition emits (mixed : bool) (cs out : list cursor) : Prop :=
  exists kept dropped out0, merged kept dropped cs /\ Forall droppable dropped /\ Forall2 re_emitted kept out0 /\ (if mixed then Permutation out0 out else out0 = out).
(* between p and q the tokens read are those emitted *)
Definition reads (mixed : bool) (p q : parser) (out : list cursor) : Prop :=
  exists cs rest, ahead (plex p) (cs ++ rest) /\ ahead (plex q) rest /\ same_mode p q /\ emits mixed cs out.

(* a parser [m] whose results emit [em]: what it reads is what it emits *)
Definition normal (p : parser) : Prop := pskip p = KS_TRIVIA /\ exists cs, ahead (plex p) cs.
Definition faithful {A} (m : P A) (em : A -> list cursor) (mx : A -> bool) : Prop :=
  forall p r q, normal p -> m p = Some (r, q) -> match r with Ok a => reads (mx a) p q (em a) | Err _ => moved 0 p q end.

(* a block with both declarations and rules is mixed: its declarations are written before its rules *)
Definition both {A B} (l : list A) (m : list B) : bool := match l, m with _ :: _, _ :: _ => true | _, _ => false end.
Fixpoint mixed_block (b : block) : bool :=
  match b with Block _ _ decls rules _ => both decls rules || existsb mixed_rule rules end
with mixed_rule (r : rule) : bool :=
  match r with
  | AtRule _ _ (inl b) => mixed_block b
  | AtRule _ _ (inr _) => false
  | QualifiedRule _ b => mixed_block b
  end.
