(* CSS Paged Media 3, sections 4.1 and 4.4: how page selectors are written, and which of two is more specific *)
From Coq Require Import String.
From Coq Require Import List.
From Verif Require Import SpecParser SpecSyntax SpecSelectors SpecSelectorText Ast.
Open Scope N_scope.
Open Scope list_scope.

Definition page_word (x : page_pseudo) : text := match x with PpLeft => chars "left" | PpRight => chars "right" | PpFirst => chars "first" | PpBlank => chars "blank" end.
(* a colon and a word, with nothing between them, for each pseudo-class *)
Inductive page_pseudos_written (src : text) : list page_pseudo_class -> list cursor -> Prop :=
  | pw_none : page_pseudos_written src [] []
  | pw_cons : forall x colon name l toks, kind_of colon = K_Colon -> kind_of name = K_Ident -> parse_str_lower name src = Some (page_word x) -> page_pseudos_written src l toks ->
      page_pseudos_written src ((x, (colon, name)) :: l) (colon :: name :: toks).
(* the name of a page, pseudo-classes, or both *)
Inductive page_written (src : text) : page_selector -> list cursor -> Prop :=
  | pw_type : forall c l toks, kind_of c = K_Ident -> page_pseudos_written src l toks -> page_written src (PageSelector (Some c) l) (c :: toks)
  | pw_pseudos : forall x l toks, page_pseudos_written src (x :: l) toks -> page_written src (PageSelector None (x :: l)) toks.
Inductive pages_written (src : text) : list (page_selector * option cursor) -> list cursor -> Prop :=
  | pw_one : forall g x toks, gap g -> page_written src x toks -> pages_written src [(x, None)] (g ++ toks)
  | pw_more : forall g x toks g' comma l toks', gap g -> page_written src x toks -> gap g' -> kind_of comma = K_Comma -> pages_written src l toks' -> pages_written src ((x, Some comma) :: l) (g ++ toks ++ g' ++ comma :: toks').

(* (f, g, h): whether there is a page type, how many of :first and :blank, how many of :left and :right *)
Definition f_of (x : page_selector) : nat := match ps_type x with Some _ => 1 | None => 0 end.
Definition firsts (x : page_selector) : nat := List.length (filter (fun y => match fst y with PpFirst | PpBlank => true | _ => false end) (ps_pseudos x)).
Definition sides (x : page_selector) : nat := List.length (filter (fun y => match fst y with PpLeft | PpRight => true | _ => false end) (ps_pseudos x)).
(* one selector is less specific than another: the first difference decides *)
Definition less_specific (x y : page_selector) : Prop :=
  (f_of x < f_of y)%nat \/ f_of x = f_of y /\ ((firsts x < firsts y)%nat \/ firsts x = firsts y /\ (sides x < sides y)%nat).
Definition as_specific (x y : page_selector) : Prop := f_of x = f_of y /\ firsts x = firsts y /\ sides x = sides y.
