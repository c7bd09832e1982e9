(* C60: what a declaration is, in the tokens of its text. Nothing here is from the parsers of declarations. *)
From Coq Require Import String.
From Coq Require Import List.
From Verif Require Import Ast SpecLex SpecParser SpecSyntax SpecConforms SpecAccepts.
Open Scope N_scope.
Open Scope list_scope.

(* CSS Cascade 5, 7: the keywords that every property has *)
Definition CSS_WIDE : list text := map chars ["initial"; "inherit"; "unset"; "revert"; "revert-layer"]%string.
(* CSS Values 4, 10 and CSS Variables: the functions that any value may have *)
Definition CSS_MATH : list text := map chars
  ["var"; "calc"; "min"; "max"; "clamp"; "round"; "mod"; "rem"; "sin"; "cos"; "tan"; "asin"; "atan"; "atan2"; "pow"; "sqrt"; "hypot"; "log"; "exp"; "abs"; "sign"]%string.
Definition wide_word (src : text) (w : text) (c : cursor) : Prop := In w CSS_WIDE /\ kind_of c = K_Ident /\ parse_str_lower c src = Some w.
Definition computed_function (src : text) (c : cursor) : Prop := kind_of c = K_Function /\ exists w, In w CSS_MATH /\ parse_str_lower c src = Some w.
(* a custom property *)
Definition custom_name (c : cursor) : Prop := is_dashed_ident (ctok c) = true.
(* [! important], in any case *)
Definition important (src : text) (bang word : cursor) : Prop := is_delim 33 bang /\ kind_of word = K_Ident /\ eq_ignore_ascii_case word src (chars "important") = Some true.
Definition importance (src : text) (o : option (cursor * cursor)) (l : list cursor) : Prop :=
  match o with Some (b, w) => l = [b; w] /\ important src b w | None => l = [] end.
(* a value of a property is followed by nothing, a semicolon, a closing curly bracket or an exclamation mark *)
Definition may_end (after : list cursor) : Prop := match after with [] => True | c :: _ => kind_of c = K_Semicolon \/ kind_of c = K_RightCurly \/ is_delim 33 c end.

(* [value] are the tokens of the value, [after] those after it, whitespace and comments aside *)
Inductive value_of (src : text) (name : cursor) (value after : list cursor) : style_value -> Prop :=
  | of_custom l : custom_name name -> value_of src name value after (SvCustom l)
  | of_wide w c : ~ custom_name name -> value = [c] -> wide_word src w c -> value_of src name value after (SvKeyword (w, c))
  | of_computed l : ~ custom_name name -> Exists (computed_function src) (value ++ after) -> value_of src name value after (SvComputed l)
  | of_known w l s d : ~ custom_name name -> parse_str_lower name src = Some w -> defines w s -> css_def s = Some d -> conforms src (enforced w) d value -> may_end after -> value_of src name value after (SvKnown w l)
  | of_unknown l : ~ custom_name name -> value_of src name value after (SvUnknown l).
(* the value is any tokens: of a custom property, with a computed function, or not one of its property *)
Definition free_value (v : style_value) : option (list cval) := match v with SvCustom l | SvComputed l | SvUnknown l => Some l | _ => None end.
(* where such a value ends: at the end of the text, at a semicolon or a closing curly bracket, or at a token that no value has (another closing bracket, a bad string, ...) *)
Definition may_stop (after : list cursor) : Prop :=
  match after with [] => True | c :: _ => kind_of c = K_Semicolon \/ kind_of c = K_RightCurly \/ ~ (is_plain (kind_of c) \/ is_opener (kind_of c) \/ kind_of c = K_Function) end.
(* none of the tokens of the value outside brackets is a semicolon *)
Definition no_semicolon (l : list cval) : Prop := forall c, ~ In (CvToken K_Semicolon c) l.
