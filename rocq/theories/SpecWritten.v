(* Vocabulary for the statement that the tree of a stylesheet writes the tokens the stylesheet was read from. *)
From Coq Require Import List.
From Verif Require Import AstSheet SpecParser SpecSyntax SpecTraits SpecRules SpecFeatures SpecTrace SpecSheet.
Open Scope N_scope.
Open Scope list_scope.

(* what the parser is told to skip is whitespace, comments, both or neither *)
Definition skips_trivia (p : parser) : Prop := forall k, kindset_contains (pskip p) k = true -> k = K_Whitespace \/ k = K_Comment.

(* the grammar of property values is a parameter: its parsers, wherever they are run, are to read forwards and to return the
   tokens they read; those of the properties [loose] in another order perhaps, those of the properties [lossy] not all of them *)
Definition values_faithful (loose lossy : text -> bool) (props : properties) : Prop :=
  forall name value_p, In (name, value_p) props -> forall p cs r q, ahead (plex p) cs -> skips_trivia p -> value_p p = Some (r, q) ->
    exists used rest, cs = used ++ rest /\ ahead (plex q) rest /\ lsrc (plex q) = lsrc (plex p) /\ lfeat (plex q) = lfeat (plex p) /\ skips_trivia q /\
      forall l, r = Ok l -> lossy name = false -> emits (loose name) used l.
Definition none_of (name : text) : bool := false.

(* the trees that are known to lack tokens: a condition with [not] lacks what came before the [not]; an @charset without its
   semicolon may lack the token found instead; a known value of a lossy property *)
Definition whole_condition {F} (x : condition F) : bool := match x with CNot _ _ => false | _ => true end.
Definition whole_query (q : media_query) : bool := match mq_condition q with Some x => whole_condition x | None => true end.
Definition whole_container (q : container_condition) : bool := match cc_condition q with Some x => whole_condition x | None => true end.
Definition whole_value (lossy : text -> bool) (v : style_value) : bool := match v with SvKnown name _ => negb (lossy name) | _ => true end.
Definition whole_decls (lossy : text -> bool) (l : list (property * option cursor)) : bool := forallb (fun d => whole_value lossy (pr_value (fst d))) l.
Definition whole_block (lossy : text -> bool) (b : properties_block) : bool := whole_decls lossy (snd (fst b)).
Definition condition_parts {F} (x : condition F) : list F := match x with CIs f | CNot _ f => [f] | CAnd l | COr l => map fst l end.
Definition whole_support (lossy : text -> bool) (f : supports_feature) : bool := match f with SfProperty _ d _ => whole_value lossy (pr_value d) | SfSelector _ _ _ _ _ => true end.
Fixpoint whole (lossy : text -> bool) (r : css_rule) : bool :=
  match r with
  | RCharset _ _ _ semi => match semi with Some _ => true | None => false end
  | RContainer _ query _ rules _ => forallb whole_container query && forallb (whole lossy) rules
  | RMedia _ query _ decls rules _ => forallb whole_query query && (whole_decls lossy decls && forallb (whole lossy) rules)
  | RSupports _ query _ rules _ => whole_condition query && forallb (whole_support lossy) (condition_parts query) && forallb (whole lossy) rules
  | RDocument _ _ _ rules _ | RMozDocument _ _ _ rules _ | RLayer _ _ _ rules _ => forallb (whole lossy) rules
  | RStyle _ _ decls rules _ => whole_decls lossy decls && forallb (whole lossy) rules
  | RFontFace _ _ decls _ => forallb (fun d => whole_value lossy (pr_value d)) decls
  | RKeyframes _ _ _ frames _ | RWebkitKeyframes _ _ _ frames _ => forallb (fun k => whole_block lossy (kf_block k)) frames
  | RPage _ _ _ decls rules _ => whole_decls lossy decls && forallb (fun m => whole_block lossy (mg_block m)) rules
  | _ => true
  end.
(* a block with both declarations and rules is written with the declarations first; so is, perhaps, a known value of a loose property *)
Definition mixed_value (loose : text -> bool) (v : style_value) : bool := match v with SvKnown name _ => loose name | _ => false end.
Definition mixed_decls (loose : text -> bool) (l : list (property * option cursor)) : bool := existsb (fun d => mixed_value loose (pr_value (fst d))) l.
Definition mixed_properties (loose : text -> bool) (b : properties_block) : bool := mixed_decls loose (snd (fst b)).
Definition mixed_support (loose : text -> bool) (f : supports_feature) : bool := match f with SfProperty _ d _ => mixed_value loose (pr_value d) | SfSelector _ _ _ _ _ => false end.
Fixpoint mixed (loose : text -> bool) (r : css_rule) : bool :=
  match r with
  | RMedia _ _ _ decls rules _ | RStyle _ _ decls rules _ => both decls rules || (mixed_decls loose decls || existsb (mixed loose) rules)
  | RPage _ _ _ decls rules _ => both decls rules || (mixed_decls loose decls || existsb (fun m => mixed_properties loose (mg_block m)) rules)
  | RFontFace _ _ decls _ => existsb (fun d => mixed_value loose (pr_value d)) decls
  | RKeyframes _ _ _ frames _ | RWebkitKeyframes _ _ _ frames _ => existsb (fun k => mixed_properties loose (kf_block k)) frames
  | RSupports _ query _ rules _ => existsb (mixed_support loose) (condition_parts query) || existsb (mixed loose) rules
  | RContainer _ _ _ rules _ | RDocument _ _ _ rules _ | RMozDocument _ _ _ rules _ | RLayer _ _ _ rules _ => existsb (mixed loose) rules
  | RUnknown r | RUnknownAt r => mixed_rule r
  | _ => false
  end.
