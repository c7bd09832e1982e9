(* Vocabulary for the statements about the values of hdx's own properties: the properties whose values are not always written as they
   were read. *)
From Coq Require Import String.
From Coq Require Import List.
From Verif Require Import AstSheet SpecWritten.
Open Scope N_scope.
Open Scope list_scope.

(* a value may be written in another order than that in which it was read: the parts of [a || b] and [a && b] are accepted in any
   order and written in that of the definition *)
Definition REORDERED : list text := map chars
  ["position-area"; "border-image-source"; "border-top"; "border-right"; "border-bottom"; "border-left"; "border-block-start";
   "border-block-end"; "border-inline-start"; "border-inline-end"; "border-block"; "border-inline"; "flex-flow"; "masonry-flow";
   "list-style-image"; "columns"; "column-rule"; "overflow-clip-margin-top"; "overflow-clip-margin-right"; "overflow-clip-margin-bottom";
   "overflow-clip-margin-left"; "overflow-clip-margin-block-start"; "overflow-clip-margin-inline-start"; "overflow-clip-margin-block-end";
   "overflow-clip-margin-inline-end"; "overflow-clip-margin-inline"; "overflow-clip-margin-block"; "block-step"; "text-wrap"; "caret"; "zoom"]%string.
(* a value may lose a token: those with gradients *)
Definition INCOMPLETE : list text := map chars ["border-image-source"; "list-style-image"]%string.
Definition listed (l : list text) (name : text) : bool := existsb (text_eqb name) l.
Definition reordered : text -> bool := listed REORDERED.
Definition incomplete : text -> bool := listed INCOMPLETE.
