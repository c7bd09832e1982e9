(* csskit_wasm (minify) and csskit (build): a stylesheet is parsed and its tree is written with the formatting sink.
   None is a panic, or a parser that never returns. Parse errors are kept as the list of diagnostics; their texts (miette reports)
   and the files that build reads and writes are not modelled: build is what it writes to its output, or nothing. *)
From Coq Require Import List.
From Verif Require Export AstSheet Values Write.
Open Scope N_scope.
Open Scope list_scope.

(* [Parser::new(&allocator, source_text).parse_entirely::<StyleSheet>()] *)
Definition parse_source (src : text) : option (parser_return (list css_rule)) :=
  option_map fst (parse_entirely (parse_sheet VALUES) (parser_new src no_features)).
(* parser_return.rs:28-35 ([with_trivia] is false): the cursors of the output, if any *)
Definition return_cursors (r : parser_return (list css_rule)) : list cursor :=
  match routput r with Some l => sheet_cursors l | None => [] end.
(* csskit_wasm/src/lib.rs:61-71; None inside is the error Parse error *)
Definition minify (src : text) : option (option text) :=
  match parse_source src with
  | None => None
  | Some r => match rerrors r with [] => option_map Some (fmt_text src (return_cursors r)) | _ => Some None end
  end.
(* csskit/src/main.rs:100-134, one input file: the css it writes, or the diagnostics it reports *)
Definition build (src : text) : option (list diag + text) :=
  match parse_source src with
  | None => None
  | Some r => match routput r with Some _ => option_map inr (fmt_text src (return_cursors r)) | None => Some (inl (rerrors r)) end
  end.
