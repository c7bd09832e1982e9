(* csskit_proc_macro: the value definition language and the parsers it generates (def.rs, value.rs, string_transform.rs).
   - the macro receives the definition as a string, which proc_macro2 splits into Rust tokens. [lex_def] is that tokenizer for the
     characters that definitions use: words, whole numbers (with their suffix), strings, punctuation and the three bracket pairs.
     Anything else gives None; so do numbers with a point or an exponent.
   - [parse_def] is Def::parse. None is a syn error, that is a definition the macro refuses to compile.
   - [generate] is what the generated Parse does; a generated type is the cursors its ToCursors writes. None is a definition for
     which the macro panics (todo!()), emits compile_error!, or emits Rust that does not type-check.
   - the fields of a Rust type are not kept apart: cursors are enough to say what is accepted and what is written. *)
From Coq Require Import String.
From Coq Require Import List.
From Verif Require Export Ast.
Open Scope N_scope.
Open Scope list_scope.

(* ---- string_transform.rs ---- *)
Definition is_upper (c : char) : bool := in_range 65 90 c.
Definition to_upper (c : char) : char := if in_range 97 122 c then c - 32 else c.
Definition to_lower (c : char) : char := if is_upper c then c + 32 else c.
(* string_transform.rs:1-10, for ASCII *)
Fixpoint kebab_loop (first : bool) (l : text) : text :=
  match l with
  | [] => []
  | c :: r => (if negb first && is_upper c then [45] else []) ++ to_lower c :: kebab_loop false r
  end.
Definition kebab (l : text) : text := kebab_loop true l.
(* string_transform.rs:12-28 *)
Fixpoint pascal_loop (make_upper : bool) (l : text) : text :=
  match l with
  | [] => []
  | c :: r => if (c =? 95) || (c =? 45) then pascal_loop true r else (if make_upper then to_upper c else c) :: pascal_loop false r
  end.
Definition pascal (l : text) : text := pascal_loop true l.

(* ---- the definition's tokens (proc_macro2) ---- *)
Inductive tt : Type :=
  | TtIdent (s : text) | TtInt (n : N) (s : text) | TtStr (s : text) | TtPunct (c : char) (joint : bool) | TtGroup (open : char) (l : list tt).
(* def.rs:18-25: a single quote becomes a double quote, and the infinity sign (three bytes of UTF-8) goes *)
Fixpoint without_infinity (l : text) : text :=
  match l with
  | 226 :: 136 :: 158 :: r => without_infinity r
  | c :: r => (if c =? 39 then 34 else c) :: without_infinity r
  | [] => []
  end.
Definition is_digit_ (c : char) : bool := in_range 48 57 c.
Definition is_word_start (c : char) : bool := in_range 97 122 c || is_upper c || (c =? 95).
Definition is_word_char (c : char) : bool := is_word_start c || is_digit_ c.
Definition is_punct (c : char) : bool := existsb (N.eqb c) [33; 35; 36; 37; 38; 42; 43; 44; 45; 46; 47; 58; 59; 60; 61; 62; 63; 64; 94; 124; 126].
Fixpoint span_while (f : char -> bool) (l : text) : text * text :=
  match l with
  | c :: r => if f c then let '(a, b) := span_while f r in (c :: a, b) else ([], l)
  | [] => ([], [])
  end.
Definition number_of (l : text) : N := fold_left (fun n c => n * 10 + (c - 48)) l 0.
Definition closing (open : char) : char := if open =? 40 then 41 else if open =? 91 then 93 else 125.
(* the flat tokens; a bracket is a punctuation here *)
Fixpoint flat_lex (n : nat) (l : text) : option (list tt) :=
  match n with
  | O => None
  | S n =>
      match l with
      | [] => Some []
      | c :: r =>
          if (c =? 32) || (c =? 9) || (c =? 10) then flat_lex n r
          else if is_word_start c then let '(w, r') := span_while is_word_char l in option_map (cons (TtIdent w)) (flat_lex n r')
          else if is_digit_ c then
            let '(d, _) := span_while is_digit_ l in let '(w, r') := span_while is_word_char l in
            option_map (cons (TtInt (number_of d) w)) (flat_lex n r')
          else if c =? 34 then
            let '(w, r') := span_while (fun c => negb (c =? 34)) r in
            match r' with _ :: r'' => option_map (cons (TtStr w)) (flat_lex n r'') | [] => None end
          else if existsb (N.eqb c) [40; 41; 91; 93; 123; 125] then option_map (cons (TtPunct c false)) (flat_lex n r)
          else if is_punct c then
            option_map (cons (TtPunct c (match r with d :: _ => is_punct d | [] => false end))) (flat_lex n r)
          else None
      end
  end.
(* the brackets matched: what precedes the closing bracket [stop] (0 for the end of the text), and what follows it *)
Fixpoint nest (n : nat) (stop : char) (l : list tt) : option (list tt * list tt) :=
  match n with
  | O => None
  | S n =>
      match l with
      | [] => if stop =? 0 then Some ([], []) else None
      | TtPunct c j :: r =>
          if existsb (N.eqb c) [40; 91; 123] then
            match nest n (closing c) r with
            | None => None
            | Some (inner, r') => option_map (fun x => (TtGroup c inner :: fst x, snd x)) (nest n stop r')
            end
          else if existsb (N.eqb c) [41; 93; 125] then if c =? stop then Some ([], r) else None
          else option_map (fun x => (TtPunct c j :: fst x, snd x)) (nest n stop r)
      | t :: r => option_map (fun x => (t :: fst x, snd x)) (nest n stop r)
      end
  end.
Definition lex_def (s : text) : option (list tt) :=
  match flat_lex (S (length s)) s with
  | None => None
  | Some l => option_map fst (nest (S (length l)) 0 l)
  end.

(* ---- the definitions: def.rs:51-116. Numbers of ranges are whole here; f32 in the code ---- *)
Inductive drange : Set := RgNone | RgRange (a b : N) | RgFrom (a : N) | RgTo (b : N) | RgFixed (a : N).
Inductive dstyle : Set := SOrdered | SAllMustOccur | SOptions | SAlternatives.
Inductive dmult : Set := MuStar | MuPlus | MuComma (r : drange) | MuRange (r : drange).
Inductive dgroup : Set := GrNone | GrOneMustOccur | GrOneOrMore | GrRange (r : drange).
Inductive dtype : Type :=
  | DLength (r : drange) | DLengthPercentage (r : drange) | DAngle (r : drange) | DTime (r : drange) | DResolution (r : drange)
  | DInteger (r : drange) | DNumber (r : drange) | DPercentage (r : drange) | DColor | DString | DImage | DImage1D
  | DDashedIdent | DCustomIdent | DCustom (name : text).
Inductive def : Type :=
  | DIdent (w : text) | DFunction (name : text) (d : def) | DType (t : dtype) | DOptional (d : def)
  | DComb (l : list def) (s : dstyle) | DGroup (d : def) (s : dgroup) | DMult (d : def) (m : dmult) | DPunct (c : char).
(* the derived PartialOrd of DefCombinatorStyle *)
Definition style_rank (s : dstyle) : N := match s with SOrdered => 0 | SAllMustOccur => 1 | SOptions => 2 | SAlternatives => 3 end.
Definition style_eqb (a b : dstyle) : bool := style_rank a =? style_rank b.

(* def.rs:237-262 (DefIdent::parse); [s] is what has been read *)
Fixpoint def_ident (s : text) (last : bool) (l : list tt) : text * list tt :=
  match l with
  | TtPunct 62 _ :: _ => (s, l)
  | TtGroup 91 _ :: _ => (s, l)
  | TtIdent w :: r => if last then (s, l) else def_ident (s ++ w) true r
  | TtInt _ w :: r => if last then def_ident (s ++ w) true r else (s, l)
  (* a LitInt may be negative: [-3d] is one token for syn *)
  | TtPunct 45 _ :: r =>
      match r with
      | TtInt _ w :: r' => if last then def_ident (s ++ 45 :: w) true r' else def_ident (s ++ [45]) false r
      | _ => def_ident (s ++ [45]) false r
      end
  | _ => (s, l)
  end.
(* def.rs:313-339 (DefRange::parse); the tokens must end there *)
Definition def_range (l : list tt) : option drange :=
  match l with
  | [] => Some RgNone
  | [TtInt a _] => Some (RgFixed a)
  | [TtPunct 44 _] => Some RgNone
  | [TtInt a _; TtPunct 44 _] => Some (RgFrom a)
  | [TtPunct 44 _; TtInt b _] => Some (RgTo b)
  | [TtInt a _; TtPunct 44 _; TtInt b _] => Some (RgRange a b)
  | _ => None
  end.
(* def.rs:279-308: the type of a name; what follows a function's name does not matter to the code the macro emits except for a
   variant's name *)
Definition type_of_name (w : text) (r : drange) : dtype :=
  let is s := text_eqb w (chars s) in
  if is "length"%string then DLength r else if is "length-percentage"%string then DLengthPercentage r
  else if is "angle"%string then DAngle r else if is "time"%string then DTime r else if is "resolution"%string then DResolution r
  else if is "integer"%string then DInteger r else if is "number"%string then DNumber r
  else if is "percentage"%string then DPercentage r else if is "string"%string then DString else if is "color"%string then DColor
  else if is "image"%string then DImage else if is "image-1D"%string then DImage1D
  else if is "dashed-ident"%string then DDashedIdent else if is "custom-ident"%string then DCustomIdent
  else DCustom (pascal w).
(* def.rs:264-311 (DefType::parse), after the [<] *)
Definition def_type (l : list tt) : option (dtype * list tt) :=
  let '(name, l) :=
    match l with
    | TtStr s :: r =>
        (match lex_def (without_infinity s) with
         | Some ts => match def_ident [] false ts with (w, []) => Some (w ++ chars "-style-value") | _ => None end
         | None => None
         end, r)
    | _ => let '(w, r) := def_ident [] false l in (Some w, r)
    end in
  match name with
  | None => None
  | Some w =>
      let '(checks, l) := match l with TtGroup 91 inner :: r => (def_range inner, r) | _ => (Some RgNone, l) end in
      match checks with
      | None => None
      | Some checks =>
          let ty := type_of_name w checks in
          let l := match ty, l with DCustom _, TtGroup 40 inner :: r => match inner with [] => Some r | _ => None end | _, _ => Some l end in
          match l with Some (TtPunct 62 _ :: r) => Some (ty, r) | _ => None end
      end
  end.
(* def.rs:209-235 (DefMultiplierStyle::parse) with the test before it (def.rs:163-167); None when no multiplier is next *)
Definition def_mult (l : list tt) : option (option dmult * list tt) :=
  match l with
  | TtPunct 42 _ :: r => Some (Some MuStar, r)
  | TtPunct 43 _ :: r => Some (Some MuPlus, r)
  | TtPunct 35 _ :: TtGroup 123 inner :: r => Some (option_map MuComma (def_range inner), r)
  | TtPunct 35 _ :: r => Some (Some (MuComma RgNone), r)
  | TtGroup 123 inner :: r => Some (option_map MuRange (def_range inner), r)
  | _ => None
  end.
(* def.rs:172-184: the operator before the rest *)
Definition def_style (l : list tt) : dstyle * list tt :=
  match l with
  | TtPunct 124 true :: TtPunct 124 _ :: r => (SOptions, r)
  | TtPunct 124 _ :: r => (SAlternatives, r)
  | TtPunct 38 true :: TtPunct 38 _ :: r => (SAllMustOccur, r)
  | _ => (SOrdered, l)
  end.
(* def.rs:185-203: what an item and the definition after its operator make. The second arm of the match asks for a root that is
   a combinator, which no root is *)
Definition combine (root : def) (s : dstyle) (next : def) : def :=
  match next with
  | DComb children s' =>
      if style_eqb s' s then DComb (root :: children) s'
      else if style_rank s <? style_rank s' then
        match children with
        | c0 :: cs => DComb (DComb [root; c0] s :: cs) s'
        | [] => DComb [root; next] s (* no combinator is empty *)
        end
      else DComb [root; next] s
  | _ => DComb [root; next] s
  end.
(* def.rs:118-207 (Def::parse), all the tokens; [fuel] is at least their number *)
Definition def_root (parse : list tt -> option def) (l : list tt) : option (def * list tt) :=
  match l with
  | TtPunct 60 _ :: r => option_map (fun x => (DType (fst x), snd x)) (def_type r)
  | TtGroup 91 inner :: r =>
      match parse inner with
      | None => None
      | Some d =>
          match r with
          | TtPunct 33 _ :: r' => Some (DGroup d GrOneMustOccur, r')
          | TtPunct 35 _ :: r' => Some (DGroup d GrOneOrMore, r')
          | TtGroup 123 inner' :: r' => option_map (fun x => (DGroup d (GrRange x), r')) (def_range inner')
          | _ => Some (DGroup d GrNone, r)
          end
      end
  | TtIdent _ :: _ =>
      let '(w, r) := def_ident [] false l in
      match r with
      | TtGroup 40 inner :: r' => option_map (fun d => (DFunction w d, r')) (parse inner)
      | _ => Some (DIdent w, r)
      end
  | TtPunct c _ :: r => Some (DPunct c, r)
  | _ => None
  end.
Fixpoint def_rest (parse : list tt -> option def) (n : nat) (root : def) (l : list tt) : option def :=
  match n with
  | O => None
  | S n =>
      match l with
      | [] => Some root
      | TtPunct 63 _ :: r => def_rest parse n (DOptional root) r
      | _ =>
          match def_mult l with
          | Some (Some m, r) => def_rest parse n (DMult root m) r
          | Some (None, _) => None
          | None => let '(s, r) := def_style l in option_map (combine root s) (parse r)
          end
      end
  end.
Fixpoint parse_tts (fuel : nat) (l : list tt) : option def :=
  match fuel with
  | O => None
  | S n => match def_root (parse_tts n) l with None => None | Some (root, r) => def_rest (parse_tts n) (S (length r)) root r end
  end.
Fixpoint tt_size (t : tt) : nat := match t with TtGroup _ l => S (S (fold_right (fun t n => tt_size t + n)%nat O l)) | _ => 1%nat end.
Definition tts_size (l : list tt) : nat := fold_right (fun t n => tt_size t + n)%nat O l.
Definition parse_def (s : text) : option def :=
  match lex_def (without_infinity s) with None => None | Some l => parse_tts (S (tts_size l)) l end.

(* ---- what the macro generates ---- *)
(* a type: its Peek, and its Parse with its ToCursors *)
Record ty : Type := Ty { ty_peek : peeker; ty_parse : P (list cursor) }.
Definition one (k : peeker) : P (list cursor) := pmap (fun c => [c]) (parse_single k (fun c => c)).
Definition token_ty (k : peeker) : ty := Ty k (one k).
(* codes of [D_Other] *)
Definition E_TOO_SMALL : N := 40.
Definition E_TOO_LARGE : N := 41.
(* f32 order on bit patterns that are not NaN (no token has a NaN) *)
Definition f32_key (v : N) : Z := if 2147483648 <=? v then (- Z.of_N (v - 2147483648))%Z else Z.of_N v.
Definition f32_lt (a b : N) : bool := (f32_key a <? f32_key b)%Z.
Definition f32_of_nat (n : N) : N := Z.to_N (f32_of_decimal (Z.of_N n) 0).
(* def.rs:1461-1473 (checks) *)
Definition type_checks (t : dtype) : drange :=
  match t with
  | DLength c | DLengthPercentage c | DAngle c | DTime c | DResolution c | DInteger c | DNumber c | DPercentage c => c
  | _ => RgNone
  end.
(* [let valf32: f32 = val.into()] of the numeric types is the number of their token (length.rs:95-110, angle.rs, float.rs, ...) *)
Definition value_of (cs : list cursor) : N := match cs with c :: _ => tvalue (ctok c) | [] => 0 end.
(* def.rs:1512-1534: the test after the value; the range [a..b] does not type-check ([contains] takes a reference) *)
Definition range_check (r : drange) (cs : list cursor) : P (list cursor) :=
  match r with
  | RgTo b => if f32_lt (f32_of_nat b) (value_of cs) then fail (D_Other E_TOO_LARGE (hd (dummy_cursor T_EOF) cs)) else ret cs
  | RgFrom a => if f32_lt (value_of cs) (f32_of_nat a) then fail (D_Other E_TOO_SMALL (hd (dummy_cursor T_EOF) cs)) else ret cs
  | _ => ret cs
  end.
Definition range_compiles (r : drange) : bool := match r with RgRange _ _ => false | _ => true end.

(* [p.parse_if_peek::<T>()?] *)
Definition if_ty (t : ty) : P (list cursor) := or_peek (ty_peek t) (ty_parse t) (ret []).
Fixpoint in_order (l : list (P (list cursor))) : P (list cursor) :=
  match l with [] => ret [] | m :: r => bind m (fun a => pmap (app a) (in_order r)) end.
(* [let c = p.parse::<T![Any]>()?.into(); Err(Unexpected(c, c))?] *)
Definition unexpected_any {A} : P A := bind parse_any (fun c => fail (D_Unexpected c)).
(* [.. Err(UnexpectedIdent(p.parse_str(c), c))?] *)
Definition unexpected_ident {A} : P A := bind parse_any (fun c => fail_text E_UNEXPECTED_IDENT c).
(* def.rs:1254-1263 (`#`): items until one without a comma after it *)
Fixpoint comma_items (item : P (list cursor)) (n : nat) : P (list cursor) :=
  match n with
  | O => fun _ => None
  | S n =>
      bind item (fun a =>
      bind (if_kind K_Comma) (fun comma =>
      match comma with
      | Some c => pmap (fun r => a ++ c :: r) (comma_items item n)
      | None => ret a
      end))
  end.
Definition comma_separated (item : P (list cursor)) : P (list cursor) := fun p => comma_items item (sfuel p) p.
(* def.rs:607-641 (`||`): the first field that is still empty and whose type peeks is filled, until none is; [l] is the fields
   with what has been read *)
Fixpoint fill_field (l : list (ty * option (list cursor))) : P (option (list (ty * option (list cursor)))) :=
  match l with
  | [] => ret None
  | (t, Some cs) :: r => pmap (option_map (cons (t, Some cs))) (fill_field r)
  | (t, None) :: r =>
      or_peek (ty_peek t) (pmap (fun cs => Some ((t, Some cs) :: r)) (ty_parse t)) (pmap (option_map (cons (t, None))) (fill_field r))
  end.
Definition field_cursors (l : list (ty * option (list cursor))) : list cursor :=
  flat_map (fun x => match snd x with Some cs => cs | None => [] end) l.
Fixpoint options_loop (n : nat) (l : list (ty * option (list cursor))) : P (list cursor) :=
  match n with
  | O => fun _ => None
  | S n =>
      bind (fill_field l) (fun o =>
      match o with
      | Some l' => options_loop n l'
      | None => if forallb (fun x => match snd x with None => true | Some _ => false end) l then unexpected_any else ret (field_cursors l)
      end)
  end.
Definition in_any_order (l : list ty) : P (list cursor) := options_loop (S (length l)) (map (fun t => (t, None)) l).
(* [let f = p.parse::<T![Function]>()?; if !p.eq_ignore_ascii_case(f, name) { Err(UnexpectedFunction(..))? }] and what follows *)
Definition function_named (name : text) (rest : P (list cursor)) : P (list cursor) :=
  bind (parse_kind K_Function) (fun f p =>
  match eq_ignore_ascii_case f (lsrc (plex p)) name with
  | None => None
  | Some false => fail_text E_UNEXPECTED_FUNCTION f p
  | Some true => pmap (cons f) rest p
  end).
Definition close_paren : P (list cursor) := pmap opt_cursor (if_kind K_RightParen).
(* def.rs:1189-1201 *)
Definition function_of (name : text) (inner : P (list cursor)) : P (list cursor) :=
  function_named name (bind inner (fun cs => pmap (app cs) close_paren)).

Section Generate.
(* the types the definitions name: [leaf] the built-in ones, [env] those of css_ast/src/values *)
Variable leaf : dtype -> ty.
Variable env : text -> option ty.
(* def.rs:1441-1459 (to_type_name) *)
Definition type_named (t : dtype) : option ty := match t with DCustom w => env w | _ => Some (leaf t) end.
(* def.rs:1502-1540 *)
Definition type_steps (t : dtype) : option (P (list cursor)) :=
  if range_compiles (type_checks t) then option_map (fun x => bind (ty_parse x) (range_check (type_checks t))) (type_named t) else None.
Definition def_type_steps (d : def) : option (P (list cursor)) := match d with DType t => type_steps t | _ => None end.
Fixpoint all_some {A} (l : list (option A)) : option (list A) :=
  match l with
  | [] => Some []
  | Some a :: r => option_map (cons a) (all_some r)
  | None :: _ => None
  end.
(* def.rs:1153-1182 (peek_steps), of the definitions below *)
Definition def_peek (d : def) : option peeker :=
  match d with
  | DType t => option_map ty_peek (type_named t)
  | DIdent _ => Some (peek_kind K_Ident)
  | DFunction _ _ => Some (peek_kind K_Function)
  | DOptional (DType t) => option_map ty_peek (type_named t)
  | DMult (DType t) _ => option_map ty_peek (type_named t)
  | _ => None
  end.
(* one of several alternatives that is not a keyword: def.rs:497-545 with 1184-1341 *)
Definition alternative_steps (d : def) : option (P (list cursor)) :=
  match d with
  | DType t => type_steps t
  | DMult (DType t) (MuComma RgNone) => option_map comma_separated (type_steps t)
  | DMult (DType t) (MuRange (RgFixed k)) => option_map (fun m => in_order (repeat m (N.to_nat k))) (type_steps t)
  | DFunction name (DType t) => option_map (function_of (kebab name)) (type_steps t)
  | DFunction name (DMult (DType t) (MuComma RgNone)) => option_map (fun m => function_of (kebab name) (comma_separated m)) (type_steps t)
  | _ => None
  end.
Definition is_keyword (d : def) : bool := match d with DIdent _ | DType DCustomIdent | DType DDashedIdent => true | _ => false end.
Definition keywords_of (l : list def) : list text := flat_map (fun d => match d with DIdent w => [kebab w] | _ => [] end) l.
Definition takes_custom (l : list def) : bool := existsb (fun d => match d with DType DCustomIdent => true | _ => false end) l.
Fixpoint one_of (l : list (peeker * P (list cursor))) : P (list cursor) :=
  match l with [] => unexpected_any | (k, m) :: r => or_peek k m (one_of r) end.
(* def.rs:497-606 *)
Definition alternatives (l : list def) : option (P (list cursor)) :=
  let others := filter (fun d => negb (is_keyword d)) l in
  match all_some (map def_peek others), all_some (map alternative_steps others) with
  | Some peeks, Some steps =>
      let rest :=
        if takes_custom l then one (peek_kind K_Ident) else
        match steps with
        | [] => unexpected_ident
        | [m] => m
        | _ => one_of (List.combine peeks steps)
        end in
      if existsb is_keyword l then
        match keywords_of l with
        | [] => None (* the set of no words is not generated, but used *)
        | ws =>
            Some (bind (parse_if_peek (peek_set K_Ident (words ws)) (parse_set K_Ident (words ws))) (fun o =>
                  match o with Some w => ret [snd w] | None => rest end))
        end
      else Some rest
  | _, _ => None
  end.
(* a field of a struct: def.rs:642-650 with 1283-1297 *)
Definition field_steps (d : def) : option (P (list cursor)) :=
  match d with
  | DType t => type_steps t
  | DOptional (DType t) => option_map if_ty (type_named t)
  | _ => None
  end.
(* def.rs:662-676: [<t>{a,b}] is a fields that must be there and b - a that may be *)
Definition copies (t : dtype) (a b : N) : list def :=
  repeat (DType t) (N.to_nat (N.min a b)) ++ repeat (DOptional (DType t)) (N.to_nat (b - a)).
Definition ordered_ty (l : list def) : option ty :=
  match l, all_some (map field_steps l) with
  | d :: _, Some steps => option_map (fun k => Ty k (in_order steps)) (def_peek d)
  | _, _ => None
  end.
(* def.rs:466-482 (Peek), 484-700 (Parse), 702-853 (ToCursors) *)
Definition generate (d : def) : option ty :=
  match d with
  | DType t => match def_peek d, type_steps t with Some k, Some m => Some (Ty k m) | _, _ => None end
  | DComb l SAlternatives =>
      match all_some (map def_peek l), alternatives l with Some ks, Some m => Some (Ty (any_peek ks) m) | _, _ => None end
  | DComb l SOptions =>
      match all_some (map (fun d => match d with DType t => type_named t | _ => None end) l) with
      | Some ts => Some (Ty (any_peek (map ty_peek ts)) (in_any_order ts))
      | None => None
      end
  | DComb l SOrdered => ordered_ty l
  | DMult (DType t) (MuRange (RgRange a b)) => ordered_ty (copies t a b)
  | DMult (DType t) (MuRange (RgFixed a)) => ordered_ty (repeat (DType t) (N.to_nat a))
  | DMult (DType t) (MuComma RgNone) =>
      match def_peek (DType t), type_steps t with Some k, Some m => Some (Ty k (comma_separated m)) | _, _ => None end
  | _ => None
  end.
End Generate.
