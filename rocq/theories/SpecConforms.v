(* What the value definitions of hdx's properties mean, after the value definition syntax of CSS
   (https://drafts.csswg.org/css-values-4/#value-defs):
   - [css_def] reads a definition: juxtaposition binds tighter than &&, this than ||, and this than |. It shares with the macro's
     reader (Def.v) the tokens and the single terms (a word, <a type>, a [group], a function(), and the multipliers), but not the
     operators.
   - [conforms d cs]: the tokens cs, whitespace and comments left out, are a value of the definition d. *)
From Coq Require Import String.
From Coq Require Import List Permutation.
From Verif Require Import SpecWords.
From Verif Require Import Values SpecSyntax SpecFeatures.
Open Scope N_scope.
Open Scope list_scope.
Notation length := List.length.

(* ---- reading a definition ---- *)
(* the parts between the single bars *)
Fixpoint split_bar (part : list tt) (l : list tt) : list (list tt) :=
  match l with
  | [] => [rev part]
  | TtPunct 124 true :: TtPunct 124 j :: r => split_bar (TtPunct 124 j :: TtPunct 124 true :: part) r
  | TtPunct 124 _ :: r => rev part :: split_bar [] r
  | t :: r => split_bar (t :: part) r
  end.
(* the parts between the double bars (124) or the double ampersands (38) *)
Fixpoint split_double (ch : char) (part : list tt) (l : list tt) : list (list tt) :=
  match l with
  | [] => [rev part]
  | TtPunct a j :: (TtPunct b j' :: r) as r0 => if (a =? ch) && j && (b =? ch) then rev part :: split_double ch [] r else split_double ch (TtPunct a j :: part) r0
  | t :: r => split_double ch (t :: part) r
  end.
Fixpoint each {A B} (f : A -> option B) (l : list A) : option (list B) :=
  match l with [] => Some [] | a :: r => match f a, each f r with Some b, Some c => Some (b :: c) | _, _ => None end end.
(* one part is itself *)
Definition joined (s : dstyle) (l : list def) : def := match l with [d] => d | _ => DComb l s end.
(* a term and the multipliers after it *)
Fixpoint multiplied (n : nat) (d : def) (l : list tt) : option (def * list tt) :=
  match n with
  | O => None
  | S n =>
      match l with
      | TtPunct 63 _ :: r => multiplied n (DOptional d) r
      | _ => match def_mult l with Some (Some m, r) => multiplied n (DMult d m) r | Some (None, _) => None | None => Some (d, l) end
      end
  end.
Fixpoint terms (read : list tt -> option def) (n : nat) (l : list tt) : option (list def) :=
  match n, l with
  | _, [] => Some []
  | O, _ => None
  | S n, _ =>
      match def_root read l with
      | None => None
      | Some (d, r) => match multiplied (S (length r)) d r with None => None | Some (d, r) => option_map (cons d) (terms read n r) end
      end
  end.
Fixpoint css_read (n : nat) (l : list tt) : option def :=
  match n with
  | O => None
  | S n =>
      let sequence l := option_map (joined SOrdered) (terms (css_read n) (length l) l) in
      let all_of l := option_map (joined SAllMustOccur) (each sequence (split_double 38 [] l)) in
      let some_of l := option_map (joined SOptions) (each all_of (split_double 124 [] l)) in
      option_map (joined SAlternatives) (each some_of (split_bar [] l))
  end.
Definition css_def (s : text) : option def := match lex_def (without_infinity s) with None => None | Some l => css_read (S (tts_size l)) l end.

(* ---- the types that are not defined by a definition in the source ---- *)
Definition kw (s : string) : def := DIdent (chars s).
Definition ty_ (s : string) : def := DType (DCustom (chars s)).
Definition alt (l : list def) : def := DComb l SAlternatives.
Definition seq (l : list def) : def := DComb l SOrdered.
Definition some (l : list def) : def := DComb l SOptions.
Definition kws (l : list text) : def := alt (map DIdent l).
Definition maybe (d : def) : def := DOptional d.
Definition fn (s : string) (d : def) : def := DFunction (chars s) d.
Definition comma : def := DPunct 44.
Definition slash : def := DPunct 47.
Definition length_percentage : def := DType (DLengthPercentage RgNone).
Definition angle : def := DType (DAngle RgNone).
Definition color : def := DType DColor.
(* channels of a colour: three, and perhaps a fourth *)
Definition channel : def := alt [ty_ "NumberToken"; ty_ "PercentageToken"; kw "none"].
Definition hue : def := alt [ty_ "NumberToken"; angle; kw "none"].
Definition three (a b c : def) : def := seq [a; b; c; maybe slash; maybe channel].
Definition three_commas (a b c : def) : def := seq [a; maybe comma; b; maybe comma; c; maybe comma; maybe slash; maybe channel].
Definition stops : def := DGroup (seq [maybe (seq [length_percentage; comma]); color; maybe length_percentage]) GrOneOrMore.
Definition radial_arguments : def :=
  seq [maybe (ty_ "RadialSize"); maybe (kws css_radial_shapes); maybe (ty_ "RadialSize"); maybe (seq [kw "at"; maybe (ty_ "Position")]); maybe comma; stops].
Definition linear_arguments : def :=
  seq [maybe (seq [alt [angle; seq [kw "to"; kws css_sides; maybe (kws css_sides)]]; maybe comma]); stops].
(* looser than CSS where hdx is: the commas of colours, the order of stripes, hints of gradients. [Position] is any one to four of its words *)
Definition HAND_WRITTEN : list (text * def) := map (fun x => (chars (fst x), snd x)) [
  ("LineWidth", alt [DType (DLength RgNone); kw "thin"; kw "medium"; kw "thick"]); ("LineStyle", kws (map chars css_line_styles));
  ("VisualBox", kws (map chars ["content-box"; "padding-box"; "border-box"]));
  ("CalcSize", alt []); ("Repetition", kws (map chars css_repetitions)); ("AnchorName", DType DDashedIdent);
  ("PositionArea", alt [some [kws css_area_x; kws css_area_y]; some [kws css_area_block; kws css_area_inline]; some [kws css_area_self_block; kws css_area_self_inline];
     DMult (kws css_area_any) (MuRange (RgRange 1 2)); DMult (kws css_area_self_any) (MuRange (RgRange 1 2))]);
  ("TrySize", kws (map chars ["most-width"; "most-height"; "most-block-size"; "most-inline-size"]));
  ("SingleAnimationIterationCount", alt [kw "infinite"; DType (DNumber (RgFrom 0))]);
  ("SingleAnimationDirection", kws (map chars ["normal"; "reverse"; "alternate"; "alternate-reverse"]));
  ("SingleAnimationPlayState", kws (map chars ["running"; "paused"]));
  ("SingleAnimationFillMode", kws (map chars ["none"; "forwards"; "backwards"; "both"]));
  ("SingleAnimationComposition", kws (map chars ["replace"; "add"; "accumulate"]));
  ("RepeatStyle", alt [kws css_repeat_axes; DMult (kws (map chars css_repetitions)) (MuRange (RgRange 1 2))]);
  ("Attachment", kws (map chars ["scroll"; "fixed"; "local"]));
  ("BgClip", kws (map chars ["content-box"; "padding-box"; "border-box"; "border-area"; "text"]));
  ("DynamicRangeLimitMix", fn "dynamic-range-limit-mix" (DMult (seq [DType DCustomIdent; ty_ "PercentageToken"; maybe comma]) MuStar));
  ("SnapBlock", fn "snap-block" (seq [length_percentage; maybe comma; maybe (kws (map chars ["start"; "end"; "near"]))]));
  ("SnapInline", fn "snap-inline" (seq [length_percentage; maybe comma; maybe (kws (map chars ["left"; "right"; "near"]))]));
  ("TransitionBehaviorValue", kws (map chars ["normal"; "allow-discrete"]));
  ("OutlineLineStyle", kws (map chars ["none"; "hidden"; "doted"; "dashed"; "solid"; "double"; "groove"; "ridge"; "inset"; "outset"]));
  ("CompatAuto", kws (map chars ["searchfield"; "textarea"; "checkbox"; "radio"; "menulist"; "listbox"; "meter"; "progress-bar"; "button"]));
  ("CompatSpecial", kws (map chars ["textfield"; "menulist-button"]));
  ("AnimateableFeature", DType DCustomIdent);
  ("Color", alt [ty_ "HashToken"; kws css_color_keywords; kws css_named_colors; kws css_system_colors;
     fn "color" (seq [kws css_color_spaces; channel; channel; channel; maybe slash; maybe channel]);
     fn "rgb" (three_commas channel channel channel); fn "rgba" (three_commas channel channel channel);
     fn "hsl" (three_commas hue channel channel); fn "hsla" (three_commas hue channel channel); fn "hwb" (three hue channel channel);
     fn "lab" (three channel channel channel); fn "lch" (three channel channel hue);
     fn "oklab" (three channel channel channel); fn "oklch" (three channel channel hue)]);
  ("RadialSize", alt [kws css_radial_extents; DMult length_percentage (MuRange (RgRange 1 2))]);
  ("Position", DMult (alt [length_percentage; kws css_position_keywords]) (MuRange (RgRange 1 4)));
  ("Image", alt [ty_ "UrlToken"; fn "url" (ty_ "StringToken");
     fn "linear-gradient" linear_arguments; fn "repeating-linear-gradient" linear_arguments;
     fn "radial-gradient" radial_arguments; fn "repeating-radial-gradient" radial_arguments]);
  ("Image1D", fn "stripes" (DMult (seq [maybe color; maybe (alt [length_percentage; ty_ "FlexToken"]); maybe color; maybe comma]) MuStar)) ]%string.
(* the name of a definition: a hand-written one, or one of the source, read as CSS reads it *)
Definition described (name : text) (d : def) : Prop :=
  In (name, d) HAND_WRITTEN \/ exists w s, In (w, s) VALUE_TABLE /\ name = chars w /\ css_def (chars s) = Some d.

(* whitespace and comments left out *)
Definition bare (cs : list cursor) : list cursor := filter (fun c => negb (tok_is (ctok c) K_Whitespace || tok_is (ctok c) K_Comment)) cs.

(* ---- tokens ---- *)
Section Conforms.
Variable src : text.
(* whether numbers out of the range written in a definition are refused *)
Variable strict : bool.
(* the word w, in lower or upper case: the code asks by either of the two functions (C21, C22) *)
Definition word_of (k : kind) (w : text) (c : cursor) : Prop := kind_of c = k /\ (parse_str_lower c src = Some w \/ eq_ignore_ascii_case c src w = Some true).
Definition has_unit (u : unit_t) (c : cursor) : Prop := kind_of c = K_Dimension /\ (dimension_unit (ctok c) = u \/ eq_ignore_ascii_case c src (unit_str u) = Some true).
Definition zero (c : cursor) : Prop := kind_of c = K_Number /\ f32_is_zero (tvalue (ctok c)) = true.
(* the tokens of the built-in types. A <percentage> is a number with a fraction, as is a <number>, and a <string> is a word: that is
   what hdx reads (the CSS is otherwise) *)
Definition token_of (t : dtype) (c : cursor) : Prop :=
  match t with
  | DLength _ => zero c \/ exists u, In u css_length_units /\ has_unit u c
  | DLengthPercentage _ => zero c \/ exists u, In u (U_Percent :: css_length_units) /\ has_unit u c
  | DAngle _ => exists w, In w ["grad"; "rad"; "turn"; "deg"]%string /\ word_of K_Dimension (chars w) c
  | DTime _ => zero c \/ exists w, In w ["s"; "ms"]%string /\ word_of K_Dimension (chars w) c
  | DResolution _ => exists w, In w ["dpi"; "dpcm"; "dppx"]%string /\ word_of K_Dimension (chars w) c
  | DInteger _ => kind_of c = K_Number /\ is_int (ctok c) = true
  | DNumber _ | DPercentage _ => kind_of c = K_Number /\ is_float (ctok c) = true
  | DString | DCustomIdent => kind_of c = K_Ident
  | DDashedIdent => kind_of c = K_Ident /\ is_dashed_ident (ctok c) = true
  | DColor | DImage | DImage1D => False
  | DCustom w =>
      w = chars "HashToken" /\ kind_of c = K_Hash \/ w = chars "NumberToken" /\ kind_of c = K_Number \/ w = chars "PercentageToken" /\ has_unit U_Percent c
      \/ w = chars "UrlToken" /\ kind_of c = K_Url \/ w = chars "StringToken" /\ kind_of c = K_String \/ w = chars "FlexToken" /\ has_unit U_Fr c
      \/ w = chars "OpacityValue" /\ (kind_of c = K_Number /\ f32_upto_1 (tvalue (ctok c)) = true \/ has_unit U_Percent c /\ f32_upto_100 (tvalue (ctok c)) = true)
  end.
(* the names of the built-in types that are not single tokens *)
Definition type_name (t : dtype) : option text :=
  match t with DCustom w => Some w | DColor => Some (chars "Color") | DImage => Some (chars "Image") | DImage1D => Some (chars "Image1D") | _ => None end.
(* the bounds of a range, in the order of the numbers (f32_lt) *)
Definition in_bounds (r : drange) (c : cursor) : Prop :=
  match r with
  | RgNone => True
  | RgFrom a => f32_lt (tvalue (ctok c)) (f32_of_nat a) = false
  | RgTo b => f32_lt (f32_of_nat b) (tvalue (ctok c)) = false
  | RgRange a b => f32_lt (tvalue (ctok c)) (f32_of_nat a) = false /\ f32_lt (f32_of_nat b) (tvalue (ctok c)) = false
  | RgFixed a => tvalue (ctok c) = f32_of_nat a
  end.
Definition count_fits (r : drange) (n : nat) : Prop :=
  match r with
  | RgNone => True
  | RgFrom a => (N.to_nat a <= n)%nat
  | RgTo b => (n <= N.to_nat b)%nat
  | RgRange a b => (N.to_nat a <= n <= N.to_nat b)%nat
  | RgFixed a => n = N.to_nat a
  end.
(* values with commas between them *)
Fixpoint with_commas (parts : list (list cursor)) (cs : list cursor) : Prop :=
  match parts with
  | [] => False
  | [part] => cs = part
  | part :: more => exists c rest, kind_of c = K_Comma /\ with_commas more rest /\ cs = part ++ c :: rest
  end.
Definition punct (ch : char) (c : cursor) : Prop := ch = 44 /\ kind_of c = K_Comma \/ kind_of c = K_Delim /\ tok_is_char (ctok c) ch = true.

(* ---- values of a definition ---- *)
Inductive conforms : def -> list cursor -> Prop :=
  | of_word : forall w c, word_of K_Ident w c -> conforms (DIdent w) [c]
  (* hdx lets the closing parenthesis be missing *)
  | of_function : forall name d f args close, word_of K_Function name f -> conforms d args ->
      close = [] \/ (exists c, close = [c] /\ kind_of c = K_RightParen) -> conforms (DFunction name d) (f :: args ++ close)
  | of_token : forall t c, token_of t c -> (strict = true -> in_bounds (type_checks t) c) -> conforms (DType t) [c]
  | of_type : forall t name d cs, type_name t = Some name -> described name d -> conforms d cs -> conforms (DType t) cs
  | of_nothing : forall d, conforms (DOptional d) []
  | of_something : forall d cs, conforms d cs -> conforms (DOptional d) cs
  (* a | b *)
  | of_one : forall l d cs, In d l -> conforms d cs -> conforms (DComb l SAlternatives) cs
  (* a b *)
  | of_sequence : forall l parts, Forall2 conforms l parts -> conforms (DComb l SOrdered) (concat parts)
  (* a || b: one or more of them, in any order *)
  | of_some : forall l chosen others parts, Permutation l (chosen ++ others) -> chosen <> [] -> Forall2 conforms chosen parts -> conforms (DComb l SOptions) (concat parts)
  (* a && b: all of them, in any order *)
  | of_all : forall l chosen parts, Permutation l chosen -> Forall2 conforms chosen parts -> conforms (DComb l SAllMustOccur) (concat parts)
  | of_group : forall d cs, conforms d cs -> conforms (DGroup d GrNone) cs
  | of_required : forall d cs, conforms d cs -> cs <> [] -> conforms (DGroup d GrOneMustOccur) cs
  | of_group_list : forall d cs, conforms (DMult d (MuComma RgNone)) cs -> conforms (DGroup d GrOneOrMore) cs
  | of_group_many : forall d r cs, conforms (DMult d (MuRange r)) cs -> conforms (DGroup d (GrRange r)) cs
  | of_any : forall d parts, Forall (conforms d) parts -> conforms (DMult d MuStar) (concat parts)
  | of_plus : forall d parts, Forall (conforms d) parts -> parts <> [] -> conforms (DMult d MuPlus) (concat parts)
  | of_many : forall d r parts, Forall (conforms d) parts -> count_fits r (length parts) -> conforms (DMult d (MuRange r)) (concat parts)
  | of_list : forall d r parts cs, Forall (conforms d) parts -> count_fits r (length parts) -> with_commas parts cs -> conforms (DMult d (MuComma r)) cs
  | of_punct : forall ch c, punct ch c -> conforms (DPunct ch) [c].
End Conforms.

(* the definition of a property, as it is written in the source *)
Definition defines (name s : text) : Prop := exists r, In r VALUE_TABLE /\ property_name (chars (fst r)) = Some name /\ s = chars (snd r).
(* the properties whose ranges are not enforced: in optional parts, and in the parts of a || b, no bounds are tested *)
Definition UNENFORCED : list text := map chars
  ["border-top-left-radius"; "border-top-right-radius"; "border-bottom-right-radius"; "border-bottom-left-radius"; "border-start-start-radius";
   "border-start-end-radius"; "border-end-start-radius"; "border-end-end-radius"; "overflow-clip-margin-top"; "overflow-clip-margin-right";
   "overflow-clip-margin-bottom"; "overflow-clip-margin-left"; "overflow-clip-margin-block-start"; "overflow-clip-margin-inline-start";
   "overflow-clip-margin-block-end"; "overflow-clip-margin-inline-end"; "overflow-clip-margin-inline"; "overflow-clip-margin-block"; "zoom"]%string.
Definition enforced (name : text) : bool := negb (existsb (text_eqb name) UNENFORCED).
