(* css_ast: the types that value definitions name - css_ast/src/units, css_ast/src/types and the types.rs of css_ast/src/values.
   - a type is its Peek and its Parse, with the cursors that its ToCursors writes for what was parsed, in the order it writes them.
   - which variant a keyword becomes is not kept, where the parse does not depend on it.
   - [let valf32: f32 = v.into()] is modelled in Def.v. *)
From Coq Require Import String.
From Coq Require Import List.
From Verif Require Export Def.
Open Scope N_scope.
Open Scope list_scope.

(* [p.parse_if_peek::<T![..]>()?], written as the token if there *)
Definition opt (k : peeker) : P (list cursor) := or_peek k (one k) (ret []).
(* keyword_set! types: their peek and their parse *)
Definition peek_words (l : list text) : peeker := peek_set K_Ident (words l).
Definition parse_words (l : list text) : P (list cursor) := pmap (fun w => [snd w]) (parse_set K_Ident (words l)).
Definition opt_words (l : list text) : P (list cursor) := or_peek (peek_words l) (parse_words l) (ret []).
Definition words_ty (l : list string) : ty := Ty (peek_words (map chars l)) (parse_words (map chars l)).
(* [<T![Ident]>::peek(p, c) && p.eq_ignore_ascii_case(c, w)], and the same for a function *)
Definition peek_named (k : kind) (w : text) : peeker := fun p c =>
  if tok_is (ctok c) k then eq_ignore_ascii_case c (lsrc (plex p)) w else Some false.

(* ---- units ---- *)
(* units/length.rs:130-155 *)
Definition LENGTH : ty := token_ty peek_length.
(* units/length.rs:256-284 *)
Definition peek_length_percentage : peeker := fun p c =>
  if tok_is (ctok c) K_Number && f32_is_zero (tvalue (ctok c)) then Some true
  else any_peek (peek_percent :: map (fun u => peek_dimension u (unit_str u)) LENGTH_UNITS) p c.
Definition LENGTH_PERCENTAGE : ty := token_ty peek_length_percentage.
(* units/length.rs:337-357, units/flex.rs:15-25 *)
Definition peek_length_or_flex : peeker := any_peek [peek_dimension U_Fr (unit_str U_Fr); peek_length_percentage].
(* units/time.rs:23-43; a time whose unit is neither would be unreachable!() *)
Definition TIME_UNITS : list text := map chars ["s"; "ms"]%string.
Definition peek_time : peeker := fun p c =>
  if tok_is (ctok c) K_Number && f32_is_zero (tvalue (ctok c)) then Some true else peek_set K_Dimension (words TIME_UNITS) p c.
Definition TIME : ty := token_ty peek_time.
(* units/angles.rs:29-45, units/resolution.rs:36-50 *)
Definition peek_angle : peeker := peek_set K_Dimension (words (map chars ["grad"; "rad"; "turn"; "deg"]%string)).
Definition ANGLE : ty := token_ty peek_angle.
Definition RESOLUTION : ty := token_ty (peek_set K_Dimension (words (map chars ["dpi"; "dpcm"; "dppx"]%string))).
(* units/int.rs, units/float.rs *)
Definition INT : ty := token_ty peek_int.
Definition FLOAT : ty := token_ty peek_float.
(* units/line_width.rs:6-38 *)
Definition LINE_WIDTH : ty := token_ty (any_peek [peek_length; peek_words (map chars ["thin"; "medium"; "thick"]%string)]).
(* types/line_style.rs:3-14 *)
Definition LINE_STYLES : list string :=
  ["none"; "hidden"; "dotted"; "dashed"; "solid"; "double"; "groove"; "ridge"; "inset"; "outset"]%string.
(* types/opacity_value.rs:34-49: [(0.0..=1.0).contains(&v)] (1.0 is 0x3f800000) *)
Definition f32_upto_1 (v : N) : bool := f32_is_zero v || (v <=? 1065353216).
Definition peek_opacity : peeker := fun p c =>
  if tok_is (ctok c) K_Number && f32_upto_1 (tvalue (ctok c)) then Some true
  else match peek_percent p c with None => None | Some b => Some (b && f32_upto_100 (tvalue (ctok c))) end.
Definition OPACITY : ty := token_ty peek_opacity.

(* ---- types/color ---- *)
(* color/mod.rs:32 *)
Definition COLOR_KEYWORDS : list text := map chars ["currentcolor"; "transparent"]%string.
(* color/named.rs:3-152 *)
Definition NAMED_COLORS : list text := map chars
  ["aliceblue"; "antiquewhite"; "aqua"; "aquamarine"; "azure"; "beige"; "bisque"; "black"; "blanchedalmond"; "blue";
   "blueviolet"; "brown"; "burlywood"; "cadetblue"; "chartreuse"; "chocolate"; "coral"; "cornflowerblue"; "cornsilk";
   "crimson"; "cyan"; "darkblue"; "darkcyan"; "darkgoldenrod"; "darkgray"; "darkgreen"; "darkgrey"; "darkkhaki";
   "darkmagenta"; "darkolivegreen"; "darkorange"; "darkorchid"; "darkred"; "darksalmon"; "darkseagreen"; "darkslateblue";
   "darkslategray"; "darkslategrey"; "darkturquoise"; "darkviolet"; "deeppink"; "deepskyblue"; "dimgray"; "dimgrey";
   "dodgerblue"; "firebrick"; "floralwhite"; "forestgreen"; "fuchsia"; "gainsboro"; "ghostwhite"; "gold"; "goldenrod";
   "gray"; "green"; "greenyellow"; "grey"; "honeydew"; "hotpink"; "indianred"; "indigo"; "ivory"; "khaki"; "lavender";
   "lavenderblush"; "lawngreen"; "lemonchiffon"; "lightblue"; "lightcoral"; "lightcyan"; "lightgoldenrodyellow"; "lightgray";
   "lightgreen"; "lightgrey"; "lightpink"; "lightsalmon"; "lightseagreen"; "lightskyblue"; "lightslategray";
   "lightslategrey"; "lightsteelblue"; "lightyellow"; "lime"; "limegreen"; "linen"; "magenta"; "maroon"; "mediumaquamarine";
   "mediumblue"; "mediumorchid"; "mediumpurple"; "mediumseagreen"; "mediumslateblue"; "mediumspringgreen"; "mediumturquoise";
   "mediumvioletred"; "midnightblue"; "mintcream"; "mistyrose"; "moccasin"; "navajowhite"; "navy"; "oldlace"; "olive";
   "olivedrab"; "orange"; "orangered"; "orchid"; "palegoldenrod"; "palegreen"; "paleturquoise"; "palevioletred";
   "papayawhip"; "peachpuff"; "peru"; "pink"; "plum"; "powderblue"; "purple"; "rebeccapurple"; "red"; "rosybrown";
   "royalblue"; "saddlebrown"; "salmon"; "sandybrown"; "seagreen"; "seashell"; "sienna"; "silver"; "skyblue"; "slateblue";
   "slategray"; "slategrey"; "snow"; "springgreen"; "steelblue"; "tan"; "teal"; "thistle"; "tomato"; "turquoise"; "violet";
   "wheat"; "white"; "whitesmoke"; "yellow"; "yellowgreen"]%string.
(* color/system.rs:3-23 *)
Definition SYSTEM_COLORS : list text := map chars
  ["accentcolor"; "accentcolortext"; "activetext"; "buttonborder"; "buttonface"; "buttontext"; "canvas"; "canvastext";
   "field"; "fieldtext"; "graytext"; "highlight"; "highlighttext"; "linktext"; "mark"; "marktext"; "selecteditem";
   "selecteditemtext"; "visitedtext"]%string.
(* color/color_function.rs:26-42, 66-85 *)
Definition peek_hue : peeker := any_peek [peek_kind K_Number; peek_angle; peek_named K_Ident (chars "none")].
Definition peek_channel : peeker := any_peek [peek_kind K_Number; peek_percent; peek_named K_Ident (chars "none")].
(* color/color_function.rs:102-112 *)
Definition COLOR_SPACES : list text := map chars
  ["srgb"; "srgb-linear"; "display-p3"; "a98-rgb"; "prophoto-rgb"; "rec2020"; "xyz"; "xyz-d50"; "xyz-d65"]%string.
(* color/color_function.rs:5-16 with 325-374: what each function's arguments are *)
Inductive color_syntax : Set := CsColor | CsRgb | CsHsl | CsHwb | CsThree | CsLch.
Definition COLOR_FUNCTIONS : list (text * color_syntax) := map (fun x => (chars (fst x), snd x))
  [("color", CsColor); ("rgb", CsRgb); ("rgba", CsRgb); ("hsl", CsHsl); ("hsla", CsHsl); ("hwb", CsHwb); ("lab", CsThree);
   ("lch", CsLch); ("oklab", CsThree); ("oklch", CsLch)]%string.
Definition peek_color_function : peeker := peek_set K_Function COLOR_FUNCTIONS.
(* color/color_function.rs:249-323 *)
Definition opt_comma : P (list cursor) := opt (peek_kind K_Comma).
Definition opt_slash : P (list cursor) := opt (peek_delim 47).
Definition color_arguments (s : color_syntax) : P (list cursor) :=
  let ch := one peek_channel in let hue := one peek_hue in let alpha := opt peek_channel in
  match s with
  | CsColor => in_order [parse_words COLOR_SPACES; ch; ch; ch; opt_slash; alpha]
  | CsRgb => in_order [ch; opt_comma; ch; opt_comma; ch; opt_comma; opt_slash; alpha]
  | CsHsl => in_order [hue; opt_comma; ch; opt_comma; ch; opt_comma; opt_slash; alpha]
  | CsHwb => in_order [hue; ch; ch; opt_slash; alpha]
  | CsThree => in_order [ch; ch; ch; opt_slash; alpha]
  | CsLch => in_order [ch; ch; hue; opt_slash; alpha]
  end.
(* color/color_function.rs:325-374, written in the same order (376-553) *)
Definition parse_color_function : P (list cursor) :=
  bind (parse_set K_Function COLOR_FUNCTIONS) (fun f => pmap (cons (snd f)) (in_order [color_arguments (fst f); close_paren])).
(* color/mod.rs:47-51 *)
Definition peek_color : peeker := any_peek [peek_kind K_Hash; peek_kind K_Function; peek_kind K_Ident].
(* color/mod.rs:53-79; currentcolor and transparent keep the token looked at before the parse *)
Definition parse_color_ident : P (list cursor) := fun p =>
  match peek_n p 1 with
  | None => None
  | Some c =>
      bind (parse_if_peek (peek_words COLOR_KEYWORDS) (parse_words COLOR_KEYWORDS)) (fun o =>
      match o with
      | Some _ => ret [c]
      | None => or_peek (peek_words NAMED_COLORS) (parse_words NAMED_COLORS) (parse_words SYSTEM_COLORS)
      end) p
  end.
Definition parse_color : P (list cursor) :=
  or_peek (peek_kind K_Hash) (one (peek_kind K_Hash))
  (or_peek (peek_kind K_Ident) parse_color_ident
  (or_peek peek_color_function parse_color_function
    (fun p => match peek_n p 1 with None => None | Some c => Some (Err (D_Other E_UNIMPLEMENTED c), p) end))).
Definition COLOR : ty := Ty peek_color parse_color.

(* ---- types/position.rs ---- *)
(* position.rs:116-228: a value is its keyword, if it is one, and its cursor *)
Definition POSITION_KEYWORDS : list text := map chars ["left"; "right"; "center"; "top"; "bottom"]%string.
Definition pos_value : Type := option text * cursor.
Definition peek_pos : peeker := any_peek [peek_length_percentage; peek_words POSITION_KEYWORDS].
Definition build_pos (p : parser) (c : cursor) : option pos_value :=
  if tok_is (ctok c) K_Ident then option_map (fun x => (Some (fst x), c)) (build_set (words POSITION_KEYWORDS) p c)
  else match peek_length_percentage p c with Some true => Some (None, c) | _ => None end.
Definition parse_pos : P pos_value := parse_built peek_pos build_pos.
(* position.rs:129-173 *)
Definition pos_in (l : list string) (length : bool) (v : pos_value) : bool :=
  match fst v with Some w => existsb (fun s => text_eqb w (chars s)) l | None => length end.
Definition horizontal : pos_value -> bool := pos_in ["left"; "right"; "center"]%string true.
Definition vertical : pos_value -> bool := pos_in ["top"; "bottom"; "center"]%string true.
Definition horizontal_keyword : pos_value -> bool := pos_in ["left"; "right"]%string false.
Definition vertical_keyword : pos_value -> bool := pos_in ["top"; "bottom"]%string false.
Definition is_length (v : pos_value) : bool := match fst v with None => true | Some _ => false end.
(* position.rs:56-93 *)
Definition position_four (first second : pos_value) : P (list cursor) :=
  if pos_in ["center"]%string true first || negb (is_length second) then fail (D_Unexpected (snd second)) else
  bind parse_pos (fun third =>
  if negb (horizontal_keyword third) && negb (vertical_keyword third) then fail_text E_UNEXPECTED_IDENT (snd third) else
  bind (parse_single peek_length_percentage (fun c => c)) (fun fourth =>
  if horizontal_keyword first then
    if vertical_keyword third then ret [snd first; snd second; snd third; fourth] else fail (D_Unexpected (snd third))
  else if horizontal_keyword third then
    if vertical_keyword first then ret [snd third; fourth; snd first; snd second] else fail (D_Unexpected (snd third))
  else fail (D_Unexpected (snd third)))).
(* position.rs:34-95, written horizontal first (97-114) *)
Definition parse_position : P (list cursor) :=
  bind parse_pos (fun first =>
  or_peek peek_pos
    (bind parse_pos (fun second =>
     or_peek peek_pos (position_four first second)
      (if horizontal first then
         if vertical second then ret [snd first; snd second] else position_four first second
       else if horizontal second then
         if vertical first then ret [snd second; snd first] else fail (D_Unexpected (snd second))
       else position_four first second)))
    (ret [snd first])).

(* ---- types/gradient.rs ---- *)
(* gradient.rs:15-20 *)
Inductive gradient_kind : Set := GkLinear | GkRadial | GkRepeatingRadial.
Definition GRADIENTS : list (text * gradient_kind) := map (fun x => (chars (fst x), snd x))
  [("linear-gradient", GkLinear); ("radial-gradient", GkRadial); ("repeating-linear-gradient", GkLinear);
   ("repeating-radial-gradient", GkRepeatingRadial)]%string.
Definition peek_gradient : peeker := peek_set K_Function GRADIENTS.
(* gradient.rs:51-75; a hint may come before a stop once a stop has had a length *)
Fixpoint stops_loop (n : nat) (allow_hint : bool) : P (list cursor) :=
  match n with
  | O => fun _ => None
  | S n =>
      bind (if allow_hint then or_peek peek_length_percentage (in_order [one peek_length_percentage; one (peek_kind K_Comma)]) (ret [])
            else ret []) (fun hint =>
      bind parse_color (fun color =>
      bind (opt peek_length_percentage) (fun length =>
      bind (if_kind K_Comma) (fun comma =>
      match comma with
      | None => ret (hint ++ color ++ length)
      | Some c => pmap (fun r => hint ++ color ++ length ++ c :: r)
                    (stops_loop n (allow_hint || match length with [] => false | _ => true end))
      end))))
  end.
Definition parse_stops : P (list cursor) := fun p => stops_loop (sfuel p) false p.
(* gradient.rs:240-270 *)
Definition DIRECTIONS : list text := map chars ["bottom"; "top"; "left"; "right"]%string.
Definition peek_direction : peeker := any_peek [peek_angle; peek_named K_Ident (chars "to")].
Definition parse_direction : P (list cursor) :=
  or_peek peek_angle (one peek_angle)
    (bind (parse_kind K_Ident) (fun to p =>
     match eq_ignore_ascii_case to (lsrc (plex p)) (chars "to") with
     | None => None
     | Some false => fail_text E_UNEXPECTED_IDENT to p
     | Some true => pmap (cons to) (in_order [parse_words DIRECTIONS; opt_words DIRECTIONS]) p
     end)).
(* gradient.rs:299-337: after a number, a value that is not a number is the whole size - the number is forgotten *)
Definition RADIAL_SIZES : list text := map chars ["closest-corner"; "closest-side"; "farthest-corner"; "farthest-side"]%string.
Definition peek_radial_size : peeker := any_peek [peek_length_percentage; peek_words RADIAL_SIZES].
Definition parse_radial_size : P (list cursor) :=
  or_peek (peek_words RADIAL_SIZES) (parse_words RADIAL_SIZES)
  (or_peek (peek_kind K_Number)
    (bind (one peek_length_percentage) (fun first =>
     or_peek (peek_kind K_Number) (pmap (app first) (one peek_length_percentage)) (one peek_length)))
    (in_order [one peek_length_percentage; one peek_length_percentage])).
(* gradient.rs:354 *)
Definition RADIAL_SHAPES : list text := map chars ["circle"; "ellipse"]%string.
(* gradient.rs:107-113 and 132-137; [c] is the token that is tested for [at] *)
Definition radial_at (c : cursor) : P (list cursor) := fun p =>
  match (if tok_is (ctok c) K_Ident then eq_ignore_ascii_case c (lsrc (plex p)) (chars "at") else Some false) with
  | None => None
  | Some true => in_order [one (peek_kind K_Ident); or_peek peek_pos parse_position (ret [])] p
  | Some false => Some (Ok [], p)
  end.
(* gradient.rs:101-126, 127-150: there is always a size or a shape when the comma is looked for *)
Definition parse_radial (at_p : P (list cursor)) : P (list cursor) :=
  bind (parse_if_peek peek_radial_size parse_radial_size) (fun size =>
  bind (opt_words RADIAL_SHAPES) (fun shape =>
  bind (match size, shape with
        | Some s, _ => ret s
        | None, [] => parse_radial_size
        | None, _ => ret []
        end) (fun size =>
  pmap (fun r => size ++ shape ++ r) (in_order [at_p; opt_comma; parse_stops; close_paren])))).
(* gradient.rs:84-152, written in the same order (154-238) *)
Definition parse_gradient : P (list cursor) :=
  bind (parse_set K_Function GRADIENTS) (fun f =>
  pmap (cons (snd f))
    (match fst f with
     | GkLinear =>
         in_order [or_peek peek_direction (in_order [parse_direction; opt_comma]) (ret []); parse_stops; close_paren]
     | GkRadial => parse_radial (fun p => match peek_n p 1 with None => None | Some c => radial_at c p end)
     | GkRepeatingRadial => parse_radial (radial_at (snd f))
     end)).

(* ---- types/image.rs:15-40 ---- *)
Definition parse_image : P (list cursor) :=
  or_peek (peek_kind K_Url) (one (peek_kind K_Url))
  (or_peek peek_gradient parse_gradient
    (function_named (chars "url") (in_order [one (peek_kind K_String); one (peek_kind K_RightParen)]))).
Definition IMAGE : ty := Ty (any_peek [peek_kind K_Url; peek_gradient; peek_named K_Function (chars "url")]) parse_image.

(* ---- types/image_1d.rs ---- *)
(* image_1d.rs:63-86: the colour is written first *)
Definition parse_stripe : P (list cursor) :=
  bind (parse_if_peek peek_color parse_color) (fun color =>
  bind (opt peek_length_or_flex) (fun thickness =>
  bind (match color with Some c => ret c | None => parse_color end) (fun color =>
  pmap (fun comma => color ++ thickness ++ comma) opt_comma))).
(* image_1d.rs:25-41 *)
Fixpoint stripes_loop (n : nat) : P (list cursor) :=
  match n with
  | O => fun _ => None
  | S n => or_peek (peek_kind K_RightParen) (one (peek_kind K_RightParen)) (bind parse_stripe (fun s => pmap (app s) (stripes_loop n)))
  end.
Definition parse_stripes : P (list cursor) := fun p => stripes_loop (sfuel p) p.
Definition IMAGE_1D : ty := Ty (peek_named K_Function (chars "stripes")) (function_named (chars "stripes") parse_stripes).

(* ---- the types of css_ast/src/values ---- *)
(* anchor_position/types.rs:133-219 *)
Definition AREA_HORIZONTAL : list text := map chars
  ["left"; "center"; "right"; "span-left"; "span-right"; "x-start"; "x-end"; "span-x-start"; "span-x-end"; "x-self-start";
   "x-self-end"; "span-x-self-start"; "span-x-self-end"; "span-all"]%string.
Definition AREA_VERTICAL : list text := map chars
  ["top"; "center"; "bottom"; "span-top"; "span-bottom"; "y-start"; "y-end"; "span-y-start"; "span-y-end"; "y-self-start";
   "y-self-end"; "span-y-self-start"; "span-y-self-end"; "span-all"]%string.
Definition AREA_BLOCK : list text := map chars
  ["block-start"; "center"; "block-end"; "span-block-start"; "span-block-end"; "span-all"]%string.
Definition AREA_INLINE : list text := map chars
  ["inline-start"; "center"; "inline-end"; "span-inline-start"; "span-inline-end"; "span-all"]%string.
Definition AREA_SELF_BLOCK : list text := map chars
  ["self-block-start"; "center"; "self-block-end"; "span-self-block-start"; "span-self-block-end"; "span-all"]%string.
Definition AREA_SELF_INLINE : list text := map chars
  ["self-inline-start"; "center"; "self-inline-end"; "span-self-inline-start"; "span-self-inline-end"; "span-all"]%string.
Definition AREA_POSITION : list text := map chars
  ["start"; "center"; "end"; "span-start"; "span-end"; "span-all"]%string.
Definition AREA_SELF_POSITION : list text := map chars
  ["self-start"; "center"; "self-end"; "span-self-start"; "span-self-end"; "span-all"]%string.
(* anchor_position/types.rs:65-131: of two words of different axes the block or horizontal one is written first *)
Definition area_second (l r : list text) (e : P (list cursor)) : P (list cursor) :=
  or_peek (peek_words l) (in_order [parse_words l; opt_words r]) e.
Definition area_swapped (l r : list text) (e : P (list cursor)) : P (list cursor) :=
  or_peek (peek_words l) (bind (parse_words l) (fun a => pmap (fun b => b ++ a) (opt_words r))) e.
Definition parse_area : P (list cursor) :=
  area_second AREA_POSITION AREA_POSITION (area_second AREA_SELF_POSITION AREA_SELF_POSITION
  (area_second AREA_BLOCK AREA_INLINE (area_swapped AREA_INLINE AREA_BLOCK
  (area_second AREA_SELF_BLOCK AREA_SELF_INLINE (area_swapped AREA_SELF_INLINE AREA_SELF_BLOCK
  (area_second AREA_HORIZONTAL AREA_VERTICAL (area_swapped AREA_VERTICAL AREA_HORIZONTAL unexpected_any))))))).
(* anchor_position/types.rs:52-63 *)
Definition POSITION_AREA : ty :=
  Ty (any_peek (map peek_words [AREA_VERTICAL; AREA_HORIZONTAL; AREA_BLOCK; AREA_INLINE; AREA_SELF_BLOCK; AREA_SELF_INLINE;
                                AREA_POSITION; AREA_SELF_POSITION])) parse_area.
(* animations/types.rs:19-38; the code looks at the token again only when it is a word *)
Definition parse_iteration_count : P (list cursor) := fun p =>
  match peek (peek_kind K_Ident) p, peek_n p 1 with
  | Some b, Some c =>
      match (if b then eq_ignore_ascii_case c (lsrc (plex p)) (chars "infinite") else Some false) with
      | None => None
      | Some true => one (peek_kind K_Ident) p
      | Some false =>
          bind (parse_single peek_float (fun c => c)) (fun c =>
          if f32_lt (tvalue (ctok c)) 0 then fail (D_Other E_TOO_SMALL c) else ret [c]) p
      end
  | _, _ => None
  end.
Definition ITERATION_COUNT : ty := Ty (any_peek [peek_float; peek_named K_Ident (chars "infinite")]) parse_iteration_count.
(* backgrounds/types.rs:40-92 *)
Definition REPETITIONS : list string := ["repeat"; "space"; "round"; "no-repeat"]%string.
Definition REPEAT_AXES : list text := map chars ["repeat-x"; "repeat-y"]%string.
Definition parse_repeat_style : P (list cursor) :=
  bind (parse_kind K_Ident) (fun c p =>
  match look_up (words REPEAT_AXES) p c with
  | None => None
  | Some (Some _) => Some (Ok [c], p)
  | Some None =>
      match peek_words (map chars REPETITIONS) p c with
      | None => None
      | Some true => pmap (cons c) (opt_words (map chars REPETITIONS)) p
      | Some false => fail_text E_UNEXPECTED_IDENT c p
      end
  end).
Definition REPEAT_STYLE : ty := Ty (any_peek [peek_words (map chars REPETITIONS); peek_words REPEAT_AXES]) parse_repeat_style.
(* color_hdr/types.rs:13-44 *)
Fixpoint mix_loop (n : nat) : P (list cursor) := fun p =>
  match n with
  | O => None
  | S n =>
      if p_at_end p then Some (Ok [], p) else
      or_peek (peek_kind K_RightParen) (one (peek_kind K_RightParen))
        (bind (parse_kind K_Ident) (fun ident =>
         bind (parse_single peek_percent (fun c => c)) (fun c =>
         if negb (f32_upto_100 (tvalue (ctok c))) then fail (D_Other E_OUT_OF_BOUNDS c) else
         bind opt_comma (fun comma => pmap (fun r => ident :: c :: comma ++ r) (mix_loop n))))) p
  end.
Definition parse_mix : P (list cursor) := fun p => mix_loop (sfuel p) p.
Definition RANGE_LIMIT_MIX : ty :=
  Ty (peek_named K_Function (chars "dynamic-range-limit-mix")) (function_named (chars "dynamic-range-limit-mix") parse_mix).
(* page_floats/types.rs:18-53, 69-104 *)
Definition snap_ty (name : string) (l : list string) : ty :=
  Ty (peek_named K_Function (chars name))
     (function_of (chars name) (in_order [one peek_length_percentage; opt_comma; opt_words (map chars l)])).
(* sizing/types.rs:10-21: todo!() *)
Definition CALC_SIZE : ty := Ty (peek_named K_Function (chars "calc-size")) (bind (parse_kind K_Function) (fun _ _ => None)).
(* will_change/types.rs:62-135; the words only choose the variant *)
Definition ANIMATEABLE : list text := map chars
  ["-webkit-backdrop-filter"; "-webkit-box-reflex"; "-webkit-mask"; "-webkit-mask-box-image"; "-webkit-overflow-scrolling";
   "-webkit-perspective"; "backdrop-filter"; "clip-path"; "contain"; "filter"; "isolation"; "mask"; "mask-border";
   "mask-image"; "mix-blend-mode"; "offset-path"; "offset-position"; "opacity"; "perspective"; "position"; "rotate"; "scale";
   "transform"; "transform-style"; "translate"; "view-transition-name"; "z-index"]%string.
Definition ANIMATEABLE_FEATURE : ty :=
  Ty (peek_kind K_Ident)
     (pmap (fun c => [c]) (parse_built (peek_kind K_Ident) (fun p c => option_map (fun _ => c) (look_up (words ANIMATEABLE) p c)))).

(* def.rs:1441-1459: the type a definition's built-in type names *)
Definition leaf_ty (t : dtype) : ty :=
  match t with
  | DLength _ => LENGTH | DLengthPercentage _ => LENGTH_PERCENTAGE | DPercentage _ => FLOAT | DAngle _ => ANGLE | DTime _ => TIME
  | DResolution _ => RESOLUTION | DInteger _ => INT | DNumber _ => FLOAT | DColor => COLOR | DImage => IMAGE | DImage1D => IMAGE_1D
  | DDashedIdent => token_ty peek_dashed_ident | DCustomIdent | DString => token_ty (peek_kind K_Ident)
  | DCustom _ => token_ty (fun _ _ => Some false) (* not asked *)
  end.
(* the other types, by their Rust names *)
Definition NAMED_TYPES : list (text * ty) := map (fun x => (chars (fst x), snd x)) [
  ("LineWidth", LINE_WIDTH); ("LineStyle", words_ty LINE_STYLES); ("OpacityValue", OPACITY);
  (* box/types.rs:9 *) ("VisualBox", words_ty ["content-box"; "padding-box"; "border-box"]);
  ("CalcSize", CALC_SIZE); ("Repetition", words_ty REPETITIONS);
  (* anchor_position/types.rs:4-13 *) ("AnchorName", token_ty peek_dashed_ident); ("PositionArea", POSITION_AREA);
  ("TrySize", words_ty ["most-width"; "most-height"; "most-block-size"; "most-inline-size"]);
  (* animations/types.rs:51-68 *) ("SingleAnimationIterationCount", ITERATION_COUNT);
  ("SingleAnimationDirection", words_ty ["normal"; "reverse"; "alternate"; "alternate-reverse"]);
  ("SingleAnimationPlayState", words_ty ["running"; "paused"]);
  ("SingleAnimationFillMode", words_ty ["none"; "forwards"; "backwards"; "both"]);
  ("SingleAnimationComposition", words_ty ["replace"; "add"; "accumulate"]);
  (* backgrounds/types.rs:94-110 *) ("RepeatStyle", REPEAT_STYLE); ("Attachment", words_ty ["scroll"; "fixed"; "local"]);
  ("BgClip", words_ty ["content-box"; "padding-box"; "border-box"; "border-area"; "text"]);
  ("DynamicRangeLimitMix", RANGE_LIMIT_MIX);
  (* page_floats/types.rs *) ("SnapBlock", snap_ty "snap-block" ["start"; "end"; "near"]);
  ("SnapInline", snap_ty "snap-inline" ["left"; "right"; "near"]);
  (* transitions/types.rs:7 *) ("TransitionBehaviorValue", words_ty ["normal"; "allow-discrete"]);
  (* ui/types.rs:14-48 *)
  ("OutlineLineStyle", words_ty ["none"; "hidden"; "doted"; "dashed"; "solid"; "double"; "groove"; "ridge"; "inset"; "outset"]);
  ("CompatAuto", words_ty ["searchfield"; "textarea"; "checkbox"; "radio"; "menulist"; "listbox"; "meter"; "progress-bar"; "button"]);
  ("CompatSpecial", words_ty ["textfield"; "menulist-button"]);
  ("AnimateableFeature", ANIMATEABLE_FEATURE) ]%string.
