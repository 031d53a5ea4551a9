(** Model of crates/tcss/src/parser: selectors.rs, units.rs, values.rs and
    [parse_stylesheet], [parse_rule], [parse_single_declaration] of mod.rs, down
    to the text of every property value.

    The nom combinators used there (crate nom 7, complete versions) are modelled
    by functions from the input to the rest and a result; [Err] is
    [nom::Err::Error] (no other kind occurs).  Parameters: [alnum] is
    [char::is_alphanumeric], [lower] is [str::to_lowercase], [rnd] rounds to f32
    and [rnd64] to f64 (decimal texts denote exact rationals), [parse_f32] and
    [parse_f64] are [str::parse] for those types on finite values, [colour] is
    [RgbaColor::parse] (modelled in Colour_Model), [with_alpha] sets the alpha,
    [theme_colour] is [RgbaColor::theme_variable] and [transparent] is
    [RgbaColor::transparent]. *)
From Coq Require Import String ZArith QArith List Bool.
From Verif Require Import Text_Model Css_Model Variables_Model.
Import ListNotations.
Notation length := List.length.
Open Scope Z_scope.
Open Scope list_scope.

(** *** Values (types/*.rs): the variants of the keyword enums are one type,
    equal names of different enums being one constructor. *)
Inductive keyword :=
| KAuto | KStable | KVisible | KHidden | KScroll | KContentBox | KBorderBox | KBlock | KNone
| KRelative | KAbsolute | KVertical | KHorizontal | KGrid
| KLeft | KCenter | KRight | KTop | KMiddle | KBottom | KJustify | KStart | KEnd
| KClip | KFold | KEllipsis | KWrap | KNoWrap.
(** types/geometry.rs:13-32, 40-45 [Unit], [Scalar] *)
Inductive unit_of := Cells | Percent | Width | Height | ViewWidth | ViewHeight | Fraction | Auto.
Record scalar := Scalar { sc_value : Q; sc_unit : unit_of }.
(** types/border.rs:39-77; [Hidden] is never produced by the parser *)
Inductive border_kind :=
| BNone | BAscii | BBlank | BBlock | BDashed | BDouble | BHeavy | BHkey | BInner | BOuter
| BPanel | BRound | BSolid | BTall | BThick | BVkey | BWide.
(** types/text.rs:47-71 [TextStyle] *)
Record text_style := TextStyle {
  ts_bold : bool; ts_dim : bool; ts_italic : bool; ts_underline : bool; ts_underline2 : bool;
  ts_blink : bool; ts_blink2 : bool; ts_reverse : bool; ts_strike : bool; ts_overline : bool;
  ts_theme : option text }.
Definition no_style : text_style := TextStyle false false false false false false false false false false None.
(** types/hatch.rs:30-43 and types/keyline.rs:7-17 *)
Inductive hatch_pattern := HLeft | HRight | HCross | HHorizontal | HVertical | HCustom (c : char).
Inductive keyline_style := LNone | LThin | LHeavy | LDouble.

Inductive value (C : Type) :=
| VColour (c : C) | VScalar (s : scalar) | VSpacing (top right bottom left : scalar) | VScalars (l : list scalar)
| VEdge (k : border_kind) (c : option C) | VInt (n : Z) | VOptInt (n : option Z) | VSizes (horizontal vertical : Z)
| VWord (k : keyword) | VNumber (q : Q) | VStyle (s : text_style) | VName (n : text) | VNames (l : list text)
| VHatch (p : hatch_pattern) (c : C) (opacity : Q) | VKeyline (s : keyline_style) (c : C).
Arguments VColour {C} c. Arguments VScalar {C} s. Arguments VSpacing {C} top right bottom left. Arguments VScalars {C} l.
Arguments VEdge {C} k c. Arguments VInt {C} n. Arguments VOptInt {C} n. Arguments VSizes {C} horizontal vertical.
Arguments VWord {C} k. Arguments VNumber {C} q. Arguments VStyle {C} s. Arguments VName {C} n. Arguments VNames {C} l.
Arguments VHatch {C} p c opacity. Arguments VKeyline {C} s c.

(** *** nom *)
Definition parser (A : Type) := text -> res (text * A).

(** the longest prefix of characters that satisfy [p], and the rest *)
Fixpoint span (p : char -> bool) (t : text) : text * text :=
  match t with
  | [] => ([], [])
  | c :: r => if p c then let '(a, b) := span p r in (c :: a, b) else ([], t)
  end.
(** [multispace0], [multispace1] *)
Definition space (c : char) : bool := (c =? 32) || (c =? 9) || (c =? 13) || (c =? 10).
Definition multispace0 : parser text := fun i => let '(a, b) := span space i in Ok (b, a).
Definition take_while1 (p : char -> bool) : parser text :=
  fun i => let '(a, b) := span p i in if is_nil a then Err else Ok (b, a).
Definition multispace1 : parser text := take_while1 space.
Definition digit1 : parser text := take_while1 is_digit.
(** [char(c)] *)
Definition pchar (c : char) : parser unit :=
  fun i => match i with x :: r => if x =? c then Ok (r, tt) else Err | [] => Err end.
(** [tag(p)] *)
Definition tag (p : text) : parser unit := fun i => if starts_with i p then Ok (skipn (length p) i, tt) else Err.
(** [take_until] of a single character, which stays in the rest *)
Definition take_until (c : char) : parser text :=
  fun i => match split_at_char c i with Some (a, b) => Ok (c :: b, a) | None => Err end.
(** sequencing with [?], [map], [alt], [opt], [preceded] *)
Definition pbind {A B} (p : parser A) (f : A -> parser B) : parser B :=
  fun i => match p i with Ok (r, a) => f a r | Err => Err | Panic => Panic end.
Definition pret {A} (a : A) : parser A := fun i => Ok (i, a).
Definition pfail {A} : parser A := fun _ => Err.
Definition pmap {A B} (p : parser A) (f : A -> B) : parser B := pbind p (fun a => pret (f a)).
Definition palt {A} (p q : parser A) : parser A :=
  fun i => match p i with Ok x => Ok x | Err => q i | Panic => Panic end.
Definition popt {A} (p : parser A) : parser (option A) :=
  fun i => match p i with Ok (r, a) => Ok (r, Some a) | Err => Ok (i, None) | Panic => Panic end.
Definition preceded {A B} (p : parser A) (q : parser B) : parser B := pbind p (fun _ => q).
(** [many0]: stops at the first error; an error if [p] succeeds without
    consuming.  The fuel is the length of the input, enough because the rest is
    shorter every time. *)
Fixpoint many0_go {A} (fuel : nat) (p : parser A) (i : text) : res (text * list A) :=
  match fuel with
  | O => Err
  | S n =>
      match p i with
      | Ok (r, a) =>
          if (length r =? length i)%nat then Err
          else match many0_go n p r with
               | Ok (r', l) => Ok (r', a :: l)
               | Err => Err
               | Panic => Panic
               end
      | Err => Ok (i, [])
      | Panic => Panic
      end
  end.
Definition many0 {A} (p : parser A) : parser (list A) := fun i => many0_go (S (length i)) p i.
(** [input.trim_start()] before the parser *)
Definition trimmed {A} (p : parser A) : parser A := fun i => p (trim_start i).
Definition of_option {A} (o : option A) : parser A := match o with Some a => pret a | None => pfail end.

Fixpoint lookup {A} (t : text) (l : list (string * A)) : option A :=
  match l with [] => None | (n, v) :: r => if text_eqb t (str n) then Some v else lookup t r end.

Section Sheet.
Variable alnum : char -> bool.
Variable lower : text -> text.
Variables rnd rnd64 : Q -> Q.
Variables parse_f32 parse_f64 : text -> option Q.
Variable C : Type.
Variable colour : text -> res C.
Variable with_alpha : C -> Q -> C.
Variable theme_colour : text -> C.
Variable transparent : C.

Notation value := (value C).
Notation declaration := (declaration value).
Notation rule := (rule value).
Notation item := (item value).

(** values.rs:35-37 [parse_ident] *)
Definition parse_ident : parser text := take_while1 (name_char alnum).

(** *** Selectors *)

(** selectors.rs:122-139 [parse_attribute_selector] *)
Definition parse_attribute_selector : parser selector :=
  pbind (pchar 91) (fun _ => pbind (take_until 93) (fun content => pbind (pchar 93) (fun _ =>
    match split_at_char 61 content with
    | Some (n, v) => pret (SAttr (trim n) (trim v))
    | None => pret (SAttr (trim content) [])
    end))).
(** selectors.rs:39-55 [parse_simple_selector] *)
Definition parse_simple_selector : parser selector :=
  palt (pmap (preceded (pchar 35) parse_ident) SId)
  (palt (pmap (preceded (pchar 46) parse_ident) SClass)
  (palt (pmap (preceded (pchar 58) parse_ident) SPseudo)
  (palt (pmap (pchar 38) (fun _ => SParent))
  (palt (pmap (pchar 42) (fun _ => SUniversal))
  (palt parse_attribute_selector
        (pmap parse_ident SType)))))).
(** selectors.rs:58-66 [parse_compound_selector] *)
Definition parse_compound_selector : parser compound :=
  pbind parse_simple_selector (fun first => pbind (many0 parse_simple_selector) (fun rest => pret (first :: rest))).
(** selectors.rs:79-83: a combinator symbol *)
Definition parse_combinator : parser combinator :=
  palt (pmap (pchar 62) (fun _ => CChild))
  (palt (pmap (pchar 43) (fun _ => CAdjacent)) (pmap (pchar 126) (fun _ => CSibling))).
(** selectors.rs:74-119: the loop, from the current compound; the rest shrinks in
    every turn *)
Fixpoint complex_go (fuel : nat) (current : compound) (input : text) : res (text * complex) :=
  match fuel with
  | O => Err
  | S n =>
      let stop := Ok (input, [(current, CNone)]) in
      let go comb r :=
        match parse_compound_selector r with
        | Ok (next, k) =>
            match complex_go n k next with
            | Ok (r', parts) => Ok (r', (current, comb) :: parts)
            | Err => Err
            | Panic => Panic
            end
        | Err => stop
        | Panic => Panic
        end in
      let '(ws, rem) := span space input in
      match parse_combinator rem with
      | Ok (after_op, comb) => go comb (snd (span space after_op))
      | Err => if is_nil ws then stop else go CDescendant rem
      | Panic => Panic
      end
  end.
(** selectors.rs:69-120 [parse_complex_selector] *)
Definition parse_complex_selector : parser complex :=
  pbind parse_compound_selector (fun k r => complex_go (S (length r)) k r).
(** mod.rs:152-163 [parse_selector_list] *)
Definition parse_selector_list : parser (list complex) :=
  preceded multispace0 (pbind parse_complex_selector (fun first =>
    pbind (many0 (preceded (preceded multispace0 (preceded (pchar 44) multispace0)) parse_complex_selector)) (fun rest =>
      pret (first :: rest)))).

(** *** Numbers and units *)

(** the rational a decimal text denotes *)
Definition decimal (negative : bool) (whole fraction : text) : Q :=
  let q := (inject_Z (digits_value (whole ++ fraction)) / inject_Z (10 ^ Z.of_nat (length fraction)))%Q in
  if negative then Qopp q else q.
(** units.rs:38-47 [parse_number] *)
Definition parse_number : parser Q :=
  pbind (popt (pchar 45)) (fun sign => pbind digit1 (fun whole =>
    pbind (popt (preceded (pchar 46) digit1)) (fun fraction =>
      pret (rnd64 (decimal (match sign with Some _ => true | None => false end) whole
                     (match fraction with Some f => f | None => [] end)))))).
(** units.rs:50-59 [parse_unit_suffix] *)
Definition parse_unit_suffix : parser unit_of :=
  palt (pmap (tag (str "vw")) (fun _ => ViewWidth))
  (palt (pmap (tag (str "vh")) (fun _ => ViewHeight))
  (palt (pmap (tag (str "fr")) (fun _ => Fraction))
  (palt (pmap (pchar 37) (fun _ => Percent))
  (palt (pmap (pchar 119) (fun _ => Width)) (pmap (pchar 104) (fun _ => Height)))))).
(** units.rs:62-79 [parse_scalar] *)
Definition parse_scalar : parser scalar :=
  trimmed (palt (pmap (tag (str "auto")) (fun _ => Scalar 0 Auto))
    (pbind parse_number (fun v => pbind (popt parse_unit_suffix) (fun u =>
      pret (Scalar v (match u with Some x => x | None => Cells end)))))).
(** units.rs:83-113 [parse_spacing] *)
Definition parse_spacing : parser value :=
  pbind parse_scalar (fun first => pbind (popt (preceded multispace0 parse_scalar)) (fun second =>
    match second with
    | None => pret (VSpacing first first first first)
    | Some h =>
        pbind (popt (preceded multispace0 parse_scalar)) (fun third =>
        pbind (popt (preceded multispace0 parse_scalar)) (fun fourth =>
          match third, fourth with
          | Some t, Some l => pret (VSpacing first h t l)
          | _, _ => pret (VSpacing first h first h)
          end))
    end)).
(** units.rs:116-119 [parse_u16]; values.rs:242-248 is the same without the trim *)
Definition plain_u16 : parser Z := pbind digit1 (fun d => of_option (parse_unsigned 65535 d)).
Definition parse_u16 : parser Z := trimmed plain_u16.
(** units.rs:122-129 [parse_layout] *)
Definition parse_layout : parser keyword :=
  trimmed (palt (pmap (tag (str "vertical")) (fun _ => KVertical))
    (palt (pmap (tag (str "horizontal")) (fun _ => KHorizontal)) (pmap (tag (str "grid")) (fun _ => KGrid)))).
(** units.rs:132-136 [parse_grid_size] *)
Definition parse_grid_size : parser (Z * option Z) :=
  pbind parse_u16 (fun c => pbind (popt (preceded multispace1 parse_u16)) (fun r => pret (c, r))).
(** units.rs:139-146 [parse_scalar_list] *)
Definition parse_scalar_list : parser (list scalar) :=
  pbind parse_scalar (fun first => pbind (many0 (preceded multispace1 parse_scalar)) (fun rest => pret (first :: rest))).
(** units.rs:149-153 [parse_grid_gutter] *)
Definition parse_grid_gutter : parser (scalar * option scalar) :=
  pbind parse_scalar (fun v => pbind (popt (preceded multispace1 parse_scalar)) (fun h => pret (v, h))).
(** units.rs:157-161 [parse_offset] *)
Definition parse_offset : parser (scalar * scalar) :=
  pbind parse_scalar (fun x => pbind (preceded multispace1 parse_scalar) (fun y => pret (x, y))).

(** *** Colours *)

Definition digit_or_dot (c : char) : bool := is_digit c || (c =? 46).
(** values.rs:86-101, and again 612-628 in [parse_hatch]: digits and dots, then '%' *)
Definition percent (t : text) : option (text * Q) :=
  let '(number, rest) := span digit_or_dot t in
  match rest with
  | c :: r =>
      if (c =? 37) && negb (is_nil number) then
        match parse_f32 number with Some q => Some (r, rnd (q / 100)%Q) | None => None end
      else None
  | [] => None
  end.
(** values.rs:80-107 [parse_optional_alpha] *)
Definition parse_optional_alpha (input : text) (c : C) : text * C :=
  match percent (trim_start input) with Some (r, a) => (r, with_alpha c a) | None => (input, c) end.
(** values.rs:112-133 [find_color_end], as the token and the rest; the depth is
    an i32 that may go negative *)
Fixpoint colour_token (depth : Z) (t : text) : text * text :=
  match t with
  | [] => ([], [])
  | c :: r =>
      if c =? 40 then let '(a, b) := colour_token (depth + 1) r in (c :: a, b)
      else if c =? 41 then
        if depth - 1 =? 0 then ([c], r) else let '(a, b) := colour_token (depth - 1) r in (c :: a, b)
      else if ((c =? 59) || (c =? 125)) && (depth =? 0) then ([], t)
      else if is_ws c && (depth =? 0) then ([], t)
      else let '(a, b) := colour_token depth r in (c :: a, b)
  end.
(** values.rs:42-76 [parse_color] *)
Definition parse_color : parser C :=
  trimmed (fun input =>
    let '(token, remaining) := colour_token 0 input in
    match token with
    | [] => Err
    | c :: name =>
        if c =? 36 then Ok (parse_optional_alpha remaining (theme_colour name))
        else match colour token with
             | Ok k => Ok (parse_optional_alpha remaining k)
             | Err => Err
             | Panic => Panic
             end
    end).

(** *** Keywords *)

(** an identifier, lowered, looked up among the words of a [match] *)
Definition parse_word {A} (words : list (string * A)) : parser A :=
  pbind parse_ident (fun w => of_option (lookup (lower w) words)).
(** values.rs:136-157 [try_parse_border_kind] *)
Definition border_kinds : list (string * border_kind) :=
  [("none", BNone); ("hidden", BNone); ("ascii", BAscii); ("blank", BBlank); ("block", BBlock); ("dashed", BDashed);
   ("double", BDouble); ("heavy", BHeavy); ("hkey", BHkey); ("inner", BInner); ("outer", BOuter); ("panel", BPanel);
   ("round", BRound); ("solid", BSolid); ("tall", BTall); ("thick", BThick); ("vkey", BVkey); ("wide", BWide)]%string.
(** values.rs:163-192 [parse_border_edge] *)
Definition parse_border_edge : parser value :=
  trimmed (palt
    (pbind (parse_word border_kinds) (fun k => pbind (popt (preceded multispace1 parse_color)) (fun c => pret (VEdge k c))))
    (pbind parse_color (fun c => trimmed (pbind (parse_word border_kinds) (fun k => pret (VEdge k (Some c))))))).
(** values.rs:195-210 *)
Definition text_aligns : list (string * keyword) :=
  [("left", KLeft); ("center", KCenter); ("right", KRight); ("justify", KJustify); ("start", KStart); ("end", KEnd)]%string.
(** values.rs:213-225 *)
Definition text_overflows : list (string * keyword) := [("clip", KClip); ("fold", KFold); ("ellipsis", KEllipsis)]%string.
(** values.rs:228-239 *)
Definition text_wraps : list (string * keyword) := [("wrap", KWrap); ("nowrap", KNoWrap)]%string.
(** values.rs:253-268 [parse_scrollbar_size] *)
Definition parse_scrollbar_size : parser value :=
  pbind plain_u16 (fun a => pbind (popt (preceded multispace1 plain_u16)) (fun b =>
    pret (match b with Some v => VSizes a v | None => VSizes a a end))).
(** values.rs:271-281 *)
Definition gutters : list (string * keyword) := [("auto", KAuto); ("stable", KStable)]%string.
(** values.rs:284-294 and 356-367 *)
Definition visibilities : list (string * keyword) := [("visible", KVisible); ("hidden", KHidden)]%string.
(** values.rs:297-309 *)
Definition overflows : list (string * keyword) := [("hidden", KHidden); ("auto", KAuto); ("scroll", KScroll)]%string.
(** values.rs:312-319 [parse_overflow_shorthand] *)
Definition parse_overflow_shorthand : parser (keyword * keyword) :=
  pbind (parse_word overflows) (fun x => pbind (popt (preceded multispace1 (parse_word overflows))) (fun y =>
    pret (x, match y with Some y => y | None => x end))).
(** values.rs:322-339 [parse_box_sizing] *)
Definition box_sizings : list (string * keyword) :=
  [("content-box", KContentBox); ("contentbox", KContentBox); ("border-box", KBorderBox); ("borderbox", KBorderBox)]%string.
Definition parse_box_sizing : parser keyword :=
  pbind parse_ident (fun a => pbind (popt (preceded (pchar 45) parse_ident)) (fun b =>
    of_option (lookup (lower (match b with Some s => a ++ [45] ++ s | None => a end)) box_sizings))).
(** values.rs:342-353 *)
Definition displays : list (string * keyword) := [("block", KBlock); ("none", KNone)]%string.
(** values.rs:370-381 *)
Definition positions : list (string * keyword) := [("relative", KRelative); ("absolute", KAbsolute)]%string.
(** values.rs:384-411 *)
Definition horizontals : list (string * keyword) := [("left", KLeft); ("center", KCenter); ("right", KRight)]%string.
Definition verticals : list (string * keyword) := [("top", KTop); ("middle", KMiddle); ("bottom", KBottom)]%string.
(** values.rs:416-424 [parse_content_align] *)
Definition parse_content_align : parser (keyword * keyword) :=
  pbind (parse_word horizontals) (fun h => pbind multispace1 (fun _ => pbind (parse_word verticals) (fun v => pret (h, v)))).
(** values.rs:495-508 *)
Definition docks : list (string * keyword) := [("top", KTop); ("bottom", KBottom); ("left", KLeft); ("right", KRight)]%string.

(** values.rs:443-448 and 537-541: up to the first ';' or '}', or everything *)
Definition not_end (c : char) : bool := negb ((c =? 59) || (c =? 125)).
(** values.rs:461-487: one word of a text style *)
Definition style_word (s : text_style) (w : text) : res text_style :=
  let 'TextStyle b d i u u2 k k2 r st o th := s in
  let w := lower w in
  if text_eqb w (str "none") then Ok no_style
  else if text_eqb w (str "bold") then Ok (TextStyle true d i u u2 k k2 r st o th)
  else if text_eqb w (str "dim") then Ok (TextStyle b true i u u2 k k2 r st o th)
  else if text_eqb w (str "italic") then Ok (TextStyle b d true u u2 k k2 r st o th)
  else if text_eqb w (str "underline") then Ok (TextStyle b d i true u2 k k2 r st o th)
  else if text_eqb w (str "underline2") then Ok (TextStyle b d i u true k k2 r st o th)
  else if text_eqb w (str "blink") then Ok (TextStyle b d i u u2 true k2 r st o th)
  else if text_eqb w (str "blink2") then Ok (TextStyle b d i u u2 k true r st o th)
  else if text_eqb w (str "reverse") then Ok (TextStyle b d i u u2 k k2 true st o th)
  else if text_eqb w (str "strike") then Ok (TextStyle b d i u u2 k k2 r true o th)
  else if text_eqb w (str "overline") then Ok (TextStyle b d i u u2 k k2 r st true th)
  else Err.
Fixpoint style_words (s : text_style) (l : list text) : res text_style :=
  match l with [] => Ok s | w :: r => bind (style_word s w) (fun s' => style_words s' r) end.
Definition style_variable (n : text) : text_style := TextStyle false false false false false false false false false false (Some n).
(** values.rs:439-490 [parse_text_style] *)
Definition parse_text_style : parser text_style :=
  trimmed (fun input =>
    let '(taken, rest) := span not_end input in
    match trim taken with
    | [] => Err
    | c :: n =>
        if c =? 36 then Ok (rest, style_variable n)
        else bind (style_words no_style (split_ws (c :: n))) (fun s => Ok (rest, s))
    end).
(** values.rs:519-523 [parse_layer] *)
Definition parse_layer : parser text := trimmed (pmap parse_ident lower).
(** values.rs:534-563 [parse_layers] *)
Definition parse_layers : parser (list text) :=
  trimmed (fun input =>
    let '(taken, rest) := span not_end input in
    match trim taken with
    | [] => Err
    | v => match map lower (split_ws v) with [] => Err | l => Ok (rest, l) end
    end).
(** types/hatch.rs:63-80 [HatchPattern::parse] *)
Definition hatch_names : list (string * hatch_pattern) :=
  [("left", HLeft); ("right", HRight); ("cross", HCross); ("horizontal", HHorizontal); ("vertical", HVertical)]%string.
Definition trim_char (c : char) (t : text) : text := trim_end_char c (trim_start_char c t).
Definition hatch_parse (s : text) : option hatch_pattern :=
  match lookup (lower s) hatch_names with
  | Some p => Some p
  | None => match trim_char 39 (trim_char 34 s) with [c] => Some (HCustom c) | _ => None end
  end.
(** values.rs:583-604: the pattern *)
Definition parse_hatch_pattern : parser hatch_pattern :=
  fun input =>
    match input with
    | q :: r =>
        if (q =? 34) || (q =? 39) then
          match split_at_char q r with
          | Some (custom, after) => match hatch_parse custom with Some p => Ok (after, p) | None => Err end
          | None => Err
          end
        else pbind parse_ident (fun w => of_option (hatch_parse w)) input
    | [] => Err
    end.
Definition clamp01 (q : Q) : Q := if Qle_bool q 0 then 0%Q else if Qle_bool 1 q then 1%Q else q.
(** values.rs:577-640 [parse_hatch] *)
Definition parse_hatch : parser value :=
  trimmed (pbind parse_hatch_pattern (fun p => trimmed (pbind parse_color (fun c => trimmed (fun input =>
    match percent input with
    | Some (r, a) => Ok (r, VHatch p c (clamp01 a))
    | None => Ok (input, VHatch p c 1%Q)
    end))))).
(** types/keyline.rs:21-29 and values.rs:652-678 [parse_keyline] *)
Definition keyline_styles : list (string * keyline_style) :=
  [("none", LNone); ("thin", LThin); ("heavy", LHeavy); ("double", LDouble)]%string.
Definition at_end (t : text) : bool := match t with [] => true | c :: _ => (c =? 59) || (c =? 125) end.
Definition parse_keyline : parser value :=
  trimmed (pbind (parse_word keyline_styles) (fun s => trimmed (fun input =>
    match s with
    | LNone => if at_end input then Ok (input, VKeyline s transparent) else pmap parse_color (VKeyline s) input
    | _ => pmap parse_color (VKeyline s) input
    end))).
(** values.rs:690-714 [parse_opacity] *)
Definition parse_opacity : parser Q :=
  trimmed (palt
    (pmap parse_scalar (fun s => clamp01 (match sc_unit s with Percent => rnd64 (sc_value s / 100)%Q | _ => sc_value s end)))
    (pbind (take_while1 (fun c => is_digit c || (c =? 46) || (c =? 45))) (fun t =>
      match parse_f64 t with Some q => pret (clamp01 q) | None => pfail end))).

(** *** Declarations *)

Definition word (words : list (string * keyword)) (d : value -> declaration) : parser declaration :=
  pmap (parse_word words) (fun k => d (VWord k)).
Definition of_colour (d : value -> declaration) : parser declaration := pmap parse_color (fun c => d (VColour c)).
Definition of_scalar (d : value -> declaration) : parser declaration := pmap parse_scalar (fun s => d (VScalar s)).
Definition of_value (p : parser value) (d : value -> declaration) : parser declaration := pmap p d.
Definition of_style (d : value -> declaration) : parser declaration := pmap parse_text_style (fun s => d (VStyle s)).
Definition of_int (p : parser Z) (d : value -> declaration) : parser declaration := pmap p (fun n => d (VInt n)).

(** mod.rs:186-377: the [match] on the property name *)
Definition properties : list (string * parser declaration) :=
  [("color", of_colour (DColor _)); ("background", of_colour (DBackground _)); ("tint", of_colour (DTint _));
   ("background-tint", of_colour (DBackgroundTint _));
   ("width", of_scalar (DWidth _)); ("height", of_scalar (DHeight _));
   ("max-height", of_scalar (DMaxHeight _)); ("max-width", of_scalar (DMaxWidth _));
   ("min-height", of_scalar (DMinHeight _)); ("min-width", of_scalar (DMinWidth _));
   ("margin", of_value parse_spacing (DMargin _)); ("margin-top", of_scalar (DMarginTop _));
   ("margin-right", of_scalar (DMarginRight _)); ("margin-bottom", of_scalar (DMarginBottom _));
   ("margin-left", of_scalar (DMarginLeft _));
   ("padding", of_value parse_spacing (DPadding _)); ("padding-top", of_scalar (DPaddingTop _));
   ("padding-right", of_scalar (DPaddingRight _)); ("padding-bottom", of_scalar (DPaddingBottom _));
   ("padding-left", of_scalar (DPaddingLeft _)); ("border", of_value parse_border_edge (DBorder _));
   ("scrollbar-color", of_colour (DScrollbarColor _)); ("scrollbar-color-hover", of_colour (DScrollbarColorHover _));
   ("scrollbar-color-active", of_colour (DScrollbarColorActive _));
   ("scrollbar-background", of_colour (DScrollbarBackground _));
   ("scrollbar-background-hover", of_colour (DScrollbarBackgroundHover _));
   ("scrollbar-background-active", of_colour (DScrollbarBackgroundActive _));
   ("scrollbar-corner-color", of_colour (DScrollbarCornerColor _));
   ("scrollbar-size", of_value parse_scrollbar_size (DScrollbarSize _));
   ("scrollbar-size-horizontal", of_int plain_u16 (DScrollbarSizeHorizontal _));
   ("scrollbar-size-vertical", of_int plain_u16 (DScrollbarSizeVertical _));
   ("scrollbar-gutter", word gutters (DScrollbarGutter _));
   ("scrollbar-visibility", word visibilities (DScrollbarVisibility _));
   ("box-sizing", pmap parse_box_sizing (fun k => DBoxSizing _ (VWord k)));
   ("display", word displays (DDisplay _)); ("visibility", word visibilities (DVisibility _));
   ("opacity", pmap parse_opacity (fun q => DOpacity _ (VNumber q))); ("position", word positions (DPosition _));
   ("overflow-x", word overflows (DOverflowX _)); ("overflow-y", word overflows (DOverflowY _));
   ("overflow", pmap parse_overflow_shorthand (fun '(x, y) => DOverflow _ (VWord x) (VWord y)));
   ("layout", pmap parse_layout (fun k => DLayout _ (VWord k))); ("dock", word docks (DDock _));
   ("layers", pmap parse_layers (fun l => DLayers _ (VNames l))); ("layer", pmap parse_layer (fun n => DLayer _ (VName n)));
   ("grid-size", pmap parse_grid_size (fun '(c, r) => DGridSize _ (VInt c) (VOptInt r)));
   ("grid-columns", pmap parse_scalar_list (fun l => DGridColumns _ (VScalars l)));
   ("grid-rows", pmap parse_scalar_list (fun l => DGridRows _ (VScalars l)));
   ("grid-gutter", pmap parse_grid_gutter (fun '(v, h) => DGridGutter _ (VScalar v) (option_map VScalar h)));
   ("column-span", of_int parse_u16 (DColumnSpan _)); ("row-span", of_int parse_u16 (DRowSpan _));
   ("link-color", of_colour (DLinkColor _)); ("link-color-hover", of_colour (DLinkColorHover _));
   ("link-background", of_colour (DLinkBackground _)); ("link-background-hover", of_colour (DLinkBackgroundHover _));
   ("link-style", of_style (DLinkStyle _)); ("link-style-hover", of_style (DLinkStyleHover _));
   ("text-align", word text_aligns (DTextAlign _)); ("text-overflow", word text_overflows (DTextOverflow _));
   ("text-wrap", word text_wraps (DTextWrap _)); ("line-pad", of_int parse_u16 (DLinePad _));
   ("text-opacity", pmap parse_opacity (fun q => DTextOpacity _ (VNumber q))); ("text-style", of_style (DTextStyle _));
   ("content-align-horizontal", word horizontals (DContentAlignHorizontal _));
   ("content-align-vertical", word verticals (DContentAlignVertical _));
   ("content-align", pmap parse_content_align (fun '(h, v) => DContentAlign _ (VWord h) (VWord v)));
   ("align-horizontal", word horizontals (DAlignHorizontal _)); ("align-vertical", word verticals (DAlignVertical _));
   ("align", pmap parse_content_align (fun '(h, v) => DAlign _ (VWord h) (VWord v)));
   ("border-title-align", word horizontals (DBorderTitleAlign _));
   ("border-subtitle-align", word horizontals (DBorderSubtitleAlign _));
   ("border-title-color", of_colour (DBorderTitleColor _)); ("border-subtitle-color", of_colour (DBorderSubtitleColor _));
   ("border-title-background", of_colour (DBorderTitleBackground _));
   ("border-subtitle-background", of_colour (DBorderSubtitleBackground _));
   ("border-title-style", of_style (DBorderTitleStyle _)); ("border-subtitle-style", of_style (DBorderSubtitleStyle _));
   ("border-top", of_value parse_border_edge (DBorderTop _)); ("border-bottom", of_value parse_border_edge (DBorderBottom _));
   ("border-left", of_value parse_border_edge (DBorderLeft _)); ("border-right", of_value parse_border_edge (DBorderRight _));
   ("outline", of_value parse_border_edge (DOutline _)); ("outline-top", of_value parse_border_edge (DOutlineTop _));
   ("outline-right", of_value parse_border_edge (DOutlineRight _));
   ("outline-bottom", of_value parse_border_edge (DOutlineBottom _));
   ("outline-left", of_value parse_border_edge (DOutlineLeft _));
   ("hatch", of_value parse_hatch (DHatch _)); ("keyline", of_value parse_keyline (DKeyline _));
   ("offset", pmap parse_offset (fun '(x, y) => DOffset _ (VScalar x) (VScalar y)));
   ("offset-x", of_scalar (DOffsetX _)); ("offset-y", of_scalar (DOffsetY _))]%string.

(** mod.rs:409-413 [take_until_semicolon_or_brace] *)
Definition take_until_semicolon_or_brace : parser text := palt (take_until 59) (take_until 125).
Definition parse_value (property : text) : parser declaration :=
  match lookup property properties with
  | Some p => p
  | None => pmap take_until_semicolon_or_brace (fun _ => DUnknown _ property)
  end.
(** mod.rs:380-385: after the value *)
Definition end_declaration (d : declaration) : parser declaration :=
  pbind (popt (preceded multispace0 (tag (str "!important")))) (fun _ =>
  pbind multispace0 (fun _ => pbind (popt (pchar 59)) (fun _ => pret d))).
(** mod.rs:171-389 [parse_single_declaration]; a block that starts like a
    selector is skipped ([take_until_balanced_braces] never fails) *)
Definition parse_single_declaration : parser declaration :=
  preceded multispace0 (fun input =>
    if match input with c :: _ => (c =? 38) || (c =? 46) || (c =? 35) | [] => false end
    then Ok (snd (take_until_balanced_braces input), DUnknown _ (str "nested-rule"))
    else
      pbind parse_ident (fun property =>
      pbind multispace0 (fun _ => pbind (pchar 58) (fun _ => pbind multispace0 (fun _ =>
      pbind (parse_value property) end_declaration)))) input).

(** *** Rules *)

(** mod.rs:129-149 [parse_rule], [parse_rule_items]; the fuel bounds the nesting *)
Fixpoint parse_rule (fuel : nat) : parser rule :=
  match fuel with
  | O => pfail
  | S n =>
      preceded multispace0 (pbind parse_selector_list (fun sels =>
      pbind multispace0 (fun _ => pbind (pchar 123) (fun _ =>
      pbind (many0 (palt (pmap (parse_rule n) (INested value)) (pmap parse_single_declaration (IDecl value)))) (fun items =>
      pbind (preceded multispace0 (pchar 125)) (fun _ => pret (Rule value sels items)))))))
  end.
(** mod.rs:115-123: the rules of a text without comments and variables *)
Definition parse_rules (t : text) : res (list rule) :=
  match many0 (parse_rule (S (length t))) t with
  | Ok (remaining, rules) => if is_nil (trim remaining) then Ok rules else Err
  | Err => Err
  | Panic => Panic
  end.
(** mod.rs:108-126 [parse_stylesheet] *)
Definition parse_stylesheet (source : text) : res (list rule) :=
  let t := strip_comments source in
  bind (parse_rules (resolve_variables alnum t (extract_variables t))) (fun rules => Ok (flatten_stylesheet value rules)).

End Sheet.
