(** The syntax of stylesheets: which texts spell which selectors, values,
    declarations and rules.  Everything is given by the shape of the text alone;
    only what a colour, a number with f32 precision and a lowered word are is left
    to the parameters also used by the model. *)
From Coq Require Import String ZArith QArith List Bool.
From Verif Require Import Text_Model Css_Model Variables_Spec Sheet_Model.
Import ListNotations.
Notation length := List.length.
Open Scope Z_scope.
Open Scope list_scope.

(** white space between the parts of a stylesheet: spaces, tabs, line ends *)
Definition gap (t : text) : Prop := Forall (fun c => c = 32 \/ c = 9 \/ c = 10 \/ c = 13) t.
(** a text without blanks at its ends *)
Definition tight (t : text) : Prop :=
  match t with [] => True | c :: _ => is_ws c = false end /\ match rev t with [] => True | c :: _ => is_ws c = false end.

Section Syntax.
Variable alnum : char -> bool.
Variable lower : text -> text.
Variables rnd rnd64 : Q -> Q.
Variables parse_f32 parse_f64 : text -> option Q.
Variable C : Type.
Variable colour : text -> res C.
Variable with_alpha : C -> Q -> C.
Variable theme_colour : text -> C.
Variable transparent : C.

Notation value := (value C).
Notation declaration := (declaration value).
Notation rule := (rule value).
Notation item := (item value).

Definition ident (t : text) : Prop := t <> [] /\ Forall (in_name alnum) t.

(** *** Selectors *)
Inductive simple_text : selector -> text -> Prop :=
| t_type : forall n, ident n -> simple_text (SType n) n
| t_class : forall n, ident n -> simple_text (SClass n) (str "." ++ n)
| t_id : forall n, ident n -> simple_text (SId n) (str "#" ++ n)
| t_pseudo : forall n, ident n -> simple_text (SPseudo n) (str ":" ++ n)
| t_parent : simple_text SParent (str "&")
| t_universal : simple_text SUniversal (str "*")
| t_attr : forall n v a b c d, tight n -> tight v -> ~ In 61 n -> ~ In 93 n -> ~ In 93 v -> blank a -> blank b -> blank c -> blank d ->
    simple_text (SAttr n v) (str "[" ++ a ++ n ++ b ++ str "=" ++ c ++ v ++ d ++ str "]")
| t_has : forall n a b, tight n -> ~ In 61 n -> ~ In 93 n -> blank a -> blank b ->
    simple_text (SAttr n []) (str "[" ++ a ++ n ++ b ++ str "]").
Definition ends_with_name (s : selector) : Prop :=
  match s with SType _ | SClass _ | SId _ | SPseudo _ => True | _ => False end.
Definition starts_with_name (k : compound) : Prop := match k with SType _ :: _ => True | _ => False end.
(** a compound is written without spaces; a type can only follow what is not a name *)
Inductive compound_text : compound -> text -> Prop :=
| c_one : forall s t, simple_text s t -> compound_text [s] t
| c_more : forall s t k u, simple_text s t -> compound_text k u -> ~ (ends_with_name s /\ starts_with_name k) ->
    compound_text (s :: k) (t ++ u).
Inductive combinator_text : combinator -> text -> Prop :=
| cb_descendant : forall w, gap w -> w <> [] -> combinator_text CDescendant w
| cb_child : forall v w, gap v -> gap w -> combinator_text CChild (v ++ str ">" ++ w)
| cb_adjacent : forall v w, gap v -> gap w -> combinator_text CAdjacent (v ++ str "+" ++ w)
| cb_sibling : forall v w, gap v -> gap w -> combinator_text CSibling (v ++ str "~" ++ w).
Inductive complex_text : complex -> text -> Prop :=
| x_last : forall k t, compound_text k t -> complex_text [(k, CNone)] t
| x_more : forall k t comb c r u, compound_text k t -> combinator_text comb c -> complex_text r u ->
    complex_text ((k, comb) :: r) (t ++ c ++ u).
Inductive selectors_text : list complex -> text -> Prop :=
| l_one : forall x t, complex_text x t -> selectors_text [x] t
| l_more : forall x t v w l u, complex_text x t -> gap v -> gap w -> selectors_text l u ->
    selectors_text (x :: l) (t ++ v ++ str "," ++ w ++ u).

(** *** Values *)

(** decimal numerals *)
Inductive decimal_value : text -> Z -> Prop :=
| dv_nil : decimal_value [] 0
| dv_digit : forall t n d, decimal_value t n -> 0 <= d <= 9 -> decimal_value (t ++ [48 + d]) (10 * n + d).
Inductive number_text : Q -> text -> Prop :=
| n_whole : forall t n, t <> [] -> decimal_value t n -> number_text (inject_Z n) t
| n_fraction : forall t f n, t <> [] -> f <> [] -> decimal_value (t ++ f) n ->
    number_text (inject_Z n / inject_Z (10 ^ Z.of_nat (length f)))%Q (t ++ str "." ++ f).
Inductive signed_text : Q -> text -> Prop :=
| n_plus : forall q t, number_text q t -> signed_text q t
| n_minus : forall q t, number_text q t -> signed_text (- q)%Q (str "-" ++ t).
Definition unit_name (u : unit_of) : string :=
  match u with Percent => "%" | Width => "w" | Height => "h" | ViewWidth => "vw" | ViewHeight => "vh" | Fraction => "fr" | _ => "" end.
Inductive scalar_text : scalar -> text -> Prop :=
| s_auto : scalar_text (Scalar 0 Auto) (str "auto")
| s_number : forall q t u, signed_text q t -> u <> Auto -> scalar_text (Scalar (rnd64 q) u) (t ++ str (unit_name u)).
Definition int_text (n : Z) (t : text) : Prop := t <> [] /\ decimal_value t n /\ n <= 65535.
Inductive spacing_text : value -> text -> Prop :=
| sp_one : forall s t, scalar_text s t -> spacing_text (VSpacing s s s s) t
| sp_two : forall v h t u g, scalar_text v t -> gap g -> g <> [] -> scalar_text h u -> spacing_text (VSpacing v h v h) (t ++ g ++ u)
| sp_four : forall a b c d ta tb tc td g1 g2 g3, scalar_text a ta -> scalar_text b tb -> scalar_text c tc -> scalar_text d td ->
    gap g1 -> g1 <> [] -> gap g2 -> g2 <> [] -> gap g3 -> g3 <> [] ->
    spacing_text (VSpacing a b c d) (ta ++ g1 ++ tb ++ g2 ++ tc ++ g3 ++ td).
Inductive scalars_text : list scalar -> text -> Prop :=
| sl_one : forall s t, scalar_text s t -> scalars_text [s] t
| sl_more : forall s t g l u, scalar_text s t -> gap g -> g <> [] -> scalars_text l u -> scalars_text (s :: l) (t ++ g ++ u).

(** colours: a word, or a function with its arguments; '{' and '[' excluded *)
Definition plain (c : char) : Prop := is_ws c = false /\ ~ In c (str "(){}[;").
Definition argument (c : char) : Prop := ~ In c (str "(){[").
Inductive token : text -> Prop :=
| k_word : forall t, t <> [] -> Forall plain t -> token t
| k_call : forall f a, f <> [] -> Forall plain f -> Forall argument a -> token (f ++ str "(" ++ a ++ str ")").
Inductive base_colour : C -> text -> Prop :=
| k_colour : forall c t, token t -> nth_error t 0 <> Some 36 -> colour t = Ok c -> base_colour c t
| k_theme : forall n, Forall plain n -> base_colour (theme_colour n) (str "$" ++ n).
Inductive colour_text : C -> text -> Prop :=
| k_solid : forall c t, base_colour c t -> colour_text c t
| k_alpha : forall c t g n q, base_colour c t -> gap g -> g <> [] -> n <> [] -> Forall (fun x => 48 <= x <= 57 \/ x = 46) n ->
    parse_f32 n = Some q -> colour_text (with_alpha c (rnd (q / 100)%Q)) (t ++ g ++ n ++ str "%").

(** words *)
Definition spelling (k : keyword) : string :=
  match k with
  | KAuto => "auto" | KStable => "stable" | KVisible => "visible" | KHidden => "hidden" | KScroll => "scroll"
  | KContentBox => "content-box" | KBorderBox => "border-box" | KBlock => "block" | KNone => "none"
  | KRelative => "relative" | KAbsolute => "absolute" | KVertical => "vertical" | KHorizontal => "horizontal" | KGrid => "grid"
  | KLeft => "left" | KCenter => "center" | KRight => "right" | KTop => "top" | KMiddle => "middle" | KBottom => "bottom"
  | KJustify => "justify" | KStart => "start" | KEnd => "end" | KClip => "clip" | KFold => "fold" | KEllipsis => "ellipsis"
  | KWrap => "wrap" | KNoWrap => "nowrap"
  end%string.
(** the box sizes may be written without the hyphen *)
Definition spellings (k : keyword) : list string :=
  spelling k :: match k with KContentBox => ["contentbox"] | KBorderBox => ["borderbox"] | _ => [] end%string.
Definition word_text (n : string) (t : text) : Prop := ident t /\ lower t = str n.
Definition border_name (b : border_kind) : string :=
  match b with
  | BNone => "none" | BAscii => "ascii" | BBlank => "blank" | BBlock => "block" | BDashed => "dashed" | BDouble => "double"
  | BHeavy => "heavy" | BHkey => "hkey" | BInner => "inner" | BOuter => "outer" | BPanel => "panel" | BRound => "round"
  | BSolid => "solid" | BTall => "tall" | BThick => "thick" | BVkey => "vkey" | BWide => "wide"
  end%string.
Inductive kind_text : border_kind -> text -> Prop :=
| b_named : forall b t, word_text (border_name b) t -> kind_text b t
| b_hidden : forall t, word_text "hidden" t -> kind_text BNone t.
(** the identifier a text starts with *)
Definition first_ident (t i : text) : Prop :=
  ident i /\ exists r, t = i ++ r /\ match r with [] => True | c :: _ => ~ in_name alnum c end.
Inductive edge_text : value -> text -> Prop :=
| e_kind : forall b t, kind_text b t -> edge_text (VEdge b None) t
| e_kind_colour : forall b t g c u, kind_text b t -> gap g -> g <> [] -> colour_text c u -> edge_text (VEdge b (Some c)) (t ++ g ++ u)
| e_colour_kind : forall b t g c u, colour_text c u -> (forall i k, first_ident u i -> ~ kind_text k i) ->
    gap g -> g <> [] -> kind_text b t -> edge_text (VEdge b (Some c)) (u ++ g ++ t).

(** words separated by blanks *)
Definition list_word (t : text) : Prop := t <> [] /\ Forall (fun c => is_ws c = false /\ ~ In c (str ";}{[")) t.
Inductive words_text : list text -> text -> Prop :=
| w_one : forall w, list_word w -> words_text [w] w
| w_more : forall w g l t, list_word w -> blank g -> g <> [] -> words_text l t -> words_text (w :: l) (w ++ g ++ t).
Definition style_names : list (string * (text_style -> bool)) :=
  [("bold", ts_bold); ("dim", ts_dim); ("italic", ts_italic); ("underline", ts_underline); ("underline2", ts_underline2);
   ("blink", ts_blink); ("blink2", ts_blink2); ("reverse", ts_reverse); ("strike", ts_strike); ("overline", ts_overline)]%string.
(** every word is an attribute or "none"; an attribute is on exactly when it is
    named after the last "none" *)
Inductive style_text : text_style -> text -> Prop :=
| st_words : forall ws t s, words_text ws t -> nth_error t 0 <> Some 36 ->
    Forall (fun w => lower w = str "none" \/ exists n f, In (n, f) style_names /\ lower w = str n) ws ->
    (forall n f, In (n, f) style_names -> (f s = true <->
       exists before w after, ws = before ++ w :: after /\ lower w = str n /\ forall x, In x after -> lower x <> str "none")) ->
    ts_theme s = None -> style_text s t
| st_theme : forall n, tight n -> Forall (fun c => ~ In c (str ";}{[")) n ->
    style_text (TextStyle false false false false false false false false false false (Some n)) (str "$" ++ n).

Definition pattern_name (p : hatch_pattern) : option string :=
  match p with HLeft => Some "left" | HRight => Some "right" | HCross => Some "cross" | HHorizontal => Some "horizontal"
          | HVertical => Some "vertical" | HCustom _ => None end%string.
Inductive pattern_text : hatch_pattern -> text -> Prop :=
| h_named : forall p n t, pattern_name p = Some n -> word_text n t -> pattern_text p t
| h_quoted : forall c q, q = 34 \/ q = 39 -> ~ In c (str "'{[") -> c <> 34 ->
    (forall p n, pattern_name p = Some n -> lower [c] <> str n) -> pattern_text (HCustom c) ([q] ++ [c] ++ [q]).
Definition limited (q : Q) : Q := if Qle_bool q 0 then 0%Q else if Qle_bool 1 q then 1%Q else q.
(** the opacity of a hatch can be given only after that of its colour *)
Inductive hatch_text : value -> text -> Prop :=
| h_all : forall p t g c u, pattern_text p t -> gap g -> g <> [] -> colour_text c u -> hatch_text (VHatch p c 1%Q) (t ++ g ++ u)
| h_opacity : forall p t g c u g1 n q g2 m o, pattern_text p t -> gap g -> g <> [] -> base_colour c u -> gap g1 -> g1 <> [] ->
    n <> [] -> Forall (fun x => 48 <= x <= 57 \/ x = 46) n -> parse_f32 n = Some q ->
    gap g2 -> m <> [] -> Forall (fun x => 48 <= x <= 57 \/ x = 46) m -> parse_f32 m = Some o ->
    hatch_text (VHatch p (with_alpha c (rnd (q / 100)%Q)) (limited (rnd (o / 100)%Q))) (t ++ g ++ (u ++ g1 ++ n ++ str "%") ++ g2 ++ m ++ str "%").
Definition line_name (s : keyline_style) : string :=
  match s with LNone => "none" | LThin => "thin" | LHeavy => "heavy" | LDouble => "double" end%string.
Inductive opacity_text : Q -> text -> Prop :=
| o_number : forall q t, signed_text q t -> opacity_text (limited (rnd64 q)) t
| o_percent : forall q t, signed_text q t -> opacity_text (limited (rnd64 (rnd64 q / 100))) (t ++ str "%")
| o_dot : forall q t n, t <> [] -> decimal_value t n -> parse_f64 (str "." ++ t) = Some q -> opacity_text (limited q) (str "." ++ t).

(** *** Properties: name, syntax and the declaration it makes *)
Definition colour_properties : list (string * (value -> declaration)) :=
  [("color", DColor _); ("background", DBackground _); ("tint", DTint _); ("background-tint", DBackgroundTint _);
   ("scrollbar-color", DScrollbarColor _); ("scrollbar-color-hover", DScrollbarColorHover _);
   ("scrollbar-color-active", DScrollbarColorActive _); ("scrollbar-background", DScrollbarBackground _);
   ("scrollbar-background-hover", DScrollbarBackgroundHover _); ("scrollbar-background-active", DScrollbarBackgroundActive _);
   ("scrollbar-corner-color", DScrollbarCornerColor _); ("link-color", DLinkColor _); ("link-color-hover", DLinkColorHover _);
   ("link-background", DLinkBackground _); ("link-background-hover", DLinkBackgroundHover _);
   ("border-title-color", DBorderTitleColor _); ("border-subtitle-color", DBorderSubtitleColor _);
   ("border-title-background", DBorderTitleBackground _); ("border-subtitle-background", DBorderSubtitleBackground _)]%string.
Definition scalar_properties : list (string * (value -> declaration)) :=
  [("width", DWidth _); ("height", DHeight _); ("min-width", DMinWidth _); ("min-height", DMinHeight _);
   ("max-width", DMaxWidth _); ("max-height", DMaxHeight _);
   ("margin-top", DMarginTop _); ("margin-right", DMarginRight _); ("margin-bottom", DMarginBottom _); ("margin-left", DMarginLeft _);
   ("padding-top", DPaddingTop _); ("padding-right", DPaddingRight _); ("padding-bottom", DPaddingBottom _); ("padding-left", DPaddingLeft _);
   ("offset-x", DOffsetX _); ("offset-y", DOffsetY _)]%string.
Definition spacing_properties : list (string * (value -> declaration)) := [("margin", DMargin _); ("padding", DPadding _)]%string.
Definition edge_properties : list (string * (value -> declaration)) :=
  [("border", DBorder _); ("border-top", DBorderTop _); ("border-right", DBorderRight _); ("border-bottom", DBorderBottom _);
   ("border-left", DBorderLeft _); ("outline", DOutline _); ("outline-top", DOutlineTop _); ("outline-right", DOutlineRight _);
   ("outline-bottom", DOutlineBottom _); ("outline-left", DOutlineLeft _)]%string.
Definition word_properties : list (string * list keyword * (value -> declaration)) :=
  [("scrollbar-gutter", [KAuto; KStable], DScrollbarGutter _); ("scrollbar-visibility", [KVisible; KHidden], DScrollbarVisibility _);
   ("box-sizing", [KContentBox; KBorderBox], DBoxSizing _); ("display", [KBlock; KNone], DDisplay _);
   ("visibility", [KVisible; KHidden], DVisibility _); ("position", [KRelative; KAbsolute], DPosition _);
   ("overflow-x", [KHidden; KAuto; KScroll], DOverflowX _); ("overflow-y", [KHidden; KAuto; KScroll], DOverflowY _);
   ("dock", [KTop; KBottom; KLeft; KRight], DDock _);
   ("text-align", [KLeft; KCenter; KRight; KJustify; KStart; KEnd], DTextAlign _);
   ("text-overflow", [KClip; KFold; KEllipsis], DTextOverflow _); ("text-wrap", [KWrap; KNoWrap], DTextWrap _);
   ("content-align-horizontal", [KLeft; KCenter; KRight], DContentAlignHorizontal _);
   ("content-align-vertical", [KTop; KMiddle; KBottom], DContentAlignVertical _);
   ("align-horizontal", [KLeft; KCenter; KRight], DAlignHorizontal _); ("align-vertical", [KTop; KMiddle; KBottom], DAlignVertical _);
   ("border-title-align", [KLeft; KCenter; KRight], DBorderTitleAlign _);
   ("border-subtitle-align", [KLeft; KCenter; KRight], DBorderSubtitleAlign _)]%string.
Definition style_properties : list (string * (value -> declaration)) :=
  [("text-style", DTextStyle _); ("link-style", DLinkStyle _); ("link-style-hover", DLinkStyleHover _);
   ("border-title-style", DBorderTitleStyle _); ("border-subtitle-style", DBorderSubtitleStyle _)]%string.
Definition int_properties : list (string * (value -> declaration)) :=
  [("scrollbar-size-horizontal", DScrollbarSizeHorizontal _); ("scrollbar-size-vertical", DScrollbarSizeVertical _);
   ("column-span", DColumnSpan _); ("row-span", DRowSpan _); ("line-pad", DLinePad _)]%string.
Definition other_properties : list string :=
  ["opacity"; "text-opacity"; "overflow"; "content-align"; "align"; "scrollbar-size"; "grid-size"; "layout"; "layer"; "layers";
   "grid-columns"; "grid-rows"; "grid-gutter"; "offset"; "hatch"; "keyline"]%string.
Definition known (n : text) : Prop :=
  exists s, n = str s /\ (In s (map fst colour_properties) \/ In s (map fst scalar_properties) \/ In s (map fst spacing_properties)
    \/ In s (map fst edge_properties) \/ In s (map (fun x => fst (fst x)) word_properties) \/ In s (map fst style_properties)
    \/ In s (map fst int_properties) \/ In s other_properties).

(** a value and whether "!important" may follow it *)
Inductive value_text : declaration -> text -> text -> bool -> Prop :=
| p_colour : forall n f c t, In (n, f) colour_properties -> colour_text c t -> value_text (f (VColour c)) (str n) t true
| p_scalar : forall n f s t, In (n, f) scalar_properties -> scalar_text s t -> value_text (f (VScalar s)) (str n) t true
| p_spacing : forall n f v t, In (n, f) spacing_properties -> spacing_text v t -> value_text (f v) (str n) t true
| p_edge : forall n f v t, In (n, f) edge_properties -> edge_text v t -> value_text (f v) (str n) t true
| p_word : forall n ks f k w t, In (n, ks, f) word_properties -> In k ks -> In w (spellings k) -> word_text w t -> value_text (f (VWord k)) (str n) t true
| p_style : forall n f s t, In (n, f) style_properties -> style_text s t -> value_text (f (VStyle s)) (str n) t false
| p_int : forall n f z t, In (n, f) int_properties -> int_text z t -> value_text (f (VInt z)) (str n) t true
| p_opacity : forall q t, opacity_text q t -> value_text (DOpacity _ (VNumber q)) (str "opacity") t true
| p_text_opacity : forall q t, opacity_text q t -> value_text (DTextOpacity _ (VNumber q)) (str "text-opacity") t true
| p_overflow_one : forall x t, In x [KHidden; KAuto; KScroll] -> word_text (spelling x) t ->
    value_text (DOverflow _ (VWord x) (VWord x)) (str "overflow") t true
| p_overflow_two : forall x y t g u, In x [KHidden; KAuto; KScroll] -> In y [KHidden; KAuto; KScroll] ->
    word_text (spelling x) t -> gap g -> g <> [] -> word_text (spelling y) u ->
    value_text (DOverflow _ (VWord x) (VWord y)) (str "overflow") (t ++ g ++ u) true
| p_content_align : forall h v t g u, In h [KLeft; KCenter; KRight] -> In v [KTop; KMiddle; KBottom] ->
    word_text (spelling h) t -> gap g -> g <> [] -> word_text (spelling v) u ->
    value_text (DContentAlign _ (VWord h) (VWord v)) (str "content-align") (t ++ g ++ u) true
| p_align : forall h v t g u, In h [KLeft; KCenter; KRight] -> In v [KTop; KMiddle; KBottom] ->
    word_text (spelling h) t -> gap g -> g <> [] -> word_text (spelling v) u ->
    value_text (DAlign _ (VWord h) (VWord v)) (str "align") (t ++ g ++ u) true
| p_size_one : forall n t, int_text n t -> value_text (DScrollbarSize _ (VSizes n n)) (str "scrollbar-size") t true
| p_size_two : forall m n t g u, int_text m t -> gap g -> g <> [] -> int_text n u ->
    value_text (DScrollbarSize _ (VSizes m n)) (str "scrollbar-size") (t ++ g ++ u) true
| p_grid_one : forall n t, int_text n t -> value_text (DGridSize _ (VInt n) (VOptInt None)) (str "grid-size") t true
| p_grid_two : forall m n t g u, int_text m t -> gap g -> g <> [] -> int_text n u ->
    value_text (DGridSize _ (VInt m) (VOptInt (Some n))) (str "grid-size") (t ++ g ++ u) true
| p_layout : forall k, In k [KVertical; KHorizontal; KGrid] -> value_text (DLayout _ (VWord k)) (str "layout") (str (spelling k)) true
| p_layer : forall t, ident t -> value_text (DLayer _ (VName (lower t))) (str "layer") t true
| p_layers : forall l t, words_text l t -> value_text (DLayers _ (VNames (map lower l))) (str "layers") t false
| p_columns : forall l t, scalars_text l t -> value_text (DGridColumns _ (VScalars l)) (str "grid-columns") t true
| p_rows : forall l t, scalars_text l t -> value_text (DGridRows _ (VScalars l)) (str "grid-rows") t true
| p_gutter_one : forall s t, scalar_text s t -> value_text (DGridGutter _ (VScalar s) None) (str "grid-gutter") t true
| p_gutter_two : forall v h t g u, scalar_text v t -> gap g -> g <> [] -> scalar_text h u ->
    value_text (DGridGutter _ (VScalar v) (Some (VScalar h))) (str "grid-gutter") (t ++ g ++ u) true
| p_offset : forall x y t g u, scalar_text x t -> gap g -> g <> [] -> scalar_text y u ->
    value_text (DOffset _ (VScalar x) (VScalar y)) (str "offset") (t ++ g ++ u) true
| p_hatch : forall v t, hatch_text v t -> value_text (DHatch _ v) (str "hatch") t true
| p_keyline : forall s t g c u, word_text (line_name s) t -> gap g -> g <> [] -> colour_text c u ->
    value_text (DKeyline _ (VKeyline s c)) (str "keyline") (t ++ g ++ u) true
| p_no_keyline : forall t, word_text "none" t -> value_text (DKeyline _ (VKeyline LNone transparent)) (str "keyline") t false.

(** *** Rules *)
(** "!important" after at least one blank; it has no effect *)
Inductive important : bool -> text -> Prop :=
| i_no : forall b, important b []
| i_yes : forall g, gap g -> g <> [] -> important true (g ++ str "!important").
(** a declaration up to its semicolon or the end of the block *)
Inductive declaration_text : declaration -> text -> Prop :=
| d_known : forall d n v b g1 g2 i g, value_text d n v b -> gap g1 -> gap g2 -> important b i -> gap g ->
    declaration_text d (n ++ g1 ++ str ":" ++ g2 ++ v ++ i ++ g).
(** an unknown property, whose value must end with a semicolon *)
Definition unknown_text (n t : text) : Prop :=
  ident n /\ ~ known n /\ exists g1 g2 v, gap g1 /\ gap g2 /\ Forall (fun c => ~ In c (str ";{[")) v
    /\ t = n ++ g1 ++ str ":" ++ g2 ++ v.
Inductive rule_text : rule -> text -> Prop :=
| r_rule : forall sels items g0 s g1 b g2, gap g0 -> selectors_text sels s -> gap g1 -> body_text items b -> gap g2 ->
    rule_text (Rule _ sels items) (g0 ++ s ++ g1 ++ str "{" ++ b ++ g2 ++ str "}")
with body_text : list item -> text -> Prop :=
| b_nil : body_text [] []
| b_last : forall d g t, gap g -> declaration_text d t -> body_text [IDecl _ d] (g ++ t)
| b_declaration : forall d g t l u, gap g -> declaration_text d t -> body_text l u -> body_text (IDecl _ d :: l) (g ++ t ++ str ";" ++ u)
| b_unknown : forall n g t l u, gap g -> unknown_text n t -> body_text l u -> body_text (IDecl _ (DUnknown _ n) :: l) (g ++ t ++ str ";" ++ u)
| b_nested : forall r t l u, rule_text r t -> body_text l u -> body_text (INested _ r :: l) (t ++ u).
Inductive sheet_text : list rule -> text -> Prop :=
| sh_end : forall g, gap g -> sheet_text [] g
| sh_rule : forall r t l u, rule_text r t -> sheet_text l u -> sheet_text (r :: l) (t ++ u).

End Syntax.
