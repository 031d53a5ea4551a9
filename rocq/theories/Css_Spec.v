(** Specification of selector matching, the cascade, nesting, comments and blocks. *)
From Coq Require Import String ZArith List Bool Arith.
From Verif Require Import Text_Model Css_Model.
Import ListNotations.
Local Open Scope nat_scope.

(** *** What a selector means *)

(** A chain is a widget followed by its ancestors, nearest first. *)
Definition chain := list meta.

(** A simple selector holds of a widget. *)
Definition type_names (w : meta) : list text := match m_types w with [] => [m_type w] | l => l end.
Definition pseudo_holds (c : ctx) (w : meta) (n : text) : Prop :=
  (n = str "focus" /\ ws_focus (m_states w) = true) \/
  (n = str "hover" /\ ws_hover (m_states w) = true) \/
  (n = str "active" /\ ws_active (m_states w) = true) \/
  (n = str "disabled" /\ ws_disabled (m_states w) = true) \/
  (n = str "dark" /\ c_dark c = true) \/
  (n = str "light" /\ c_dark c = false) \/
  (n = str "ansi" /\ c_ansi c = true) \/
  (n = str "nocolor" /\ c_nocolor c = true).
Definition holds (c : ctx) (w : meta) (s : selector) : Prop :=
  match s with
  | SType n => In n (type_names w)
  | SClass n => In n (m_classes w)
  | SId i => m_id w = Some i
  | SUniversal => True
  | SPseudo n => pseudo_holds c w n
  | SParent => False                 (* no meaning outside nesting *)
  | SAttr _ _ => False               (* widgets have no attributes *)
  end.

(** A compound holds of the head of a chain. *)
Definition head_holds (c : ctx) (k : compound) (ch : chain) : Prop :=
  match ch with [] => False | w :: _ => Forall (holds c w) k end.

(** [lower] is related to [upper] by a combinator: its parent's chain is [upper],
    or one of its ancestors' chains is.  Sibling combinators never hold. *)
Definition related (comb : combinator) (upper lower : chain) : Prop :=
  match comb with
  | CChild => exists x, lower = x :: upper
  | CDescendant | CNone => exists x between, lower = x :: between ++ upper
  | CAdjacent | CSibling => False
  end.

(** The chains reached from the set [from] by the remaining parts of a selector. *)
Fixpoint extends (c : ctx) (from : chain -> Prop) (comb : combinator) (rest : list part) : chain -> Prop :=
  match rest with
  | [] => from
  | (k, comb') :: r =>
      extends c (fun ch => head_holds c k ch /\ exists up, from up /\ related comb up ch) comb' r
  end.

(** CSS meaning of a complex selector, read from left to right. *)
Definition css (c : ctx) (sel : complex) (ch : chain) : Prop :=
  match sel with
  | [] => False
  | (k, comb) :: r => extends c (head_holds c k) comb r ch
  end.

(** CSS meaning of a nested selector: [&] in the first compound stands for an
    element matched by the parent; without it the nested selector applies to the
    descendants of such elements. *)
Definition nested_css (c : ctx) (parent : chain -> Prop) (child : complex) (ch : chain) : Prop :=
  match child with
  | [] => False
  | (k, comb) :: r =>
      if existsb is_parent k
      then extends c (fun x => parent x /\ head_holds c (filter (fun s => negb (is_parent s)) k) x) comb r ch
      else extends c (fun x => head_holds c k x /\ exists up, parent up /\ related CDescendant up x) comb r ch
  end.

(** No child combinator stands to the left of a descendant combinator. *)
Definition is_desc (comb : combinator) : bool := match comb with CDescendant | CNone => true | _ => false end.
Definition no_child_left_of_descendant (sel : complex) : Prop :=
  forall i j ki ci kj cj, i < j < length sel - 1 -> nth_error sel i = Some (ki, ci) -> nth_error sel j = Some (kj, cj) ->
    is_desc cj = true -> ci <> CChild.

(** *** Specificity *)
Definition count_if {A} (f : A -> bool) (l : list A) : nat := length (filter f l).
Definition is_id (s : selector) : bool := match s with SId _ => true | _ => false end.
Definition is_class_like (s : selector) : bool := match s with SClass _ | SPseudo _ | SAttr _ _ => true | _ => false end.
Definition is_type (s : selector) : bool := match s with SType _ => true | _ => false end.
Definition simple_selectors (sel : complex) : list selector := flat_map fst sel.
Definition spec_lt (a b : specificity) : Prop :=
  sp_ids a < sp_ids b \/
  (sp_ids a = sp_ids b /\ (sp_classes a < sp_classes b \/
    (sp_classes a = sp_classes b /\ sp_types a < sp_types b))).

(** *** Cascade *)
Section Cascade.
Context {V : Type}.
Variable apply_decl : (slot -> V) -> declaration V -> (slot -> V).

(** the declaration assigns [v] to a property, whatever it was before *)
Definition assigns (d : declaration V) (k : slot) (v : V) : Prop := forall s, apply_decl s d k = v.
(** the declaration does not change a property *)
Definition leaves (d : declaration V) (k : slot) : Prop := forall s, apply_decl s d k = s k.

(** [d] is declaration number [j] of rule number [i], which matches the widget
    through its first matching selector [sel] *)
Definition declared (c : ctx) (ch : chain) (rules : list (rule V)) (i j : nat) (sel : complex) (d : declaration V) : Prop :=
  exists r w anc, ch = w :: anc /\ nth_error rules i = Some r /\
    find (matches_complex c w anc) (r_sels V r) = Some sel /\
    nth_error (decls_of V (r_items V r)) j = Some d.

(** priority: specificity, then source order of the rule, then position in it *)
Definition lower_priority (s1 : specificity) (i1 j1 : nat) (s2 : specificity) (i2 j2 : nat) : Prop :=
  spec_lt s1 s2 \/ (s1 = s2 /\ (i1 < i2 \/ (i1 = i2 /\ j1 < j2))).
End Cascade.

(** The properties each declaration is about. *)
Definition properties_of {V} (d : declaration V) : list slot :=
  match d with
  | DColor _ _ => [color; auto_color]
  | DBackground _ _ => [background] | DTint _ _ => [tint] | DBackgroundTint _ _ => [background_tint]
  | DWidth _ _ => [width] | DHeight _ _ => [height] | DMaxHeight _ _ => [max_height] | DMaxWidth _ _ => [max_width]
  | DMinHeight _ _ => [min_height] | DMinWidth _ _ => [min_width]
  | DMargin _ _ => [margin_top; margin_right; margin_bottom; margin_left]
  | DMarginTop _ _ => [margin_top] | DMarginRight _ _ => [margin_right] | DMarginBottom _ _ => [margin_bottom] | DMarginLeft _ _ => [margin_left]
  | DPadding _ _ => [padding_top; padding_right; padding_bottom; padding_left]
  | DPaddingTop _ _ => [padding_top] | DPaddingRight _ _ => [padding_right] | DPaddingBottom _ _ => [padding_bottom] | DPaddingLeft _ _ => [padding_left]
  | DBorder _ _ => [border_top; border_right; border_bottom; border_left]
  | DScrollbarColor _ _ => [sb_color] | DScrollbarColorHover _ _ => [sb_color_hover] | DScrollbarColorActive _ _ => [sb_color_active]
  | DScrollbarBackground _ _ => [sb_background] | DScrollbarBackgroundHover _ _ => [sb_background_hover]
  | DScrollbarBackgroundActive _ _ => [sb_background_active] | DScrollbarCornerColor _ _ => [sb_corner_color]
  | DScrollbarSize _ _ => [sb_size_horizontal; sb_size_vertical]
  | DScrollbarSizeHorizontal _ _ => [sb_size_horizontal] | DScrollbarSizeVertical _ _ => [sb_size_vertical]
  | DScrollbarGutter _ _ => [sb_gutter] | DScrollbarVisibility _ _ => [sb_visibility]
  | DBoxSizing _ _ => [box_sizing] | DDisplay _ _ => [display] | DVisibility _ _ => [visibility; visibility_set] | DOpacity _ _ => [opacity]
  | DOverflowX _ _ => [overflow_x] | DOverflowY _ _ => [overflow_y] | DOverflow _ _ _ => [overflow_x; overflow_y]
  | DLayout _ _ => [layout] | DPosition _ _ => [position] | DDock _ _ => [dock] | DLayers _ _ => [layers] | DLayer _ _ => [layer]
  | DGridSize _ _ _ => [grid_columns_count; grid_rows_count] | DGridColumns _ _ => [grid_column_widths] | DGridRows _ _ => [grid_row_heights]
  | DGridGutter _ _ _ => [grid_gutter_v; grid_gutter_h] | DColumnSpan _ _ => [column_span] | DRowSpan _ _ => [row_span]
  | DLinkColor _ _ => [link_color] | DLinkColorHover _ _ => [link_color_hover] | DLinkBackground _ _ => [link_background]
  | DLinkBackgroundHover _ _ => [link_background_hover] | DLinkStyle _ _ => [link_style] | DLinkStyleHover _ _ => [link_style_hover]
  | DTextAlign _ _ => [text_align] | DTextOverflow _ _ => [text_overflow] | DTextWrap _ _ => [text_wrap] | DLinePad _ _ => [line_pad]
  | DTextOpacity _ _ => [text_opacity] | DTextStyle _ _ => [text_style]
  | DContentAlignHorizontal _ _ => [content_align_horizontal] | DContentAlignVertical _ _ => [content_align_vertical]
  | DContentAlign _ _ _ => [content_align_horizontal; content_align_vertical]
  | DAlignHorizontal _ _ => [align_horizontal] | DAlignVertical _ _ => [align_vertical] | DAlign _ _ _ => [align_horizontal; align_vertical]
  | DBorderTitleAlign _ _ => [border_title_align] | DBorderSubtitleAlign _ _ => [border_subtitle_align]
  | DBorderTitleColor _ _ => [border_title_color] | DBorderSubtitleColor _ _ => [border_subtitle_color]
  | DBorderTitleBackground _ _ => [border_title_background] | DBorderSubtitleBackground _ _ => [border_subtitle_background]
  | DBorderTitleStyle _ _ => [border_title_style] | DBorderSubtitleStyle _ _ => [border_subtitle_style]
  | DBorderTop _ _ => [border_top] | DBorderBottom _ _ => [border_bottom] | DBorderLeft _ _ => [border_left] | DBorderRight _ _ => [border_right]
  | DOutline _ _ => [outline_top; outline_right; outline_bottom; outline_left]
  | DOutlineTop _ _ => [outline_top] | DOutlineRight _ _ => [outline_right] | DOutlineBottom _ _ => [outline_bottom] | DOutlineLeft _ _ => [outline_left]
  | DHatch _ _ => [hatch] | DKeyline _ _ => [keyline]
  | DOffset _ _ _ => [offset_x; offset_y] | DOffsetX _ _ => [offset_x] | DOffsetY _ _ => [offset_y]
  | DUnknown _ _ => []
  end.

(** Text styles accumulate instead of being replaced. *)
Definition accumulates (k : slot) : bool :=
  match k with text_style | border_title_style | border_subtitle_style => true | _ => false end.

(** *** Nested rules *)

(** A selector as the parser produces it: non-empty, nothing after the last part. *)
Definition closed (sel : complex) : Prop := exists pre k, sel = pre ++ [(k, CNone)].

Section Nested.
Context {V : Type}.

Inductive well_formed : rule V -> Prop :=
| wf_rule : forall sels items, Forall closed sels -> (forall n, In (INested V n) items -> well_formed n) ->
    well_formed (Rule V sels items).

(** Declaration [d] somewhere in the rule tree applies to a chain, when the
    selectors of the root of the tree mean [M]. *)
Inductive declares (c : ctx) : (chain -> Prop) -> rule V -> declaration V -> chain -> Prop :=
| declares_own : forall (M : chain -> Prop) sels items d ch,
    In (IDecl V d) items -> M ch -> declares c M (Rule V sels items) d ch
| declares_nested : forall M sels items n d ch,
    In (INested V n) items ->
    declares c (fun x => exists child, In child (r_sels V n) /\ nested_css c M child x) n d ch ->
    declares c M (Rule V sels items) d ch.
End Nested.

(** *** Comments *)

Definition contains (t p : text) : Prop := exists a b, t = a ++ p ++ b.

(** Lexical structure of a stylesheet: ordinary characters, block comments that
    end at the first "*/", line comments that end at the newline; a block comment
    becomes a space, an unterminated comment extends to the end. *)
Inductive strips : text -> text -> Prop :=
| strips_end : strips [] []
| strips_final_slash : strips [c_slash] [c_slash]
| strips_char : forall c r o, c <> c_slash -> strips r o -> strips (c :: r) (c :: o)
| strips_slash : forall d r o, d <> c_star -> d <> c_slash -> strips (d :: r) o ->
    strips (c_slash :: d :: r) (c_slash :: o)
| strips_block : forall body r o, ~ contains (body ++ [c_star]) [c_star; c_slash] -> strips r o ->
    strips (c_slash :: c_star :: body ++ c_star :: c_slash :: r) (c_space :: o)
| strips_open_block : forall body, ~ contains body [c_star; c_slash] -> strips (c_slash :: c_star :: body) []
| strips_line : forall body r o, ~ In c_newline body -> strips r o ->
    strips (c_slash :: c_slash :: body ++ c_newline :: r) (c_newline :: o)
| strips_open_line : forall body, ~ In c_newline body -> strips (c_slash :: c_slash :: body) [].

Definition comment_free (t : text) : Prop :=
  ~ contains t [c_slash; c_star] /\ ~ contains t [c_slash; c_slash].

(** *** Blocks *)

Definition braces (c : char) (t : text) : nat := count_if (Z.eqb c) t.

(** A prefix that ends with a closing brace and has as many opening as closing ones. *)
Definition closed_block (p : text) : Prop :=
  (exists q, p = q ++ [c_rbrace]) /\ braces c_lbrace p = braces c_rbrace p.

Definition no_brace (t : text) : Prop := ~ In c_lbrace t /\ ~ In c_rbrace t.

(** Properly nested text. *)
Inductive nested : text -> Prop :=
| nested_nil : nested []
| nested_char : forall c t, c <> c_lbrace -> c <> c_rbrace -> nested t -> nested (c :: t)
| nested_block : forall a b, nested a -> nested b -> nested (c_lbrace :: a ++ c_rbrace :: b).
