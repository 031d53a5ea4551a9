(** Specification of what declarations give: the table of properties and values. *)
From Coq Require Import String ZArith List Bool Arith Sorted.
From Verif Require Import Text_Model Css_Model Css_Spec.
Import ListNotations.
Local Open Scope nat_scope.
Local Open Scope list_scope.

Section Values.
Context {V : Type}.
Variables (theme_color theme_edge theme_style theme_hatch theme_keyline auto_flag : V -> V) (v_true : V)
  (sp_top sp_right sp_bottom sp_left size_h size_v : V -> V).
(** The properties a declaration is about and the value it gives each. *)
Definition gives (d : declaration V) : list (slot * V) :=
  match d with
  | DColor _ c => [(auto_color, auto_flag c); (color, theme_color c)]
  | DBackground _ c => [(background, theme_color c)]
  | DTint _ c => [(tint, theme_color c)]
  | DBackgroundTint _ c => [(background_tint, theme_color c)]
  | DWidth _ v => [(width, v)]
  | DHeight _ v => [(height, v)]
  | DMaxHeight _ v => [(max_height, v)]
  | DMaxWidth _ v => [(max_width, v)]
  | DMinHeight _ v => [(min_height, v)]
  | DMinWidth _ v => [(min_width, v)]
  | DMargin _ v => [(margin_top, sp_top v); (margin_right, sp_right v); (margin_bottom, sp_bottom v); (margin_left, sp_left v)]
  | DMarginTop _ v => [(margin_top, v)]
  | DMarginRight _ v => [(margin_right, v)]
  | DMarginBottom _ v => [(margin_bottom, v)]
  | DMarginLeft _ v => [(margin_left, v)]
  | DPadding _ v => [(padding_top, sp_top v); (padding_right, sp_right v); (padding_bottom, sp_bottom v); (padding_left, sp_left v)]
  | DPaddingTop _ v => [(padding_top, v)]
  | DPaddingRight _ v => [(padding_right, v)]
  | DPaddingBottom _ v => [(padding_bottom, v)]
  | DPaddingLeft _ v => [(padding_left, v)]
  | DBorder _ e => [(border_top, theme_edge e); (border_right, theme_edge e); (border_bottom, theme_edge e); (border_left, theme_edge e)]
  | DBorderTitleAlign _ a => [(border_title_align, a)]
  | DBorderSubtitleAlign _ a => [(border_subtitle_align, a)]
  | DBorderTitleColor _ c => [(border_title_color, theme_color c)]
  | DBorderSubtitleColor _ c => [(border_subtitle_color, theme_color c)]
  | DBorderTitleBackground _ c => [(border_title_background, theme_color c)]
  | DBorderSubtitleBackground _ c => [(border_subtitle_background, theme_color c)]
  | DBorderTitleStyle _ v => [(border_title_style, v)]
  | DBorderSubtitleStyle _ v => [(border_subtitle_style, v)]
  | DBorderTop _ e => [(border_top, theme_edge e)]
  | DBorderBottom _ e => [(border_bottom, theme_edge e)]
  | DBorderLeft _ e => [(border_left, theme_edge e)]
  | DBorderRight _ e => [(border_right, theme_edge e)]
  | DOutline _ e => [(outline_top, theme_edge e); (outline_right, theme_edge e); (outline_bottom, theme_edge e); (outline_left, theme_edge e)]
  | DOutlineTop _ e => [(outline_top, theme_edge e)]
  | DOutlineRight _ e => [(outline_right, theme_edge e)]
  | DOutlineBottom _ e => [(outline_bottom, theme_edge e)]
  | DOutlineLeft _ e => [(outline_left, theme_edge e)]
  | DScrollbarColor _ c => [(sb_color, theme_color c)]
  | DScrollbarColorHover _ c => [(sb_color_hover, theme_color c)]
  | DScrollbarColorActive _ c => [(sb_color_active, theme_color c)]
  | DScrollbarBackground _ c => [(sb_background, theme_color c)]
  | DScrollbarBackgroundHover _ c => [(sb_background_hover, theme_color c)]
  | DScrollbarBackgroundActive _ c => [(sb_background_active, theme_color c)]
  | DScrollbarCornerColor _ c => [(sb_corner_color, theme_color c)]
  | DScrollbarSize _ v => [(sb_size_horizontal, size_h v); (sb_size_vertical, size_v v)]
  | DScrollbarSizeHorizontal _ n => [(sb_size_horizontal, n)]
  | DScrollbarSizeVertical _ n => [(sb_size_vertical, n)]
  | DScrollbarGutter _ g => [(sb_gutter, g)]
  | DScrollbarVisibility _ v => [(sb_visibility, v)]
  | DBoxSizing _ b => [(box_sizing, b)]
  | DDisplay _ d => [(display, d)]
  | DVisibility _ v => [(visibility, v); (visibility_set, v_true)]
  | DOpacity _ o => [(opacity, o)]
  | DOverflow _ x y => [(overflow_x, x); (overflow_y, y)]
  | DOverflowX _ o => [(overflow_x, o)]
  | DOverflowY _ o => [(overflow_y, o)]
  | DLayout _ l => [(layout, l)]
  | DPosition _ p => [(position, p)]
  | DDock _ d => [(dock, d)]
  | DLayers _ l => [(layers, l)]
  | DLayer _ l => [(layer, l)]
  | DGridSize _ c r => [(grid_columns_count, c); (grid_rows_count, r)]
  | DGridColumns _ l => [(grid_column_widths, l)]
  | DGridRows _ l => [(grid_row_heights, l)]
  | DGridGutter _ v h => [(grid_gutter_v, v); (grid_gutter_h, (match h with Some x => x | None => v end))]
  | DColumnSpan _ n => [(column_span, n)]
  | DRowSpan _ n => [(row_span, n)]
  | DLinkColor _ c => [(link_color, theme_color c)]
  | DLinkColorHover _ c => [(link_color_hover, theme_color c)]
  | DLinkBackground _ c => [(link_background, theme_color c)]
  | DLinkBackgroundHover _ c => [(link_background_hover, theme_color c)]
  | DLinkStyle _ v => [(link_style, theme_style v)]
  | DLinkStyleHover _ v => [(link_style_hover, theme_style v)]
  | DTextAlign _ a => [(text_align, a)]
  | DTextOverflow _ o => [(text_overflow, o)]
  | DTextWrap _ w => [(text_wrap, w)]
  | DLinePad _ n => [(line_pad, n)]
  | DTextOpacity _ o => [(text_opacity, o)]
  | DTextStyle _ v => [(text_style, theme_style v)]
  | DContentAlignHorizontal _ a => [(content_align_horizontal, a)]
  | DContentAlignVertical _ a => [(content_align_vertical, a)]
  | DContentAlign _ h v => [(content_align_horizontal, h); (content_align_vertical, v)]
  | DAlignHorizontal _ a => [(align_horizontal, a)]
  | DAlignVertical _ a => [(align_vertical, a)]
  | DAlign _ h v => [(align_horizontal, h); (align_vertical, v)]
  | DHatch _ h => [(hatch, theme_hatch h)]
  | DKeyline _ k => [(keyline, theme_keyline k)]
  | DOffset _ x y => [(offset_x, x); (offset_y, y)]
  | DOffsetX _ x => [(offset_x, x)]
  | DOffsetY _ y => [(offset_y, y)]
  | DUnknown _ _ => []
  end.
End Values.
