(** Model of crates/textual/src/style_resolver.rs: styles of a widget tree, in full
    and incrementally.

    The cascade ([compute_style] with the stylesheet and the theme, modelled in
    Css_Model) is a parameter, a function of the widget and its ancestors; so are
    colours with their mixing operations.  [set_style] followed by [get_style] is
    taken to give the style back (a tooltip, which overrides its position, is not
    modelled). *)
From Coq Require Import List Bool Arith.
Import ListNotations.

Section Restyle.
Variable M : Type.      (* WidgetMeta: type, id, classes and states *)
Variable C : Type.      (* RgbaColor *)
Variable Vis : Type.    (* Visibility *)
Variable R : Type.      (* the fields of ComputedStyle that are not named below *)

(** tcss/src/types/mod.rs:60-171 [ComputedStyle] *)
Record style := Style {
  s_color : option C; s_auto : bool; s_background : option C; s_tint : option C; s_btint : option C;
  s_behind : option C;     (* inherited_background *)
  s_visibility : Vis; s_visibility_set : bool; s_rest : R }.

(** tcss/src/types/mod.rs:177-186 [StyleOverride] *)
Record inline := Inline { i_tint : option C; i_btint : option C; i_background : option C; i_color : option C }.

(** style_resolver.rs:10-20 [InheritedContext] *)
Record inherited := Inherited { h_color : option C; h_auto : bool; h_background : option C; h_visibility : Vis }.

(** What the resolver sees of a widget.  [w_gathers]: [is_dirty] includes the
    children's and [mark_clean] cleans them too (app_widget.rs:112-128,
    scrollable.rs:830-843), otherwise both are about the own flag only
    (container.rs:1398-1410). *)
Record wdata := WData {
  w_meta : M; w_inline : option inline; w_visible : bool; w_flag : bool; w_gathers : bool; w_style : style }.
Inductive widget := W (d : wdata) (kids : list widget).
Definition data (w : widget) : wdata := let 'W d _ := w in d.
Definition kids (w : widget) : list widget := let 'W _ k := w in k.

(** [is_dirty] *)
Fixpoint is_dirty (w : widget) : bool :=
  match w with W d ks => w_flag d || (w_gathers d && existsb is_dirty ks) end.
Definition set_flag (b : bool) (d : wdata) : wdata :=
  WData (w_meta d) (w_inline d) (w_visible d) b (w_gathers d) (w_style d).
(** [mark_clean] *)
Fixpoint mark_clean (w : widget) : widget :=
  match w with W d ks => W (set_flag false d) (if w_gathers d then map mark_clean ks else ks) end.

Variable cascade : M -> list M -> style.      (* compute_style *)
Variable theme_color : option C.              (* the theme's foreground or text *)
Variable visible : Vis.                       (* Visibility::Visible *)
Variable see_through : C -> bool.             (* a < 1.0 *)
Variable over : C -> C -> C.                  (* blend_over *)
Variable tinted : C -> C -> C.                (* tint *)

(** style_resolver.rs:24-35 [from_theme] *)
Definition from_theme : inherited := Inherited theme_color false None visible.

(** style_resolver.rs:139-154 [apply_inheritance] *)
Definition apply_inheritance (s : style) (h : inherited) : style :=
  let '(c, a) := match s_color s, h_color h with
                 | None, Some c => (Some c, h_auto h)
                 | c, _ => (c, s_auto s)
                 end in
  Style c a (s_background s) (s_tint s) (s_btint s) (h_background h)
    (if s_visibility_set s then s_visibility s else h_visibility h) (s_visibility_set s) (s_rest s).

Definition or_else (a b : option C) : option C := match a with Some _ => a | None => b end.
(** tcss/src/types/mod.rs:221-234 [apply_to] *)
Definition apply_inline (i : inline) (s : style) : style :=
  Style (or_else (i_color i) (s_color s)) (s_auto s) (or_else (i_background i) (s_background s))
    (or_else (i_tint i) (s_tint s)) (or_else (i_btint i) (s_btint s)) (s_behind s)
    (s_visibility s) (s_visibility_set s) (s_rest s).

(** style_resolver.rs:176-196 [compute_effective_background] *)
Definition effective_background (s : style) (h : inherited) : option C :=
  match s_background s, h_background h with
  | Some bg, Some parent =>
      let base := if see_through bg then over bg parent else bg in
      match s_btint s with Some t => Some (tinted base t) | None => Some base end
  | Some bg, None => match s_btint s with Some t => Some (tinted bg t) | None => Some bg end
  | None, _ => h_background h
  end.
(** style_resolver.rs:157-171 [build_inherited_context] *)
Definition pass_on (s : style) (h : inherited) : inherited :=
  Inherited (s_color s) (s_auto s) (effective_background s h) (s_visibility s).

(** style_resolver.rs:84-107: the new style of a widget *)
Definition new_style (d : wdata) (ancestors : list M) (h : inherited) : style :=
  let s := apply_inheritance (cascade (w_meta d) ancestors) h in
  match w_inline d with Some i => apply_inline i s | None => s end.
Definition set_style (s : style) (d : wdata) : wdata :=
  WData (w_meta d) (w_inline d) (w_visible d) (w_flag d) (w_gathers d) s.

(** style_resolver.rs:68-136 [resolve_dirty_styles].  [cleaned] says that
    [mark_clean] has just been called on this widget by its parent: the code
    changes the children before it visits them, here the visit does it. *)
Fixpoint resolve (w : widget) (cleaned parent_dirty : bool) (ancestors : list M) (h : inherited) : widget :=
  if negb (w_visible (data w)) then (if cleaned then mark_clean w else w)
  else
    let dirty := negb cleaned && is_dirty w in
    let restyle := dirty || parent_dirty in
    match w with
    | W d ks =>
        let d' := if restyle then set_flag false (set_style (new_style d ancestors h) d)
                  else if cleaned then set_flag false d else d in
        let h' := pass_on (w_style d') h in
        W d' (map (fun k => resolve k (w_gathers d && (restyle || cleaned)) restyle (w_meta d :: ancestors) h') ks)
    end.

(** lib.rs:803-813: before a frame is drawn *)
Definition resolve_dirty (w : widget) : widget := resolve w false false [] from_theme.
(** style_resolver.rs:39-55 [resolve_styles]: at startup and after a recompose *)
Definition resolve_styles (w : widget) : widget := resolve w false true [] from_theme.

End Restyle.
