(** Model of the colours widgets are shown in: what a widget is told of the
    colours behind it (crates/textual/src/style_resolver.rs), what it paints
    (crates/tcss/src/types/mod.rs, widget/static_widget.rs, widget/placeholder.rs,
    render_cache.rs) and what becomes of that in a cell (canvas.rs).

    Only the parts of a style that decide colours are kept.  A widget is taken
    to fill its region once with its background, as [Static] and the containers
    do through their [RenderCache]; borders are modelled for their colour only.
    [rnd] is the rounding of [f32], [rnd64] that of [f64] arithmetic. *)
From Coq Require Import ZArith QArith List Bool.
From Verif Require Import Text_Model Float32_Model Colour_Model Snapshot_Model.
Import ListNotations.
Open Scope Z_scope.

(** tcss types/mod.rs [ComputedStyle]: color, auto_color, background,
    background_tint and opacity *)
Record look := Look { k_color : option rgba; k_auto : bool; k_bg : option rgba; k_tint : option rgba; k_opacity : Q }.
(** style_resolver.rs:10-20 [InheritedContext], without visibility *)
Record told := Told { t_color : option rgba; t_auto : bool; t_bg : option rgba }.
(** style_resolver.rs:24-34 [from_theme] *)
Definition at_root (foreground : option rgba) : told := Told foreground false None.

(** color.rs:269-271 [is_transparent] *)
Definition is_transparent (c : rgba) : bool := Qle_bool (c_a c) 0.
(** [c.a < 1.0] *)
Definition translucent (c : rgba) : bool := negb (Qle_bool 1 (c_a c)).
(** [RgbaColor::black] *)
Definition black : rgba := rgb_of 0 0 0.

Section Shown.
Variables rnd rnd64 : Q -> Q.

(** style_resolver.rs:139-146 [apply_inheritance]; the background told is kept
    beside the style here, as [inherited_background] in the code *)
Definition inherit (k : look) (t : told) : look :=
  match k_color k with
  | Some _ => k
  | None => match t_color t with
            | Some _ => Look (t_color t) (t_auto t) (k_bg k) (k_tint k) (k_opacity k)
            | None => k
            end
  end.
(** [match tint { Some(t) => c.tint(t), None => c }] *)
Definition tinted (c : rgba) (by_ : option rgba) : rgba := match by_ with Some o => tint rnd c o | None => c end.
(** style_resolver.rs:176-196 [compute_effective_background] *)
Definition bg_for_children (k : look) (t : told) : option rgba :=
  match k_bg k, t_bg t with
  | Some bg, Some parent =>
      if translucent bg then Some (tinted (blend_over rnd bg parent) (k_tint k)) else Some (tinted bg (k_tint k))
  | Some bg, None => Some (tinted bg (k_tint k))
  | None, _ => t_bg t
  end.
(** style_resolver.rs:157-171 [build_inherited_context] *)
Definition tell (k : look) (t : told) : told := let k := inherit k t in Told (k_color k) (k_auto k) (bg_for_children k t).

(** types/mod.rs:309-337 [effective_background] *)
Definition own_background (k : look) (t : told) : option rgba :=
  if match k_bg k with Some bg => is_transparent bg | None => false end then None
  else
    let base := match k_bg k with Some bg => Some (tinted bg (k_tint k)) | None => t_bg t end in
    let effective := rnd64 (k_opacity k * k_opacity k)%Q in
    match base, t_bg t with
    | Some bg, Some inherited => if negb (Qle_bool 1 (k_opacity k)) then Some (blend_toward rnd bg inherited effective) else base
    | _, _ => base
    end.

(** [match inherited { Some(bg) => c.blend_toward(bg, o), None => c.with_opacity(o) }] *)
Definition faded (c : rgba) (t : told) (o : Q) : rgba :=
  match t_bg t with Some bg => blend_toward rnd c bg o | None => with_opacity rnd c o end.
(** static_widget.rs:252-282 and placeholder.rs:291-312: the colour of text,
    given the background the widget takes itself to have *)
Definition text_colour (k : look) (t : told) (bg : option rgba) : option rgba :=
  let k := inherit k t in
  if k_auto k then
    match bg with
    | Some bg =>
        let ratio := match k_color k with Some c => c_a c | None => 1%Q end in
        Some (faded (contrasting rnd bg ratio) t (k_opacity k))
    | None => None
    end
  else
    match k_color k, t_bg t with
    | Some c, _ => Some (faded c t (k_opacity k))
    | None, Some bg => if negb (Qle_bool 1 (k_opacity k)) then Some (blend_toward rnd (rgba_of 255 255 255 1) bg (k_opacity k)) else None
    | None, None => None
    end.
(** static_widget.rs:245-294 [rendering_style]: text and background *)
Definition static_colours (k : look) (t : told) : option rgba * option rgba :=
  let bg := own_background k t in (text_colour k t bg, bg).

(** placeholder.rs:274-288 [effective_background], [overlay] being the half
    transparent colour of its palette *)
Definition placeholder_background (overlay : rgba) (k : look) (t : told) : rgba :=
  match k_bg k with
  | Some own => match own_background k t with Some bg => bg | None => own end
  | None => match t_bg t with Some bg => blend_over rnd overlay bg | None => overlay end
  end.
(** placeholder.rs:352-355 *)
Definition placeholder_colours (overlay : rgba) (k : look) (t : told) : rgba * rgba :=
  let bg := placeholder_background overlay k t in
  (match text_colour k t (Some bg) with Some fg => fg | None => rgb_of 255 255 255 end, bg).

(** render_cache.rs:87-95: the colour of an edge, [edge] being the border's own *)
Definition edge_colour (edge : option rgba) (k : look) (t : told) : option rgba :=
  let k := inherit k t in
  let effective := rnd64 (k_opacity k * k_opacity k)%Q in
  match (match edge with Some c => Some c | None => k_color k end) with
  | Some c => Some (faded c t effective)
  | None => None
  end.
(** container.rs:694-716, static_widget.rs:569-591: the colour of a title,
    [title] and [edge] being the title's and the border's own *)
Definition title_colour (title edge : option rgba) (k : look) (t : told) : option rgba :=
  let k := inherit k t in
  match (match title with Some c => Some c | None => match edge with Some c => Some c | None => k_color k end end) with
  | Some c => Some (faded c t (k_opacity k))
  | None => None
  end.

(** canvas.rs:751-757 [to_crossterm_rgb] *)
Definition to_rgb (c : rgba) : rgb := Rgb (c_r c) (c_g c) (c_b c).
(** canvas.rs:734-749 [to_crossterm_color] *)
Definition cell_text_colour (c : rgba) : rgb :=
  if Qle_bool 1 (c_a c) then to_rgb c
  else
    let ch x := u8_round (rnd (inject_Z x * c_a c)%Q) in
    Rgb (ch (c_r c)) (ch (c_g c)) (ch (c_b c)).
(** canvas.rs:759-776 [resolve_background] *)
Definition cell_background (bg : option rgba) (existing : option rgb) : option rgb :=
  match bg with
  | Some bg =>
      if is_transparent bg then existing
      else
        let base := match existing with Some e => rgb_of (r_r e) (r_g e) (r_b e) | None => black end in
        Some (to_rgb (if translucent bg then blend_over rnd bg base else bg))
  | None => existing
  end.

(** A path of nested widgets, the outermost first: what the innermost tells its
    children, and the background of a cell inside all of them once they have
    been painted, each before its children.  *)
Fixpoint told_after (l : list look) (t : told) : told := match l with [] => t | k :: r => told_after r (tell k t) end.
Fixpoint painted (l : list look) (t : told) (cell : option rgb) : option rgb :=
  match l with [] => cell | k :: r => painted r (tell k t) (cell_background (own_background k t) cell) end.
(** The colours of a cell of text of a [Static] inside such a path; nothing is
    painted before the outermost (canvas.rs:554-565 [clear]). *)
Definition text_cell (l : list look) (foreground : option rgba) (k : look) : option rgb * option rgb :=
  let t := told_after l (at_root foreground) in
  let '(fg, bg) := static_colours k t in
  (option_map cell_text_colour fg, cell_background bg (painted l (at_root foreground) None)).
(** The same for a [Placeholder], which fills its region and then writes its
    text with the same background (placeholder.rs:357-362, 413-420). *)
Definition placeholder_cells (l : list look) (foreground : option rgba) (overlay : rgba) (k : look) : option rgb * (rgb * option rgb) :=
  let t := told_after l (at_root foreground) in
  let '(fg, bg) := placeholder_colours overlay k t in
  let filled := cell_background (Some bg) (painted l (at_root foreground) None) in
  (filled, (cell_text_colour fg, cell_background (Some bg) filled)).

End Shown.
