(** Model of crates/textual/src/border_render.rs and of the line-by-line
    rendering in crates/textual/src/render_cache.rs.

    Text is as in Strip_Model: a list of grapheme clusters [G] with width [gw].
    The colours of borders are not computed here: the three rows of border
    segments are a parameter of the cache (see Paint_Model for [get_box]).
    usize is [nat] and [saturating_sub] is the subtraction of [nat]; the code's
    plain subtractions never go below zero (noted where they occur). *)
From Coq Require Import List Arith Bool.
From Verif Require Import Strip_Model.
Import ListNotations.

(** tcss/src/types/border.rs [BorderKind] *)
Inductive kind := KNone | KHidden | KAscii | KBlank | KBlock | KDashed | KDouble | KHeavy | KHkey | KInner | KOuter | KPanel
  | KRound | KSolid | KTall | KThick | KVkey | KWide.
(** top, right, bottom, left *)
Record edges (A : Type) := Edges { e_top : A; e_right : A; e_bottom : A; e_left : A }.
Arguments Edges {A}. Arguments e_top {A}. Arguments e_right {A}. Arguments e_bottom {A}. Arguments e_left {A}.

(** render_cache.rs:55-74 and 142-161: which edges show a line *)
Definition shown (k : kind) : bool := match k with KNone | KHidden => false | _ => true end.
Definition shown_h (k : kind) : bool := match k with KVkey => false | _ => shown k end.   (* top, bottom *)
Definition shown_v (k : kind) : bool := match k with KHkey => false | _ => shown k end.   (* left, right *)
Definition visible_edges (k : edges kind) : edges bool :=
  Edges (shown_h (e_top k)) (shown_v (e_right k)) (shown_h (e_bottom k)) (shown_v (e_left k)).
Definition any_edge (e : edges bool) : bool := e_top e || e_right e || e_bottom e || e_left e.
Definition b2n (b : bool) : nat := if b then 1 else 0.

Section Row.
Context {G St Mt : Type}.
Variable gw : G -> nat.
Variable meta_empty : Mt.
Variables space ellipsis dash : G.       (* ' ', '…', '─' *)
Variable st_default : St.                (* Style::default() *)
Notation segment := (@segment G St Mt).
Notation strip := (@strip G St Mt).
Notation new_seg := (segment_new gw meta_empty).
Notation blank_seg := (segment_blank meta_empty space).

(** border_box.rs:15 [BoxSegments]: left, fill, right *)
Definition box_row : Type := segment * segment * segment.

(** [fill.text().chars().next().unwrap_or(d)]; simplification: first cluster *)
Definition first_or (d : G) (s : segment) : G := match sg_text s with g :: _ => g | [] => d end.
(** border_render.rs:187-200 [repeat_segment] *)
Definition repeat_segment (fill : segment) (count : nat) : strip :=
  if count =? 0 then strip_new else from_segment (new_seg (repeat (first_or space fill) count) (sg_style fill)).
(** border_render.rs:203-215 [repeat_char_segment] *)
Definition repeat_char_segment (fill : segment) (count : nat) : segment :=
  if count =? 0 then new_seg [] None else new_seg (repeat (first_or space fill) count) (sg_style fill).

(** style of the first / last segment *)
Definition first_style (s : strip) : option St := match st_segs s with x :: _ => sg_style x | [] => None end.
Definition last_style (s : strip) : option St := first_style (Strip (rev (st_segs s)) 0).
Definition when_pos (n : nat) (x : segment) : list segment := if 0 <? n then [x] else [].

(** border_render.rs:139-155 and render_cache.rs:514-527: cells left and right
    of a label, one at least on the side it is aligned to *)
Definition label_padding (align : halign) (total : nat) : nat * nat :=
  match align with
  | HLeft => (1, total - 1)
  | HCenter => (total / 2, total - total / 2)
  | HRight => (total - 1, 1)
  end.

(** border_render.rs:82-184 [render_label_in_row]; [width - label_len] cannot
    underflow because then label_len <= width - 2 *)
Definition render_label_in_row (label : strip) (fill : segment) (width : nat) (align : halign) : strip :=
  let label_len := st_len label + 2 in
  let available := width - 2 in
  let sp := new_seg [space] (first_style label) in
  if available <? label_len then
    let cropped := crop gw label 0 (available - 3) in
    let used := 1 + 1 + st_len cropped + 1 + 1 in
    from_segments ([repeat_char_segment fill 1; sp] ++ st_segs cropped ++ [new_seg [ellipsis] (last_style cropped); sp]
      ++ when_pos (width - used) (repeat_char_segment fill (width - used)))
  else
    let '(l, r) := label_padding align (width - label_len) in
    from_segments (when_pos l (repeat_char_segment fill l) ++ [sp] ++ st_segs label ++ [sp] ++ when_pos r (repeat_char_segment fill r)).

(** border_render.rs:34-78 [render_row] *)
Definition render_row (row : box_row) (width : nat) (title subtitle : option strip) (title_align subtitle_align : halign) : strip :=
  let '(lft, fill, rgt) := row in
  if width <=? 2 then
    if width =? 2 then from_segments [lft; rgt] else if width =? 1 then from_segment lft else strip_new
  else
    let '(label, align) := match title with Some _ => (title, title_align) | None => (subtitle, subtitle_align) end in
    let middle := match label with Some l => render_label_in_row l fill (width - 2) align | None => repeat_segment fill (width - 2) end in
    from_segments ([lft] ++ st_segs middle ++ [rgt]).

(** render_cache.rs:21-47 [RenderCache]; [rc_pad_style] is [pad_style()] (634-639),
    [rc_box] the border box, used if some edge is visible (80-137) *)
Record cache := Cache {
  rc_border : edges bool; rc_box : box_row * box_row * box_row;
  rc_padding : edges nat;
  rc_outline : edges bool; rc_outline_box : box_row * box_row * box_row;
  rc_title_align : halign; rc_subtitle_align : halign; rc_pad_style : option St }.
(** render_cache.rs:51-219 [RenderCache::new] without the colours *)
Definition cache_new (border outline : edges kind) (padding : edges nat) (bx ox : box_row * box_row * box_row)
    (ta sa : halign) (pad : option St) : cache :=
  Cache (visible_edges border) bx padding (visible_edges outline) ox ta sa pad.

Section Lines.
Variable c : cache.
Definition has_border : bool := any_edge (rc_border c).
Definition has_outline : bool := any_edge (rc_outline c).
(** render_cache.rs:229-246 [border_top] ... *)
Definition border_top : nat := b2n (e_top (rc_border c)).
Definition border_right : nat := b2n (e_right (rc_border c)).
Definition border_bottom : nat := b2n (e_bottom (rc_border c)).
Definition border_left : nat := b2n (e_left (rc_border c)).
Definition pl : nat := e_left (rc_padding c).
Definition pr : nat := e_right (rc_padding c).

(** render_cache.rs:262-276 [inner_size] *)
Definition inner_size (width height : nat) : nat * nat :=
  (width - (border_left + border_right) - (pl + pr), height - (border_top + border_bottom) - (e_top (rc_padding c) + e_bottom (rc_padding c))).

(** the content or blanks, [w] cells wide: render_cache.rs:426-429, 586-589 *)
Definition content_or_blank (w : nat) (content : option strip) : strip :=
  match content with Some s => adjust_cell_length gw meta_empty space s w (rc_pad_style c) | None => strip_blank meta_empty space w (rc_pad_style c) end.

(** render_cache.rs:424-451 [render_content_row] *)
Definition render_content_row (width : nat) (content : option strip) : strip :=
  let s := content_or_blank (width - (pl + pr)) content in
  if (pl =? 0) && (pr =? 0) then s
  else from_segments (when_pos pl (blank_seg pl (rc_pad_style c)) ++ st_segs s ++ when_pos pr (blank_seg pr (rc_pad_style c))).

(** [style.unwrap_or_default()] *)
Definition or_default (s : option St) : option St := Some (match s with Some x => x | None => st_default end).

(** render_cache.rs:454-553 [render_horizontal_border_row]; [width - label_len]
    cannot underflow because label_len <= width - 2 *)
Definition render_horizontal_border_row (row : box_row) (width : nat) (label : option strip) (align : halign) : strip :=
  let '(_, fill, _) := row in
  let line n := new_seg (repeat (first_or dash fill) n) (or_default (sg_style fill)) in
  match label with
  | Some l =>
      let available := width - 2 in
      if available <? st_len l then
        let cropped := crop gw l 0 (available - 1) in
        let used := 1 + st_len cropped + 1 in
        from_segments ([line 1] ++ st_segs cropped ++ [new_seg [ellipsis] (or_default (last_style cropped))] ++ when_pos (width - used) (line (width - used)))
      else
        let '(lp, rp) := label_padding align (width - st_len l) in
        from_segments (when_pos lp (line lp) ++ st_segs l ++ when_pos rp (line rp))
  | None => from_segment (line width)
  end.

Definition when (b : bool) (x : segment) : list segment := if b then [x] else [].

(** render_cache.rs:556-602 [render_partial_middle_row] *)
Definition render_partial_middle_row (row : box_row) (content : option strip) (width : nat) : strip :=
  let '(lft, _, rgt) := row in
  let s := content_or_blank (width - (border_left + border_right) - (pl + pr)) content in
  from_segments (when (e_left (rc_border c)) lft ++ when_pos pl (blank_seg pl (rc_pad_style c)) ++ st_segs s
    ++ when_pos pr (blank_seg pr (rc_pad_style c)) ++ when (e_right (rc_border c)) rgt).

(** render_cache.rs:605-631 [render_labeled_middle_row] *)
Definition render_labeled_middle_row (row : box_row) (width : nat) (label : strip) (align : halign) : strip :=
  let '(lft, fill, rgt) := row in
  let middle := render_label_in_row label fill (width - (border_left + border_right)) align in
  from_segments (when (e_left (rc_border c)) lft ++ st_segs middle ++ when (e_right (rc_border c)) rgt).

(** render_cache.rs:657-706: the top or bottom row of an outline *)
Definition outline_edge (row : box_row) (width : nat) : strip :=
  let '(lft, fill, rgt) := row in
  let inner := width - b2n (e_left (rc_outline c)) - b2n (e_right (rc_outline c)) in
  from_segments (when (e_left (rc_outline c)) lft ++ when_pos inner (new_seg (repeat (first_or dash fill) inner) (or_default (sg_style fill)))
    ++ when (e_right (rc_outline c)) rgt).

(** render_cache.rs:645-733 [apply_outline] *)
Definition apply_outline (s : strip) (y height width : nat) : strip :=
  if negb has_outline || (width =? 0) || (height =? 0) then s
  else
    let '(top, middle, bottom) := rc_outline_box c in
    if (y =? 0) && e_top (rc_outline c) then outline_edge top width
    else if (y =? height - 1) && e_bottom (rc_outline c) then outline_edge bottom width
    else if e_left (rc_outline c) || e_right (rc_outline c) then
      let '(lft, _, rgt) := middle in
      let lw := b2n (e_left (rc_outline c)) in
      let rw := b2n (e_right (rc_outline c)) in
      let inner := width - (lw + rw) in
      let content := adjust_cell_length gw meta_empty space (crop gw s lw (lw + inner)) inner (rc_pad_style c) in
      from_segments (when (e_left (rc_outline c)) lft ++ st_segs content ++ when (e_right (rc_outline c)) rgt)
    else s.

(** render_cache.rs:388-405: the label a row inside the box shows, if any *)
Definition row_label (y height : nat) (title subtitle : option strip) : option (strip * halign) :=
  match (if negb (e_top (rc_border c)) && (y =? border_top) then title else None) with
  | Some t => Some (t, rc_title_align c)
  | None =>
      match (if negb (e_bottom (rc_border c)) && (y + 1 =? height - border_bottom) then subtitle else None) with
      | Some t => Some (t, rc_subtitle_align c)
      | None => None
      end
  end.

(** render_cache.rs:325-417: the row before the outline, and whether the code
    returns it at once (390-405).  [height - 1] and [height - bottom] cannot
    underflow because height > 0. *)
Definition base_row (y height width : nat) (content title subtitle : option strip) : strip * bool :=
  if negb has_border then (render_content_row width content, false)
  else
    let '(top, middle, bottom) := rc_box c in
    let corners := e_left (rc_border c) && e_right (rc_border c) in
    if (y =? 0) && e_top (rc_border c) then
      (if corners then render_row top width title None (rc_title_align c) (rc_subtitle_align c)
       else render_horizontal_border_row top width title (rc_title_align c), false)
    else if (y =? height - 1) && e_bottom (rc_border c) then
      (if corners then render_row bottom width None subtitle (rc_title_align c) (rc_subtitle_align c)
       else render_horizontal_border_row bottom width subtitle (rc_subtitle_align c), false)
    else if (border_top <=? y) && (y <? height - border_bottom) then
      if e_left (rc_border c) || e_right (rc_border c) then
        match row_label y height title subtitle with
        | Some (t, align) => (render_labeled_middle_row middle width t align, true)
        | None => (render_partial_middle_row middle content width, false)
        end
      else (render_content_row width content, false)
    else (strip_blank meta_empty space width (rc_pad_style c), false).

(** render_cache.rs:312-421 [render_line] *)
Definition render_line (y height width : nat) (content title subtitle : option strip) : strip :=
  if (width =? 0) || (height =? 0) then strip_new
  else
    let '(s, done) := base_row y height width content title subtitle in
    if done then s else apply_outline s y height width.
End Lines.

(** border_render.rs:220-267 [render_middle_row] *)
Definition render_middle_row (row : box_row) (content : option strip) (width : nat) (pad : option St) (padding_left padding_right : nat) : strip :=
  let '(lft, _, rgt) := row in
  if width <=? 2 then
    if width =? 2 then from_segments [lft; rgt] else if width =? 1 then from_segment lft else strip_new
  else
    let cw := width - 2 - (padding_left + padding_right) in
    let s := match content with Some s => adjust_cell_length gw meta_empty space s cw pad | None => strip_blank meta_empty space cw pad end in
    from_segments ([lft] ++ when_pos padding_left (blank_seg padding_left pad) ++ st_segs s ++ when_pos padding_right (blank_seg padding_right pad) ++ [rgt]).
End Row.
