(** Model of crates/textual/src/scrollbar.rs and of the scrolling parts of
    crates/textual/src/containers/scrollable.rs.

    [rnd] is the rounding of f32 arithmetic (see Float32_Model); it is applied
    after every operation.  i32 is [Z] without overflow. *)
From Coq Require Import ZArith QArith Qround List Bool.
From Verif Require Import Float32_Model Scroll_Model.
Import ListNotations.
Open Scope Z_scope.

(** canvas.rs:42-47 [Region] *)
Record area := Area { a_x : Z; a_y : Z; a_w : Z; a_h : Z }.
(** canvas.rs:98-103 [contains_point], without saturation *)
Definition contains_point (r : area) (x y : Z) : bool :=
  (a_x r <=? x) && (x <? a_x r + a_w r) && (a_y r <=? y) && (y <? a_y r + a_h r).

Section Float.
Variable rnd : Q -> Q.
Notation "a +. b" := (rnd (a + b)%Q) (at level 50).
Notation "a -. b" := (rnd (a - b)%Q) (at level 50).
Notation "a *. b" := (rnd (a * b)%Q) (at level 40).
Notation "a /. b" := (rnd (a / b)%Q) (at level 40).
Notation f32 := inject_Z.

(** scrollbar.rs:117-118, 245-246, 337-338: the size of the thumb *)
Definition thumb_size (track : Z) (v w : Q) : Q := let bar_ratio := (v /. (f32 track))%Q in qmax (w /. bar_ratio) 1.
(** scrollbar.rs:120-121, 248-249, 340-341 *)
Definition thumb_position (track : Z) (v w p : Q) : Q := (((f32 track) -. thumb_size track v w) *. (p /. (v -. w)))%Q.
(** scrollbar.rs:321-345 [thumb_bounds] *)
Definition thumb_bounds (track : Z) (v w p : Q) : Z * Z :=
  let w := if Qle_bool v w then 0%Q else w in
  if Qle_bool w 0 || (track =? 0) || Qeq_bool v (f32 track) || Qle_bool v 0 then (0, 0)
  else let start := trunc (thumb_position track v w p) in
       (start, start + Qceiling (thumb_size track v w)).

(** *** scrollbar.rs:72-188, 200-316 [render_vertical], [render_horizontal]

    The colours are only told apart as those of the track and of the thumb. *)
Inductive colour := Track | Thumb.
(** One call of [Canvas::put_char]; no foreground is given for the track itself. *)
Record put := Put { pt_x : Z; pt_y : Z; pt_char : Z; pt_fg : option colour; pt_bg : colour }.
(** scrollbar.rs:20 [VERTICAL] and 24 [HORIZONTAL] *)
Definition vertical_glyphs : list Z := [9601; 9602; 9603; 9604; 9605; 9606; 9607; 32].
Definition horizontal_glyphs : list Z := [9609; 9610; 9611; 9612; 9613; 9614; 9615; 32].
Definition range (a b : Z) : list Z := map (fun i => a + Z.of_nat i) (seq 0 (Z.to_nat (b - a))).
(** Cells [from..to] along the bar, each across its whole thickness. *)
Definition stripe (vertical : bool) (r : area) (from upto : Z) (c : Z) (fg : option colour) (bg : colour) : list put :=
  flat_map (fun i => map (fun j => if vertical then Put (a_x r + j) (a_y r + i) c fg bg else Put (a_x r + i) (a_y r + j) c fg bg)
                         (range 0 (if vertical then a_w r else a_h r))) (range from upto).
(** scrollbar.rs:124-125 and 252-253: the thumb in eighths of a cell; where
    [v = w] the code divides by zero, but then [p = 0] and NaN is cast to 0, as here *)
Definition start8 (len : Z) (v w p : Q) : Z := trunc (thumb_position len v w p *. (f32 8)).
Definition end8 (len : Z) (v w p : Q) : Z := start8 len v w p + Qceiling (thumb_size len v w *. (f32 8)).
(** scrollbar.rs:127-187 and 255-315: the cells painted for a thumb from [s] to [e] *)
Definition paint_thumb (vertical : bool) (r : area) (s e : Z) : list put :=
  let len := if vertical then a_h r else a_w r in
  let glyphs := if vertical then vertical_glyphs else horizontal_glyphs in
  let s := Z.max s 0 in let e := Z.max e 0 in
  let si := s / 8 in let sb := s mod 8 in let ei := e / 8 in let eb := e mod 8 in
  stripe vertical r (Z.min (Z.max si 0) len) (Z.min (Z.max ei 0) len) 32 (Some Thumb) Thumb ++
  (if (0 <=? si) && (si <? len) then
     let c := nth (Z.to_nat (7 - sb)) glyphs 0 in
     if c =? 32 then []
     else if vertical then stripe vertical r si (si + 1) c (Some Thumb) Track
     else stripe vertical r si (si + 1) c (Some Track) Thumb
   else []) ++
  (if (0 <=? ei) && (ei <? len) then
     let c := nth (Z.to_nat (7 - eb)) glyphs 0 in
     if c =? 32 then []
     else if vertical then stripe vertical r ei (ei + 1) c (Some Track) Thumb
     else stripe vertical r ei (ei + 1) c (Some Thumb) Track
   else []).
Definition render_bar (vertical : bool) (r : area) (v w p : Q) (draw_thumb : bool) : list put :=
  if (a_h r <=? 0) || (a_w r <=? 0) then []
  else
    let len := if vertical then a_h r else a_w r in
    stripe vertical r 0 len 32 None Track ++
    (if negb draw_thumb || Qle_bool w 0 || Qle_bool v 0 || Qeq_bool v (f32 len) then []
     else paint_thumb vertical r (start8 len v w p) (end8 len v w p)).

(** *** Dragging: scrollable.rs:1531-1581 (and widget/scrollbar.rs:283-316) *)
Definition drag_position (track : Z) (v w : Z) (new_start : Z) : option Q :=
  let thumb := (((f32 w) /. (f32 v)) *. (f32 track))%Q in
  let track_range := ((f32 track) -. thumb)%Q in
  if (v =? 0) || Qle_bool track_range 0 then None   (* 0/0 and w/0 leave no positive range *)
  else Some (((f32 new_start) /. track_range) *. ((f32 v) -. (f32 w)))%Q.
(** scrollable.rs:27-31: [PAGE_SCROLL_RATIO] as an f32, and its use in 919, 927, 1454, 1461, 1514, 1522 *)
Definition page_amount (viewport : Z) : Z := trunc ((f32 viewport) *. rnd (9 # 10)).

(** *** Layout: scrollable.rs:183-344, 495-548 *)
Inductive overflow := OScroll | OAuto | OHidden.
Record bars := Bars { b_over_x : overflow; b_over_y : overflow; b_stable : bool; b_size_v : Z; b_size_h : Z; b_visible : bool }.
(** scrollable.rs:195-224 [content_region_with_flags] *)
Definition content_region (st : bars) (r : area) (sv sh : bool) : area :=
  let v := if sv || (b_stable st && match b_over_y st with OAuto => true | _ => false end) then b_size_v st else 0 in
  let h := if sh then b_size_h st else 0 in
  Area (a_x r) (a_y r) (Z.max (a_w r - v) 0) (Z.max (a_h r - h) 0).
(** scrollable.rs:232-250 [vertical_scrollbar_region_with_flags] *)
Definition v_region (st : bars) (r : area) (sh : bool) : area :=
  Area (a_x r + a_w r - b_size_v st) (a_y r) (b_size_v st) (Z.max (a_h r - if sh then b_size_h st else 0) 0).
(** scrollable.rs:258-276 [horizontal_scrollbar_region_with_flags] *)
Definition h_region (st : bars) (r : area) (sv : bool) : area :=
  Area (a_x r) (a_y r + a_h r - b_size_h st) (Z.max (a_w r - if sv then b_size_v st else 0) 0) (b_size_h st).
(** scrollable.rs:279-287 [corner_region] *)
Definition corner_region (st : bars) (r : area) : area :=
  Area (a_x r + a_w r - b_size_v st) (a_y r + a_h r - b_size_h st) (b_size_v st) (b_size_h st).

(** scrollable.rs:183-193: a bar is drawn and reacts when it is shown and visible *)
Definition render_v (st : bars) (sv : bool) : bool := sv && b_visible st && (0 <? b_size_v st).
Definition render_h (st : bars) (sh : bool) : bool := sh && b_visible st && (0 <? b_size_h st).

Definition needed (o : overflow) (virtual avail : Z) : bool :=
  match o with OScroll => true | OAuto => avail <? virtual | OHidden => false end.
(** The outcome of [compute_scroll_layout]. *)
Record layout := Layout { l_content : area; l_vw : Z; l_vh : Z; l_v : bool; l_h : bool }.
(** scrollable.rs:503-532: the loop; [measure] arranges the children in a region
    and reports the extent of their placements (scrollable.rs:289-344) *)
Fixpoint settle (n : nat) (st : bars) (measure : area -> Z * Z) (inner : area) (last : layout) : layout :=
  match n with
  | O => last
  | S k =>
      let c := content_region st inner (l_v last) (l_h last) in
      let (vw, vh) := measure c in
      let nh := needed (b_over_x st) vw (a_w c) in
      let nv := needed (b_over_y st) vh (a_h c) in
      if Bool.eqb nh (l_h last) && Bool.eqb nv (l_v last) then Layout c vw vh (l_v last) (l_h last)
      else settle k st measure inner (Layout c vw vh nv nh)
  end.
Definition compute_layout (st : bars) (measure : area -> Z * Z) (inner : area) : layout :=
  settle 3 st measure inner (Layout inner 0 0 false false).

(** *** Events: scrollable.rs:898-1177, 1433-1581 *)
Record scroller := Scroller { s_scroll : scroll; s_hover : option bool; s_drag : option (bool * Z) }.
Inductive key := KUp | KDown | KLeft | KRight | KPageUp | KPageDown | KHome | KEnd | KOther.
Inductive wheel := WUp | WDown | WLeft | WRight.
Inductive event :=
| EKey (k : key)
| EWheel (d : wheel) (shifted : bool)     (* shift or control held *)
| EPress (x y : Z) | EMove (x y : Z) (button : bool) | ERelease
| ERelayout.                              (* the container is drawn *)

Definition allows (o : overflow) : bool := match o with OHidden => false | _ => true end.
(** scrollable.rs:534-538: a layout is recorded in the scroll state *)
Definition record_layout (s : scroll) (l : layout) : scroll :=
  set_viewport (set_virtual_size s (l_vw l) (l_vh l)) (a_w (l_content l)) (a_h (l_content l)).
Definition with_scroll (s : scroller) (x : scroll) : scroller := Scroller x (s_hover s) (s_drag s).
(** scrollable.rs:898-966 [on_event], the scroll keys *)
Definition on_key (st : bars) (s : scroll) (k : key) : option scroll :=
  let ay := allows (b_over_y st) in let ax := allows (b_over_x st) in
  match k with
  | KUp => Some (if ay then scroll_up s 1 else s)
  | KDown => Some (if ay then scroll_down s 1 else s)
  | KLeft => Some (if ax then scroll_left s 1 else s)
  | KRight => Some (if ax then scroll_right s 1 else s)
  | KPageUp => Some (if ay then scroll_up s (page_amount (viewport_height s)) else s)
  | KPageDown => Some (if ay then scroll_down s (page_amount (viewport_height s)) else s)
  | KHome => if ay || ax then scroll_to s (if ax then Some 0%Q else None) (if ay then Some 0%Q else None) else Some s
  | KEnd => if ay || ax then scroll_to s (if ax then Some (rnd (f32 (max_scroll_x s))) else None)
                                        (if ay then Some (rnd (f32 (max_scroll_y s))) else None) else Some s
  | KOther => Some s
  end.
(** scrollable.rs:1135-1176: the wheel *)
Definition on_wheel (st : bars) (s : scroll) (d : wheel) (shifted : bool) : scroll :=
  let ay := allows (b_over_y st) in let ax := allows (b_over_x st) in
  match d with
  | WDown => if shifted then (if ax then scroll_right s 1 else s) else if ay then scroll_down s 1 else s
  | WUp => if shifted then (if ax then scroll_left s 1 else s) else if ay then scroll_up s 1 else s
  | WLeft => if ax then scroll_left s 1 else s
  | WRight => if ax then scroll_right s 1 else s
  end.
(** scrollable.rs:1433-1528 [handle_vertical_scrollbar_click], [handle_horizontal_scrollbar_click] *)
Definition on_bar (vertical : bool) (s : scroller) (pos track : Z) : scroller :=
  let c := s_scroll s in
  let (ts, te) := if vertical then thumb_bounds track (f32 (virtual_height c)) (f32 (viewport_height c)) (f32 (offset_y c))
                  else thumb_bounds track (f32 (virtual_width c)) (f32 (viewport_width c)) (f32 (offset_x c)) in
  if (ts <=? pos) && (pos <? te) then Scroller c (s_hover s) (Some (vertical, pos - ts))
  else if pos <? ts then with_scroll s (if vertical then scroll_up c (page_amount (viewport_height c)) else scroll_left c (page_amount (viewport_width c)))
  else with_scroll s (if vertical then scroll_down c (page_amount (viewport_height c)) else scroll_right c (page_amount (viewport_width c))).
(** scrollable.rs:137-171: whether a bar is shown, from the scroll state *)
Definition show_v (st : bars) (s : scroll) : bool :=
  match b_over_y st with OScroll => true | OHidden => false
  | OAuto => if viewport_height s <=? 0 then false else viewport_height s <? virtual_height s end.
Definition show_h (st : bars) (s : scroll) : bool :=
  match b_over_x st with OScroll => true | OHidden => false
  | OAuto => if viewport_width s <=? 0 then false else viewport_width s <? virtual_width s end.
(** scrollable.rs:1531-1581 [handle_scrollbar_drag] *)
Definition on_drag (st : bars) (inner : area) (s : scroll) (vertical : bool) (grab x y : Z) : option scroll :=
  if vertical then
    let r := v_region st inner (show_h st s) in
    match drag_position (a_h r) (virtual_height s) (viewport_height s) (y - a_y r - grab) with
    | Some p => scroll_to s None (Some p) | None => Some s end
  else
    let r := h_region st inner (show_v st s) in
    match drag_position (a_w r) (virtual_width s) (viewport_width s) (x - a_x r - grab) with
    | Some p => scroll_to s (Some p) None | None => Some s end.
(** scrollable.rs:979-1177 [on_mouse], once the children are laid out as [l];
    events for the children are left out *)
Definition on_mouse (st : bars) (inner : area) (l : layout) (s : scroller) (e : event) : option scroller :=
  let s := with_scroll s (record_layout (s_scroll s) l) in
  let vr := v_region st inner (l_h l) in let hr := h_region st inner (l_v l) in
  let on_v x y := render_v st (l_v l) && contains_point vr x y in
  let on_h x y := render_h st (l_h l) && contains_point hr x y in
  match e with
  | EWheel d shifted => Some (with_scroll s (on_wheel st (s_scroll s) d shifted))
  | EPress x y =>
      Some (if on_v x y then on_bar true s (y - a_y vr) (a_h vr)
            else if on_h x y then on_bar false s (x - a_x hr) (a_w hr) else s)
  | EMove x y button =>
      match s_drag s with
      | Some (vertical, grab) => option_map (with_scroll s) (on_drag st inner (s_scroll s) vertical grab x y)
      | None => Some (if button then s
                      else Scroller (s_scroll s) (if on_v x y then Some true else if on_h x y then Some false else None) None)
      end
  | ERelease => Some (Scroller (s_scroll s) (s_hover s) None)
  | _ => Some s
  end.
(** scrollable.rs:898-977 [on_event] and [on_mouse]: every mouse event lays the
    children out again, a key does not *)
Definition on_scroll_event (st : bars) (measure : area -> Z * Z) (inner : area) (s : scroller) (e : event) : option scroller :=
  match e with
  | EKey k => option_map (with_scroll s) (on_key st (s_scroll s) k)
  | _ => on_mouse st inner (compute_layout st measure inner) s e
  end.
End Float.
