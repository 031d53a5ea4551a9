(** Model of how widgets are drawn at the screen's cells and how the pointer's
    events find their way to them:
    crates/textual/src/containers/container.rs [render], [on_mouse],
    containers/scrollable.rs [render], [on_mouse], containers/grid.rs and
    containers/item_grid.rs [render], [on_mouse], containers.rs ([Center],
    [Middle]), widget/screen.rs [render], [on_mouse], [dispatch_mouse_to_children]
    and widget/app_widget.rs [render], [on_mouse].

    A tree of widgets is drawn at a region on a terminal of a given size.  What
    is kept of drawing is where each leaf widget (one without children of its
    own, such as a button or a text) is drawn and which cells it covers; what is
    kept of an event is the leaves it is handed to, and the regions they are
    told.  Events are presses, releases, drags and moves; the wheel, which
    scrolls containers, is modelled in Bars_Model.  No scrollbar is being
    dragged.  How children are arranged is a parameter ([p_place], modelled in
    Arrange_Model); the cache that containers keep of it is modelled in
    Cached_Model.  [on_mouse_with_sender] repeats [on_mouse]; whom it
    names is modelled in Sender_Model. *)
From Coq Require Import ZArith List Bool.
From Verif Require Import Scroll_Model Bars_Model.
Import ListNotations.
Open Scope Z_scope.

(** layouts/mod.rs:79-93 [Viewport], and the one made of a region *)
Record view := View { vw_w : Z; vw_h : Z }.
Definition view_of (r : area) : view := View (a_w r) (a_h r).

(** A child and its region: layouts/mod.rs [WidgetPlacement] *)
Definition placement := (nat * area)%type.

(** What a container knows when it draws and when it gets an event. *)
Record pane := Pane {
  p_left : Z; p_top : Z; p_right : Z; p_bottom : Z;   (* border and padding *)
  p_place : area -> view -> list placement;           (* the arrangement of the children *)
  p_extent : area -> list placement -> Z * Z;         (* the width and height they need *)
  p_bars : bars;
  p_scroll : scroll;
  p_fixed : nat -> bool                               (* docked or absolute children *)
}.

(** render_cache.rs:262-277 [inner_size] and containers.rs:50-80 [inner_region_for_container],
    container.rs:798-808, scrollable.rs:105-125 *)
Definition inner (p : pane) (r : area) : area :=
  if (a_w r <=? 0) || (a_h r <=? 0) then r
  else Area (a_x r + p_left p) (a_y r + p_top p)
            (Z.max (a_w r - p_left p - p_right p) 0) (Z.max (a_h r - p_top p - p_bottom p) 0).

Definition shift (dx dy : Z) (q : placement) : placement :=
  (fst q, Area (a_x (snd q) - dx) (a_y (snd q) - dy) (a_w (snd q)) (a_h (snd q))).

(** container.rs:199-220, screen.rs:250-264 *)
Definition shows_v (st : bars) (s : scroll) : bool :=
  match b_over_y st with OScroll => true | OAuto => can_scroll_y s | OHidden => false end.
Definition shows_h (st : bars) (s : scroll) : bool :=
  match b_over_x st with OScroll => true | OAuto => can_scroll_x s | OHidden => false end.

(** What a container draws: the cells its children may cover, the children and
    their regions in drawing order, its scroll state afterwards and the bars. *)
Record drawing := Drawing { d_clip : area; d_kids : list placement; d_scroll : scroll; d_v : bool; d_h : bool }.

(** container.rs:237-257 [content_region_for_scroll] *)
Definition container_content (p : pane) (s : scroll) (r : area) : area :=
  let st := p_bars p in
  let v := if shows_v st s || b_stable st then b_size_v st else 0 in
  let h := if shows_h st s || b_stable st then b_size_h st else 0 in
  Area (a_x r) (a_y r) (Z.max (a_w r - v) 0) (Z.max (a_h r - h) 0).
(** container.rs:810-934 *)
Definition draw_container (p : pane) (r : area) (v : view) : drawing :=
  let i := inner p r in
  let first := p_place p i v in
  let (ew, eh) := p_extent p i first in
  let s1 := set_viewport (set_virtual_size (p_scroll p) ew eh) (a_w i) (a_h i) in
  let c := container_content p s1 i in
  let '(kids, s2) :=
    if shows_v (p_bars p) s1 && (a_w c <? a_w i) then
      let again := p_place p c v in
      let (ew, eh) := p_extent p c again in
      (again, set_viewport (set_virtual_size s1 ew eh) (a_w c) (a_h c))
    else (first, s1) in
  Drawing c (map (shift (offset_x s2) (offset_y s2)) kids) s2 (shows_v (p_bars p) s2) (shows_h (p_bars p) s2).

(** scrollable.rs:495-548 and 691-757; the placements are those of the content
    region of the last pass *)
Definition scroll_layout (p : pane) (r : area) (v : view) : layout :=
  compute_layout (p_bars p) (fun c => p_extent p c (p_place p c v)) (inner p r).
Definition draw_scrollable (p : pane) (r : area) (v : view) : drawing :=
  let l := scroll_layout p r v in
  let s := record_layout (p_scroll p) l in
  Drawing (l_content l) (map (shift (offset_x s) (offset_y s)) (p_place p (l_content l) v)) s (l_v l) (l_h l).

(** screen.rs:516-547, 280-304: the region left by the bars *)
Definition screen_content (st : bars) (sv sh : bool) (r : area) : area := content_region st r sv sh.
(** screen.rs:497-594 *)
Definition draw_screen (p : pane) (r : area) (v : view) : drawing :=
  let i := inner p r in
  let st := p_bars p in
  let first := p_place p i v in
  let (ew, eh) := p_extent p i first in
  let sv := needed (b_over_y st) eh (a_h i) in
  let sh := needed (b_over_x st) ew (a_w i) in
  let c := screen_content st sv sh i in
  let again := sv && (a_w c <? a_w i) in
  let kids := if again then p_place p c v else first in
  let (fw, fh) := if again then p_extent p c kids else (ew, eh) in
  let s := set_viewport (set_virtual_size (p_scroll p) fw fh) (a_w c) (a_h c) in
  Drawing c (map (shift (offset_x s) (offset_y s)) kids) s (shows_v st s) (shows_h st s).

(** grid.rs:228-258, item_grid.rs:137-163: no scrolling *)
Definition draw_grid (p : pane) (r : area) (v : view) : drawing :=
  Drawing (inner p r) (p_place p (inner p r) v) (p_scroll p) false false.

(** The cells under the bars, which are drawn last: container.rs:944-991,
    scrollable.rs:744-803, screen.rs:596-655; a container draws no corner *)
Definition under_bars (corner : bool) (st : bars) (i : area) (d : drawing) (x y : Z) : bool :=
  (render_v st (d_v d) && contains_point (v_region st i (d_h d)) x y)
  || (render_h st (d_h d) && contains_point (h_region st i (d_v d)) x y)
  || (corner && render_v st (d_v d) && render_h st (d_h d) && contains_point (corner_region st i) x y).

(** container.rs:924-930 and the like: is any of the child in the content region? *)
Definition in_sight (c : area) (q : placement) : bool :=
  (a_x c <? a_x (snd q) + a_w (snd q)) && (a_x (snd q) <? a_x c + a_w c)
  && (a_y c <? a_y (snd q) + a_h (snd q)) && (a_y (snd q) <? a_y c + a_h c).

(** *** Trees of widgets *)
Inductive kind := KContainer | KScrollable | KScreen | KGrid
| KApp (blocks : nat -> bool)                     (* all children over the whole region *)
| KCenter (vertical : bool) (size : Z) (seen : bool).   (* [Center], [Middle]: the child's own size *)
Inductive widget := Leaf | Box (k : kind) (p : pane) (kids : list widget).

(** A leaf, by the path to it from the root, and the region it is given. *)
Definition call := (list nat * area)%type.

(** containers.rs:116-127 [centered_region] and 259-270 [middled_region] *)
Definition centred (vertical : bool) (size : Z) (r : area) : area :=
  if vertical then Area (a_x r) (a_y r + Z.quot (Z.max (a_h r - size) 0) 2) (a_w r) size
  else Area (a_x r + Z.quot (Z.max (a_w r - size) 0) 2) (a_y r) size (a_h r).

Definition draw (k : kind) (p : pane) (r : area) (v : view) : drawing :=
  match k with
  | KScrollable => draw_scrollable p r v
  | KScreen => draw_screen p r v
  | KGrid => draw_grid p r v
  | _ => draw_container p r v
  end.

Section Painting.
Variables x y : Z.
Definition painter := list nat -> area -> view -> list call.
Definition paint_kid (fs : list painter) (path : list nat) (v : view) (q : placement) : list call :=
  nth (fst q) fs (fun _ _ _ => []) (path ++ [fst q]) (snd q) v.
(** A container, scrollable container, screen or grid at [r]: the leaves that
    paint the cell [x], [y], in order; nothing if it lies outside the clip or
    under a bar.  A grid draws even the children that are out of sight. *)
Definition paint_box (k : kind) (p : pane) (fs : list painter) (path : list nat) (r : area) (v : view) : list call :=
  if (a_w r <=? 0) || (a_h r <=? 0) then []
  else
    let d := draw k p r v in
    let corner := match k with KContainer => false | _ => true end in
    if contains_point (d_clip d) x y && negb (under_bars corner (p_bars p) (inner p r) d x y) then
      flat_map (paint_kid fs path v)
        (match k with KGrid => d_kids d | _ => filter (in_sight (d_clip d)) (d_kids d) end)
    else [].
(** The leaves that paint the cell, in order: the last one is what is seen. *)
Fixpoint painted (n : widget) : painter :=
  match n with
  | Leaf => fun path r v => if contains_point r x y then [(path, r)] else []
  | Box k p kids =>
      let fs := map painted kids in
      match k with
      | KApp _ => fun path r v => flat_map (fun i => paint_kid fs path v (i, r)) (seq 0 (length kids))
      | KCenter vertical size seen => fun path r v =>
          if seen then paint_kid fs path v (0%nat, centred vertical size r) else []
      | _ => paint_box k p fs
      end
  end.
End Painting.

(** *** Events *)
Section Pointing.
Variables x y : Z.
(** Which leaves answer the event with a message. *)
Variable answers : list nat -> bool.
(** The leaves handed the event, in order, and whether the last one answered. *)
Definition asking := (list call * bool)%type.
Definition asker := list nat -> area -> asking.
(** [for child … { if let Some(msg) = child.on_mouse(…) { return Some(msg) } }] *)
Fixpoint in_turn (l : list asking) : asking :=
  match l with
  | [] => ([], false)
  | (c, true) :: _ => (c, true)
  | (c, false) :: t => let (c', b) := in_turn t in (c ++ c', b)
  end.
Definition ask_kid (fs : list asker) (path : list nat) (q : placement) : asking :=
  nth (fst q) fs (fun _ _ => ([], false)) (path ++ [fst q]) (snd q).
Definition hit (q : placement) : bool := contains_point (snd q) x y.
(** Only the first child at the point is asked. *)
Definition first_hit (fs : list asker) (path : list nat) (l : list placement) : asking :=
  match find hit l with Some q => ask_kid fs path q | None => ([], false) end.

(** container.rs:1445-1503 *)
Definition ask_container (p : pane) (fs : list asker) (path : list nat) (r : area) : asking :=
  if contains_point r x y then
    in_turn (map (ask_kid fs path) (filter hit (map (shift 0 (offset_y (p_scroll p))) (p_place p r (view_of r)))))
  else ([], false).
(** grid.rs:363-388, item_grid.rs:247-270 *)
Definition ask_grid (p : pane) (fs : list asker) (path : list nat) (r : area) : asking :=
  if contains_point r x y then
    in_turn (map (ask_kid fs path) (filter hit (p_place p r (view_of r))))
  else ([], false).
(** scrollable.rs:979-1133; [press] tells a press from a move, a drag and a release *)
Definition ask_scrollable (press : bool) (p : pane) (fs : list asker) (path : list nat) (r : area) : asking :=
  let l := scroll_layout p r (view_of r) in
  let i := inner p r in
  let s := record_layout (p_scroll p) l in
  let on_v := render_v (p_bars p) (l_v l) && contains_point (v_region (p_bars p) i (l_h l)) x y in
  let on_h := render_h (p_bars p) (l_h l) && contains_point (h_region (p_bars p) i (l_v l)) x y in
  if press && (on_v || on_h) then ([], false)
  else if contains_point (l_content l) x y then
    first_hit fs path (map (shift (offset_x s) (offset_y s)) (p_place p (l_content l) (view_of r)))
  else ([], false).
(** screen.rs:203-248 [dispatch_mouse_to_children]: docked and absolute children do not scroll *)
Definition screen_shift (p : pane) (s : scroll) (q : placement) : placement :=
  if p_fixed p (fst q) then q else shift (offset_x s) (offset_y s) q.
(** screen.rs:771-872 *)
Definition ask_screen (press : bool) (p : pane) (fs : list asker) (path : list nat) (r : area) : asking :=
  if contains_point r x y then
    let i := inner p r in
    let st := p_bars p in
    let sv := shows_v st (p_scroll p) in let sh := shows_h st (p_scroll p) in
    let c := screen_content st sv sh i in
    let on_v := render_v st sv && contains_point (v_region st i sh) x y in
    let on_h := render_h st sh && contains_point (h_region st i sv) x y in
    let region := if sv && (a_w c <? a_w i) then c else i in
    let s := set_viewport (p_scroll p) (a_w c) (a_h c) in
    if press && (on_v || on_h) then ([], false)
    else if contains_point region x y then
      first_hit fs path (map (screen_shift p s) (p_place p region (view_of r)))
    else ([], false)
  else ([], false).
(** app_widget.rs:167-178: the topmost child first; a blocking one keeps the
    event from those beneath *)
Fixpoint up_to_block (blocks : nat -> bool) (l : list nat) : list nat :=
  match l with [] => [] | i :: t => if blocks i then [i] else i :: up_to_block blocks t end.
Definition ask_app (blocks : nat -> bool) (n : nat) (fs : list asker) (path : list nat) (r : area) : asking :=
  in_turn (map (fun i => ask_kid fs path (i, r)) (up_to_block blocks (rev (seq 0 n)))).
(** containers.rs:199-205, 341-347 *)
Definition ask_centre (vertical : bool) (size : Z) (seen : bool) (fs : list asker) (path : list nat) (r : area) : asking :=
  if seen then ask_kid fs path (0%nat, centred vertical size r) else ([], false).
(** A leaf minds the event when the point is in the region it is told
    (static_widget.rs:954-961, button.rs:467-490, option_list.rs:338-352, …). *)
Fixpoint asked (press : bool) (n : widget) : asker :=
  match n with
  | Leaf => fun path r => if contains_point r x y then ([(path, r)], answers path) else ([], false)
  | Box k p kids =>
      let fs := map (asked press) kids in
      match k with
      | KContainer => ask_container p fs
      | KScrollable => ask_scrollable press p fs
      | KScreen => ask_screen press p fs
      | KGrid => ask_grid p fs
      | KApp blocks => ask_app blocks (length kids) fs
      | KCenter vertical size seen => ask_centre vertical size seen fs
      end
  end.
End Pointing.
