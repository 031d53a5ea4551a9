(** What it takes for an event to reach the widget one sees under the pointer. *)
From Coq Require Import ZArith List Bool.
From Verif Require Import Scroll_Model Bars_Model Pointer_Model.
Import ListNotations.
Open Scope Z_scope.

(** Borders, paddings and bars have no negative sizes. *)
Definition sane (p : pane) : Prop :=
  0 <= p_left p /\ 0 <= p_top p /\ 0 <= p_right p /\ 0 <= p_bottom p /\
  0 <= b_size_v (p_bars p) /\ 0 <= b_size_h (p_bars p).
Definition bare (p : pane) : Prop := p_left p = 0 /\ p_top p = 0 /\ p_right p = 0 /\ p_bottom p = 0.
(** Nothing is arranged by the size of the terminal (the units vw and vh), or
    the region is the terminal. *)
Definition same_view (p : pane) (r : area) (v : view) : Prop := forall c, p_place p c (view_of r) = p_place p c v.
(** It was drawn and has not been scrolled since. *)
Definition drawn (k : kind) (p : pane) (r : area) (v : view) : Prop := p_scroll p = d_scroll (draw k p r v).
(** At most one child at the point. *)
Definition apart (k : kind) (p : pane) (r : area) (v : view) (x y : Z) : Prop :=
  (length (filter (hit x y) (d_kids (draw k p r v))) <= 1)%nat.

(** A widget that covers no cell outside its region: containers clip their
    children, but a centred child may be larger than its parent. *)
Inductive snug : widget -> area -> Prop :=
| snug_leaf : forall r, snug Leaf r
| snug_app : forall b p kids r, Forall (fun w => snug w r) kids -> snug (Box (KApp b) p kids) r
| snug_centre : forall (vertical : bool) size seen p kids r,
    0 <= size <= (if vertical then a_h r else a_w r) ->
    (forall w, nth_error kids 0 = Some w -> snug w (centred vertical size r)) ->
    snug (Box (KCenter vertical size seen) p kids) r
| snug_box : forall k p kids r,
    match k with KContainer | KScrollable | KScreen | KGrid => True | _ => False end ->
    sane p -> snug (Box k p kids) r.

(** A container, grid, scrollable container or screen that looks for the
    pointer where it has drawn its children. *)
Definition looks_right (k : kind) (p : pane) (r : area) (v : view) (x y : Z) : Prop :=
  let d := draw k p r v in
  match k with
  | KContainer =>   (* no border or padding, no bars, not scrolled sideways *)
      bare p /\ d_clip d = r /\ offset_x (d_scroll d) = 0
  | KGrid => bare p
  | KScrollable =>  (* the bars are those it has made room for *)
      d_clip d = content_region (p_bars p) (inner p r) (d_v d) (d_h d)
  | KScreen =>      (* likewise; the point is not in a gutter, and docked children are not scrolled away *)
      (d_v d = needed (b_over_y (p_bars p)) (snd (p_extent p (inner p r) (p_place p (inner p r) v))) (a_h (inner p r)) /\
       d_h d = needed (b_over_x (p_bars p)) (fst (p_extent p (inner p r) (p_place p (inner p r) v))) (a_w (inner p r))) /\
      (contains_point (inner p r) x y = true -> contains_point (d_clip d) x y = true) /\
      ((offset_x (d_scroll d) = 0 /\ offset_y (d_scroll d) = 0) \/
       forall q, In q (d_kids d) -> p_fixed p (fst q) = false)
  | _ => False
  end.

Inductive fair (v : view) (x y : Z) : widget -> area -> Prop :=
| fair_leaf : forall r, fair v x y Leaf r
| fair_app : forall b p kids r,
    (forall i, b i = false) -> Forall (fun w => fair v x y w r) kids -> fair v x y (Box (KApp b) p kids) r
| fair_centre : forall (vertical : bool) size seen p kids r,
    (forall w, nth_error kids 0 = Some w -> fair v x y w (centred vertical size r)) ->
    fair v x y (Box (KCenter vertical size seen) p kids) r
| fair_box : forall k p kids r,
    sane p -> same_view p r v -> drawn k p r v -> apart k p r v x y -> looks_right k p r v x y ->
    (forall i rg w, In (i, rg) (d_kids (draw k p r v)) -> nth_error kids i = Some w ->
       snug w rg /\ (contains_point rg x y = true -> fair v x y w rg)) ->
    fair v x y (Box k p kids) r.

(** The leaf seen at a cell is the last one painted there. *)
Definition seen_at (x y : Z) (n : widget) (r : area) (v : view) : option call :=
  hd_error (rev (painted x y n [] r v)).
(** The leaf that is handed the event before any other. *)
Definition first_asked (x y : Z) (answers : list nat -> bool) (press : bool) (n : widget) (r : area) : option call :=
  hd_error (fst (asked x y answers press n [] r)).
