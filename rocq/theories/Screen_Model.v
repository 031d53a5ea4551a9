(** Model of the screen, crates/textual/src/widget/screen.rs: the classes for the
    size of the terminal, the layout with its scroll bars, and scrolling with the
    mouse.

    The arrangement of the children is a parameter (modelled in Arrange_Model);
    the pointer's way to the children is modelled in Pointer_Model.  [rnd] is the
    rounding of f32 arithmetic as in Bars_Model.  i32 is [Z] without overflow. *)
From Coq Require Import String ZArith QArith Qround List Bool.
From Verif Require Import Text_Model Float32_Model Scroll_Model Bars_Model Pointer_Model.
Import ListNotations.
Open Scope Z_scope.

(** ** Classes *)

(** screen.rs:31 [Breakpoint] *)
Definition breakpoint := (Z * text)%type.
(** screen.rs:34, 37 *)
Definition default_horizontal : list breakpoint := [(0, str "-narrow"); (80, str "-wide")].
Definition default_vertical : list breakpoint := [(0, str "-short"); (24, str "-tall")].

(** [Iterator::last] *)
Fixpoint last_of {A} (l : list A) : option A :=
  match l with [] => None | [x] => Some x | _ :: r => last_of r end.
(** screen.rs:104-109: [filter(...).last()] *)
Definition matching (b : list breakpoint) (size : Z) : list text :=
  match last_of (filter (fun p => fst p <=? size) b) with Some (_, c) => [c] | None => [] end.

Definition texts_eqb (a b : list text) : bool := if list_eq_dec (list_eq_dec Z.eq_dec) a b then true else false.

(** screen.rs:50-64: the fields concerned *)
Record classes := Classes { c_list : list text; c_dirty : bool; c_hor : list breakpoint; c_ver : list breakpoint }.
(** screen.rs:68-81, 84-93 *)
Definition screen_new (hor ver : list breakpoint) : classes := Classes [] true hor ver.
(** screen.rs:99-127 [update_breakpoints], called by 663-664 [on_resize] *)
Definition resize (s : classes) (w h : Z) : classes :=
  let l := matching (c_hor s) w ++ matching (c_ver s) h in
  Classes l (if texts_eqb (c_list s) l then c_dirty s else true) (c_hor s) (c_ver s).
(** screen.rs:718-723 [mark_clean] *)
Definition clean (s : classes) : classes := Classes (c_list s) false (c_hor s) (c_ver s).

(** ** Layout *)

(** A placed child with its right and bottom margins *)
Record kid := Kid { k_area : area; k_right : Z; k_bottom : Z }.
(** screen.rs:154-201 [compute_virtual_size] (without [max_from_auto], which
    nobody reads) *)
Definition extend (base : area) (s : Z * Z) (k : kid) : Z * Z :=
  let w := (a_x (k_area k) - a_x base) + a_w (k_area k) + k_right k in
  let h := (a_y (k_area k) - a_y base) + a_h (k_area k) + k_bottom k in
  (if fst s <? w then w else fst s, if snd s <? h then h else snd s).
Definition virtual_size (base : area) (kids : list kid) : Z * Z := fold_left (extend base) kids (0, 0).

Section Layout.
Variable place : area -> list kid.

(** screen.rs:507-560 (of [render]); the kids and what is recorded of them *)
Definition screen_layout (st : bars) (inner : area) : list kid * layout :=
  let first := place inner in
  let (ew, eh) := virtual_size inner first in
  let sv := needed (b_over_y st) eh (a_h inner) in
  let sh := needed (b_over_x st) ew (a_w inner) in
  let c := content_region st inner sv sh in
  if sv && (a_w c <? a_w inner)
  then let kids := place c in let (fw, fh) := virtual_size c kids in (kids, Layout c fw fh sv sh)
  else (first, Layout c ew eh sv sh).
End Layout.

(** screen.rs:562-566: the scroll state after drawing is [record_layout]; the bars
    drawn, 597-598, are [render_v], [render_h] of [shows_v], [shows_h] of it. *)
Definition screen_draw (st : bars) (place : area -> list kid) (inner : area) (s : scroll) : scroll :=
  record_layout s (snd (screen_layout place st inner)).

(** ** Mouse *)
Section Float.
Variable rnd : Q -> Q.

(** screen.rs:436-487 [handle_scrollbar_drag] *)
Definition screen_drag (st : bars) (inner : area) (s : scroll) (vertical : bool) (grab x y : Z) : option scroll :=
  if vertical then
    let r := v_region st inner (shows_h st s) in
    match drag_position rnd (a_h r) (virtual_height s) (viewport_height s) (y - a_y r - grab) with
    | Some p => scroll_to s None (Some p) | None => Some s end
  else
    let r := h_region st inner (shows_v st s) in
    match drag_position rnd (a_w r) (virtual_width s) (viewport_width s) (x - a_x r - grab) with
    | Some p => scroll_to s (Some p) None | None => Some s end.

(** screen.rs:877-930, the wheel: three cells at a time *)
Definition screen_wheel (st : bars) (s : scroll) (d : wheel) (shifted : bool) : scroll :=
  let ay := shows_v st s in let ax := shows_h st s in
  match d with
  | WDown => if shifted then (if ax then scroll_right s 3 else s) else if ay then scroll_down s 3 else s
  | WUp => if shifted then (if ax then scroll_left s 3 else s) else if ay then scroll_up s 3 else s
  | WLeft => if ax then scroll_left s 3 else s
  | WRight => if ax then scroll_right s 3 else s
  end.

(** screen.rs:771-930 [on_mouse] for a pointer inside the screen; events for the
    children are left out, and a key (756-769) is only handed to them.
    [ERelayout]: the screen is drawn. *)
Definition screen_event (st : bars) (place : area -> list kid) (inner : area) (s : scroller) (e : event) : option scroller :=
  let sv := shows_v st (s_scroll s) in let sh := shows_h st (s_scroll s) in
  let c := content_region st inner sv sh in
  let vr := v_region st inner sh in let hr := h_region st inner sv in
  let on_v x y := render_v st sv && contains_point vr x y in
  let on_h x y := render_h st sh && contains_point hr x y in
  let s1 := with_scroll s (set_viewport (s_scroll s) (a_w c) (a_h c)) in
  match e with
  | EKey _ => Some s
  | ERelayout => Some (with_scroll s (screen_draw st place inner (s_scroll s)))
  | EWheel d shifted => Some (with_scroll s1 (screen_wheel st (s_scroll s1) d shifted))
  | EPress x y =>
      Some (if on_v x y then on_bar rnd true s1 (y - a_y vr) (a_h vr)
            else if on_h x y then on_bar rnd false s1 (x - a_x hr) (a_w hr) else s1)
  | EMove x y button =>
      match s_drag s1 with
      | Some (vertical, grab) => option_map (with_scroll s1) (screen_drag st inner (s_scroll s1) vertical grab x y)
      | None => Some (if button then s1
                      else Scroller (s_scroll s1) (if on_v x y then Some true else if on_h x y then Some false else None) None)
      end
  | ERelease => Some (Scroller (s_scroll s1) (s_hover s1) None)
  end.
End Float.
