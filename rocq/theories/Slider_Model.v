(** Model of crates/textual/src/widget/scrollbar.rs (the widget [ScrollBar]) and
    of the colours of scroll bars in crates/tcss/src/types/scrollbar.rs.

    [rnd] is the rounding of f32 arithmetic, as in Bars_Model.  The callback that
    wraps messages is left out: the message itself is the answer.  The field
    [grabbed_position] is written but never read and is left out. *)
From Coq Require Import ZArith QArith Qround Qabs List Bool.
From Verif Require Import Float32_Model Scroll_Model Bars_Model.
Import ListNotations.
Open Scope Z_scope.

(** widget/scrollbar.rs:15-24 [ScrollBarState] *)
Inductive look := Normal | Hover | Grabbed (grab : Z).
(** scroll.rs:5-21 [ScrollMessage]; [animate] is always false here *)
Inductive message := ScrollUp | ScrollDown | ScrollLeft | ScrollRight | ScrollTo (x y : option Q).
(** widget/scrollbar.rs:31-61 *)
Record bar := Bar { b_vertical : bool; b_virtual : Q; b_window : Q; b_position : Q; b_look : look; b_dirty : bool }.
(** widget/scrollbar.rs:73-89 [new] *)
Definition new_bar (vertical : bool) : bar := Bar vertical 100 100 0 Normal true.
Definition with_look (l : look) (b : bar) : bar := Bar (b_vertical b) (b_virtual b) (b_window b) (b_position b) l true.
Definition dirtied (b : bar) : bar := Bar (b_vertical b) (b_virtual b) (b_window b) (b_position b) (b_look b) true.

(** f32::EPSILON *)
Definition epsilon : Q := 1 # 8388608.
Definition is_grabbed (b : bar) : bool := match b_look b with Grabbed _ => true | _ => false end.
Definition is_hover (b : bar) : bool := match b_look b with Hover => true | _ => false end.
Definition is_normal (b : bar) : bool := match b_look b with Normal => true | _ => false end.

Inductive mouse := Moved | Down | Drag | Up | WheelDown | WheelUp | Other.

Section Float.
Variable rnd : Q -> Q.
(** widget/scrollbar.rs:106-116 [update] *)
Definition differs (a b : Q) : bool := negb (Qle_bool (Qabs (rnd (a - b)%Q)) epsilon).
Definition update (v w p : Q) (b : bar) : bar :=
  if differs (b_virtual b) v || differs (b_window b) w || differs (b_position b) p
  then Bar (b_vertical b) v w p (b_look b) true else b.

(** widget/scrollbar.rs:124-136 [thumb_bounds] *)
Definition track (b : bar) (r : area) : Z := if b_vertical b then a_h r else a_w r.
Definition bounds (b : bar) (r : area) : Z * Z := thumb_bounds rnd (track b r) (b_virtual b) (b_window b) (b_position b).

(** widget/scrollbar.rs:284-304: where a drag that puts the start of the thumb at
    [start] scrolls to; dividing by a virtual size of 0 leaves no positive range *)
Definition dragged_to (b : bar) (r : area) (start : Z) : Q :=
  let t := inject_Z (track b r) in
  let thumb := rnd (rnd (b_window b / b_virtual b)%Q * t)%Q in
  let range := rnd (t - thumb)%Q in
  if Qeq_bool (b_virtual b) 0 || Qle_bool range 0 then 0%Q
  else rnd (rnd (inject_Z start / range)%Q * rnd (b_virtual b - b_window b)%Q)%Q.

(** widget/scrollbar.rs:216-351 [on_mouse] *)
Definition on_mouse (e : mouse) (x y : Z) (r : area) (b : bar) : bar * option message :=
  if negb (contains_point r x y) then ((if is_hover b then with_look Normal b else b), None)
  else
    let pos := if b_vertical b then y - a_y r else x - a_x r in
    let (s, t) := bounds b r in
    match e with
    | Moved => ((if is_grabbed b then b else if is_hover b then b else with_look Hover b), None)
    | Down =>
        if (s <=? pos) && (pos <? t) then (with_look (Grabbed (pos - s)) b, None)
        else if pos <? s then (dirtied b, Some (if b_vertical b then ScrollUp else ScrollLeft))
        else (dirtied b, Some (if b_vertical b then ScrollDown else ScrollRight))
    | Drag =>
        match b_look b with
        | Grabbed g =>
            let p := dragged_to b r (pos - g) in
            (b, Some (if b_vertical b then ScrollTo None (Some p) else ScrollTo (Some p) None))
        | _ => (b, None)
        end
    | Up => ((if is_grabbed b then with_look Hover b else b), None)
    | WheelDown => (b, Some (if b_vertical b then ScrollDown else ScrollRight))
    | WheelUp => (b, Some (if b_vertical b then ScrollUp else ScrollLeft))
    | Other => (b, None)
    end.
End Float.

(** widget/scrollbar.rs:402-416 [set_hover] *)
Definition set_hover (h : bool) (b : bar) : bar :=
  if is_grabbed b then b
  else if h then if is_hover b then b else with_look Hover b
  else if is_normal b then b else with_look Normal b.
(** widget/scrollbar.rs:418-431 [set_active] *)
Definition set_active (a : bool) (b : bar) : bar :=
  if a then b else if is_grabbed b then with_look Normal b else b.
(** widget/scrollbar.rs:433-440 [clear_hover] *)
Definition clear_hover (b : bar) : bar :=
  if is_grabbed b then b else if is_normal b then b else with_look Normal b.
(** widget/scrollbar.rs:353-361 [get_state]: hover and active *)
Definition state (b : bar) : bool * bool := (is_hover b, is_grabbed b).
(** widget/scrollbar.rs:157-159 [can_scroll] *)
Definition can_scroll (b : bar) : bool := negb (Qle_bool (b_virtual b) (b_window b)).

(** What can happen to a bar. *)
Inductive event :=
| Mouse (e : mouse) (x y : Z) (r : area)
| Update (v w p : Q)
| SetHover (h : bool) | SetActive (a : bool) | ClearHover.
Definition step (rnd : Q -> Q) (e : event) (b : bar) : bar :=
  match e with
  | Mouse m x y r => fst (on_mouse rnd m x y r b)
  | Update v w p => update rnd v w p b
  | SetHover h => set_hover h b
  | SetActive a => set_active a b
  | ClearHover => clear_hover b
  end.
Definition answer (rnd : Q -> Q) (e : event) (b : bar) : option message :=
  match e with Mouse m x y r => snd (on_mouse rnd m x y r b) | _ => None end.
(** The bar after a history, which is given with the latest event first. *)
Fixpoint after (rnd : Q -> Q) (vertical : bool) (h : list event) : bar :=
  match h with [] => new_bar vertical | e :: past => step rnd e (after rnd vertical past) end.

(** scrollable.rs:551-574 [handle_scroll]; 28 [SCROLL_AMOUNT] = 1 *)
Definition handle_scroll (m : message) (s : scroll) : option scroll :=
  match m with
  | ScrollUp => Some (scroll_up s 1) | ScrollDown => Some (scroll_down s 1)
  | ScrollLeft => Some (scroll_left s 1) | ScrollRight => Some (scroll_right s 1)
  | ScrollTo x y => scroll_to s x y
  end.

(** *** Colours *)
Section Colours.
Variable C : Type.
(** tcss types/scrollbar.rs:48-57, 70-84: the colours of the thumb or of the track,
    and the colour used when none is given *)
Record palette := Palette { c_normal : option C; c_hover : option C; c_active : option C; c_fallback : C }.
Definition or_colour (a b : option C) : option C := match a with Some _ => a | None => b end.
Definition unwrap (a : option C) (d : C) : C := match a with Some c => c | None => d end.
(** tcss types/scrollbar.rs:87-89 [effective_color], 110-112 [effective_background] *)
Definition effective (p : palette) : C := unwrap (c_normal p) (c_fallback p).
(** tcss types/scrollbar.rs:92-97, 115-120 *)
Definition effective_hover (p : palette) : C := unwrap (or_colour (c_hover p) (c_normal p)) (c_fallback p).
(** tcss types/scrollbar.rs:100-107, 123-130 *)
Definition effective_active (p : palette) : C :=
  unwrap (or_colour (or_colour (c_active p) (c_hover p)) (c_normal p)) (c_fallback p).
(** widget/scrollbar.rs:139-154 [current_colors] *)
Definition current_colors (thumb trk : palette) (l : look) : C * C :=
  match l with
  | Grabbed _ => (effective_active thumb, effective_active trk)
  | Hover => (effective_hover thumb, effective_hover trk)
  | Normal => (effective thumb, effective trk)
  end.
(** scrollable.rs:577-610, container.rs:289-327, screen.rs:338-370
    [vertical_colors], [horizontal_colors] *)
Definition bar_colors (vertical : bool) (thumb trk : palette) (hover : option bool) (drag : option (bool * Z)) : C * C :=
  if match drag with Some (v, _) => eqb v vertical | None => false end then (effective_active thumb, effective_active trk)
  else if match hover with Some v => eqb v vertical | None => false end then (effective_hover thumb, effective_hover trk)
  else (effective thumb, effective trk).
End Colours.
