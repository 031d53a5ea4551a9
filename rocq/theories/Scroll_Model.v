(** Model of crates/textual/src/scroll.rs, lines 23-141 ([ScrollState]).
    i32 is [Z] without overflow; f32 arguments are exact rationals. *)
From Coq Require Import ZArith QArith Qround List.
Import ListNotations.
Open Scope Z_scope.

(** scroll.rs:24-38 *)
Record scroll := Scroll {
  offset_x : Z; offset_y : Z;
  virtual_width : Z; virtual_height : Z;
  viewport_width : Z; viewport_height : Z }.

(** scroll.rs:23 [#[derive(Default)]] *)
Definition scroll_default : scroll := Scroll 0 0 0 0 0 0.

(** scroll.rs:42-56 [new] *)
Definition scroll_new (vw vh pw ph : Z) : scroll := Scroll 0 0 vw vh pw ph.

(** scroll.rs:59-61, 64-66 [max_scroll_x], [max_scroll_y] *)
Definition max_scroll_x (s : scroll) : Z := Z.max (virtual_width s - viewport_width s) 0.
Definition max_scroll_y (s : scroll) : Z := Z.max (virtual_height s - viewport_height s) 0.

(** scroll.rs:69-76 [can_scroll_x], [can_scroll_y] *)
Definition can_scroll_x (s : scroll) : bool := viewport_width s <? virtual_width s.
Definition can_scroll_y (s : scroll) : bool := viewport_height s <? virtual_height s.

(** scroll.rs:79-94 [scroll_percent_x], [scroll_percent_y] *)
Definition scroll_percent_x (s : scroll) : Q :=
  if max_scroll_x s =? 0 then 0%Q
  else (inject_Z (offset_x s) / inject_Z (max_scroll_x s))%Q.
Definition scroll_percent_y (s : scroll) : Q :=
  if max_scroll_y s =? 0 then 0%Q
  else (inject_Z (offset_y s) / inject_Z (max_scroll_y s))%Q.

Definition set_x (s : scroll) (x : Z) : scroll :=
  Scroll x (offset_y s) (virtual_width s) (virtual_height s) (viewport_width s) (viewport_height s).
Definition set_y (s : scroll) (y : Z) : scroll :=
  Scroll (offset_x s) y (virtual_width s) (virtual_height s) (viewport_width s) (viewport_height s).

(** scroll.rs:97-114 [scroll_up], [scroll_down], [scroll_left], [scroll_right] *)
Definition scroll_up (s : scroll) (a : Z) : scroll := set_y s (Z.max (offset_y s - a) 0).
Definition scroll_down (s : scroll) (a : Z) : scroll :=
  set_y s (Z.min (offset_y s + a) (max_scroll_y s)).
Definition scroll_left (s : scroll) (a : Z) : scroll := set_x s (Z.max (offset_x s - a) 0).
Definition scroll_right (s : scroll) (a : Z) : scroll :=
  set_x s (Z.min (offset_x s + a) (max_scroll_x s)).

(** Rust's [i32::clamp], which panics ([None]) when min > max. *)
Definition clamp (v lo hi : Z) : option Z :=
  if hi <? lo then None else Some (Z.min (Z.max v lo) hi).

(** scroll.rs:117-126 [scroll_to]; [None] is a panic of [clamp]. *)
Definition scroll_to (s : scroll) (x y : option Q) : option scroll :=
  match (match x with
         | Some q => match clamp (Qfloor q) 0 (max_scroll_x s) with
                     | Some v => Some (set_x s v) | None => None end
         | None => Some s end) with
  | None => None
  | Some s1 =>
      match y with
      | Some q => match clamp (Qfloor q) 0 (max_scroll_y s1) with
                  | Some v => Some (set_y s1 v) | None => None end
      | None => Some s1
      end
  end.

(** scroll.rs:132-133, 140-141: re-clamping after a resize *)
Definition reclamp (s : scroll) : scroll :=
  let s1 := set_x s (Z.max (Z.min (offset_x s) (max_scroll_x s)) 0) in
  set_y s1 (Z.max (Z.min (offset_y s1) (max_scroll_y s1)) 0).

(** scroll.rs:129-134 [set_viewport] *)
Definition set_viewport (s : scroll) (w h : Z) : scroll :=
  reclamp (Scroll (offset_x s) (offset_y s) (virtual_width s) (virtual_height s) w h).

(** scroll.rs:137-142 [set_virtual_size] *)
Definition set_virtual_size (s : scroll) (w h : Z) : scroll :=
  reclamp (Scroll (offset_x s) (offset_y s) w h (viewport_width s) (viewport_height s)).

(** The public operations as a command type, for histories. *)
Inductive scroll_op :=
  | Up (a : Z) | Down (a : Z) | Left (a : Z) | Right (a : Z)
  | To (x y : option Q)
  | Viewport (w h : Z) | Virtual (w h : Z).

Definition scroll_step (s : scroll) (o : scroll_op) : option scroll :=
  match o with
  | Up a => Some (scroll_up s a)
  | Down a => Some (scroll_down s a)
  | Left a => Some (scroll_left s a)
  | Right a => Some (scroll_right s a)
  | To x y => scroll_to s x y
  | Viewport w h => Some (set_viewport s w h)
  | Virtual w h => Some (set_virtual_size s w h)
  end.

Fixpoint scroll_run (s : scroll) (ops : list scroll_op) : option scroll :=
  match ops with
  | [] => Some s
  | o :: r => match scroll_step s o with Some s' => scroll_run s' r | None => None end
  end.
