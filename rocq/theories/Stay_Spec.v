(** Specification for C123: where the content stays when a container is drawn again.
    A direction is [true] for up and down, [false] for left and right. *)
From Coq Require Import ZArith List.
From Verif Require Import Scroll_Model Scroll_Spec Bars_Model Stay_Model.
From Verif Require Pointer_Model.
Import ListNotations.
Open Scope Z_scope.

(** where the content is scrolled to, and the size of the view it was last drawn in *)
Definition place (v : bool) (s : scroll) : Z := if v then offset_y s else offset_x s.
Definition last_view (v : bool) (s : scroll) : Z := if v then viewport_height s else viewport_width s.
(** the size of the content and the room for it in a drawing *)
Definition content (v : bool) (d : drawing) : Z := if v then l_vh (layout_of d) else l_vw (layout_of d).
Definition room (v : bool) (d : drawing) : Z := if v then a_h (l_content (layout_of d)) else a_w (l_content (layout_of d)).

(** the nearest to [p] of the places at which a view of size [view] lies inside the content *)
Definition nearest (p q virt view : Z) : Prop :=
  in_range q virt view /\ forall o, in_range o virt view -> Z.abs (q - p) <= Z.abs (o - p).

(** The place [p] fits in all the drawings, in each of them also in the view of the
    drawing before. *)
Inductive fits (v : bool) (p : Z) : Z -> list drawing -> Prop :=
| fits_nil : forall last, fits v p last []
| fits_cons : forall last d r, in_range p (content v d) last -> in_range p (content v d) (room v d) ->
    fits v p (room v d) r -> fits v p last (d :: r).

(** *** Containers and the screen *)
(** the recorded size of the content, and that of an area or a measured arrangement *)
Definition recorded (v : bool) (s : scroll) : Z := if v then virtual_height s else virtual_width s.
Definition side (v : bool) (a : area) : Z := if v then a_h a else a_w a.
Definition part (v : bool) (e : Z * Z) : Z := if v then snd e else fst e.
(** What is drawn is the arrangement of the children in [region], shifted by the place. *)
Definition arranged_in (p : Pointer_Model.pane) (w : Pointer_Model.view) (region : area) (d : Pointer_Model.drawing) : Prop :=
  let kids := Pointer_Model.p_place p region w in
  let s := Pointer_Model.d_scroll d in
  Pointer_Model.d_kids d = map (Pointer_Model.shift (place false s) (place true s)) kids /\
  Pointer_Model.p_extent p region kids = (recorded false s, recorded true s).
