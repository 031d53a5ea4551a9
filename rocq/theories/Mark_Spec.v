(** Specification vocabulary for drawings made of single marks. *)
From Coq Require Import ZArith List Bool Arith.
From Verif Require Import Canvas_Model Canvas_Spec.
Import ListNotations.
Open Scope Z_scope.

Section Spec.
Context {Sym Color : Type}.
Notation cell := (@cell Sym Color).
Notation canvas := (@canvas Sym Color).
(** the cell of the canvas at a point *)
Definition at_xy (c : canvas) (x y : Z) : option cell := cell_xy (cv_w c) (cv_cells c) x y.
(** the canvas has a cell for every point *)
Definition sound (c : canvas) : Prop := length (cv_cells c) = (cv_w c * cv_h c)%nat.
Definition shown_at (c : canvas) (x y : Z) : Prop := on_screen (cv_w c) (cv_h c) x y /\ in_region (current_clip c) x y.
(** The points of [P] inside the clip get a new cell; all other points, the size
    of the canvas and the clip stay. *)
Definition drawn (c c' : canvas) (P : Z -> Z -> bool) (new : Z -> Z -> cell -> cell) : Prop :=
  cv_w c' = cv_w c /\ cv_h c' = cv_h c /\ cv_clips c' = cv_clips c /\ cv_prev c' = cv_prev c /\ cv_first c' = cv_first c /\ sound c' /\
  forall x y, on_screen (cv_w c) (cv_h c) x y ->
    (P x y = true -> in_region (current_clip c) x y -> at_xy c' x y = option_map (new x y) (at_xy c x y)) /\
    (P x y = false \/ ~ in_region (current_clip c) x y -> at_xy c' x y = at_xy c x y).
(** every fifth place *)
Definition major (k : Z) : bool := ((k + 1) mod 5 =? 0).
End Spec.

(** What can happen to a loading indicator. *)
Inductive spin_event := Tick | Show (v : bool) | ShowAsWidget (v : bool) | Clean.
Definition ticks (h : list spin_event) : nat := length (filter (fun e => match e with Tick => true | _ => false end) h).
(** whether it was last shown or hidden; shown at first *)
Fixpoint last_shown (v : bool) (h : list spin_event) : bool :=
  match h with
  | [] => v
  | Show b :: r | ShowAsWidget b :: r => last_shown b r
  | _ :: r => last_shown v r
  end.
