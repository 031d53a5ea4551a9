(** Specification vocabulary for the colours widgets are shown in. *)
From Coq Require Import ZArith QArith List Bool.
From Verif Require Import Colour_Model Colour_Spec Snapshot_Model Shown_Model.
Import ListNotations.
Open Scope Z_scope.

(** A colour whose channels are bytes and whose alpha is from 0 to 1. *)
Definition proper (c : rgba) : Prop := bytes c /\ (0 <= c_a c <= 1)%Q.
(** A colour nothing shows through. *)
Definition solid (c : rgba) : Prop := (1 <= c_a c)%Q.
Definition chan (k : channel) (c : rgb) : Z := match k with Red => r_r c | Green => r_g c | Blue => r_b c end.
(** Perceived brightness of a cell's colour. *)
Definition shine (c : rgb) : Q := luma (rgb_of (r_r c) (r_g c) (r_b c)).

(** Styles whose colours are proper. *)
Definition proper_look (k : look) : Prop :=
  (forall c, k_color k = Some c -> proper c) /\ (forall c, k_bg k = Some c -> proper c) /\ (forall c, k_tint k = Some c -> proper c).
(** The style of a widget that is shown at full opacity and that tints its
    background only if nothing shows through it. *)
Definition plain (k : look) : Prop :=
  proper_look k /\ (1 <= k_opacity k)%Q /\ (forall c o, k_bg k = Some c -> k_tint k = Some o -> solid c).
(** Its background is solid. *)
Definition ground (k : look) : Prop := exists c, k_bg k = Some c /\ solid c.
(** Everything see-through in the path lies on something solid. *)
Definition grounded (l : list look) : Prop :=
  forall above k below c, l = above ++ k :: below -> k_bg k = Some c -> solid c \/ Exists ground above.
Definition clean (l : list look) : Prop := Forall plain l /\ grounded l.

(** [z] is a fraction [f] of the way from [x] to [y], cut to a whole number. *)
Definition about (x y : Z) (f : Q) (z : Z) : Prop :=
  (part_way x y f - 1 - (1 # 500) < inject_Z z)%Q /\ (inject_Z z <= part_way x y f + (1 # 500))%Q.
(** The first of two that there is. *)
Definition or_else {A} (a b : option A) : option A := match a with Some _ => a | None => b end.
(** The colour declared nearest, from the innermost widget outwards, with
    whether it is automatic. *)
Fixpoint declared (l : list look) (default : option (rgba * bool)) : option (rgba * bool) :=
  match l with
  | [] => default
  | k :: outer => match k_color k with Some c => Some (c, k_auto k) | None => declared outer default end
  end.
(** The colour of the text of a widget of style [k] inside the path [l]. *)
Definition text_colour_of (l : list look) (foreground : option rgba) (k : look) : option (rgba * bool) :=
  declared (k :: rev l) (match foreground with Some c => Some (c, false) | None => None end).
