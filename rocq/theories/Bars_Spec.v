(** Specification vocabulary for scroll bars. *)
From Coq Require Import ZArith QArith List Bool.
From Verif Require Import Bars_Model.
Import ListNotations.
Open Scope Z_scope.

(** The last of several writes to the cell at ([x],[y]). *)
Fixpoint shown (ps : list put) (x y : Z) : option put :=
  match ps with
  | [] => None
  | p :: r => match shown r x y with
              | Some q => Some q
              | None => if (pt_x p =? x) && (pt_y p =? y) then Some p else None
              end
  end.
(** The colour a viewer sees in the [k]-th eighth of a cell, counted from the top
    for a vertical bar and from the left for a horizontal one.  U+2581 to U+2588
    fill the lower one to eight eighths of a cell with the foreground, U+2589 to
    U+258F the left seven to one; a blank shows the background only. *)
Definition inked (vertical : bool) (c k : Z) : bool :=
  if vertical then (9601 <=? c) && (c <=? 9608) && (8 - (c - 9600) <=? k)
  else (9609 <=? c) && (c <=? 9615) && (k <? 9616 - c).
Definition seen (vertical : bool) (p : put) (k : Z) : option colour :=
  if inked vertical (pt_char p) k then pt_fg p else Some (pt_bg p).
Definition inside (r : area) (x y : Z) : Prop := a_x r <= x < a_x r + a_w r /\ a_y r <= y < a_y r + a_h r.
Definition length_of (vertical : bool) (r : area) : Z := if vertical then a_h r else a_w r.
(** How far along the bar the cell ([x],[y]) lies. *)
Definition along (vertical : bool) (r : area) (x y : Z) : Z := if vertical then y - a_y r else x - a_x r.
Definition apart (a b : area) : Prop := forall x y, inside a x y -> inside b x y -> False.

(** Giving up room for a bar never makes an overflow go away. *)
Definition steady (st : bars) (measure : area -> Z * Z) (inner : area) : Prop :=
  forall sv sh sv' sh' : bool, (sv = true -> sv' = true) -> (sh = true -> sh' = true) ->
    let c := content_region st inner sv sh in let c' := content_region st inner sv' sh' in
    (a_w c < fst (measure c) -> a_w c' < fst (measure c')) /\ (a_h c < snd (measure c) -> a_h c' < snd (measure c')).
(** Where and how a container is drawn at the time of an event. *)
Record setting := Setting { g_bars : bars; g_measure : area -> Z * Z; g_inner : area }.
Fixpoint run_events (rnd : Q -> Q) (s : scroller) (es : list (setting * event)) : option scroller :=
  match es with
  | [] => Some s
  | (g, e) :: r =>
      match on_scroll_event rnd (g_bars g) (g_measure g) (g_inner g) s e with
      | Some s' => run_events rnd s' r
      | None => None
      end
  end.
(** A container that has just been made (scrollable.rs:70-82). *)
Definition fresh : scroller := Scroller Scroll_Model.scroll_default None None.

(** [a / b] rounded up. *)
Definition ceil_ratio (a b : Z) : Z := - (- a / b).
(** Arithmetic without rounding. *)
Notation exactly := (fun q : Q => q).
