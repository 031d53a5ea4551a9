(** Specification vocabulary for the screen. *)
From Coq Require Import ZArith QArith List Bool Sorted.
From Verif Require Import Text_Model Scroll_Model Scroll_Spec Bars_Model Bars_Spec Pointer_Model Screen_Model.
Import ListNotations.
Open Scope Z_scope.

(** Thresholds in increasing order. *)
Definition increasing (b : list breakpoint) : Prop := StronglySorted (fun p q => fst p < fst q) b.
(** The class of the greatest threshold that was reached. *)
Definition reached (b : list breakpoint) (size : Z) (c : text) : Prop :=
  exists t, In (t, c) b /\ t <= size /\ forall u d, In (u, d) b -> u <= size -> u <= t.

(** The classes an axis should contribute: that one, or none below all thresholds. *)
Definition classes_for (b : list breakpoint) (size : Z) (l : list text) : Prop :=
  (exists c, l = [c] /\ reached b size c) \/ (l = [] /\ forall t c, In (t, c) b -> size < t).

(** Calls on a screen as far as its classes are concerned. *)
Inductive call := Resize (w h : Z) | Clean.
Definition do_call (s : classes) (k : call) : classes := match k with Resize w h => resize s w h | Clean => clean s end.
Definition do_calls (s : classes) (l : list call) : classes := fold_left do_call l s.
Fixpoint last_size (start : option (Z * Z)) (l : list call) : option (Z * Z) :=
  match l with [] => start | Resize w h :: r => last_size (Some (w, h)) r | Clean :: r => last_size start r end.

(** A history of events, with any style, children and size at each. *)
Record scene := Scene { n_bars : bars; n_place : area -> list kid; n_inner : area }.
Fixpoint run_scenes (rnd : Q -> Q) (s : scroller) (es : list (scene * event)) : option scroller :=
  match es with
  | [] => Some s
  | (g, e) :: r => match screen_event rnd (n_bars g) (n_place g) (n_inner g) s e with Some s' => run_scenes rnd s' r | None => None end
  end.

(** The window recorded is the room left by the bars that are shown. *)
Definition at_rest (st : bars) (inner : area) (s : scroll) : Prop :=
  let c := content_region st inner (shows_v st s) (shows_h st s) in
  viewport_width s = a_w c /\ viewport_height s = a_h c /\ offsets_ok s.
