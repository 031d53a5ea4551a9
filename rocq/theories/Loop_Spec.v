(** What a user expects of the event loop: the screen is up to date whenever it
    waits, the terminal is restored, a tooltip appears after a rest. *)
From Coq Require Import List Bool Arith ZArith.
From Verif Require Import Loop_Model.
Import ListNotations.

Section Redraw.
Context {S V K E Msg Sz : Type}.
Variables (recompose_wanted : S -> bool) (focus_index : S -> nat) (restyle : S -> S) (draw : S -> V)
          (tooltip_tick drain : S -> S * bool) (system_key : K -> bool) (open_palette : K -> S -> S)
          (key_focus : K -> S -> S * bool) (key_rest : K -> S -> S)
          (resize : Sz -> S -> S) (mouse : E -> S -> S) (message : Msg -> S -> S).

(** What the terminal should show for a state, and whether it does. *)
Definition picture (s : S) : V := draw (restyle s).
Definition current (l : loop S V) : Prop := l_screen S V l = picture (l_state S V l).

(** The state the handlers leave after an event. *)
Definition handled (s : S) (e : event K E Msg Sz) : S :=
  match e with
  | TooltipTick _ _ _ _ => fst (tooltip_tick s)
  | PaletteTick _ _ _ _ => fst (drain s)
  | Key _ _ _ _ k => if system_key k then fst (drain (open_palette k s)) else fst (drain (key_rest k (fst (key_focus k s))))
  | Resize _ _ _ _ z => resize z s
  | Mouse _ _ _ _ m => mouse m s
  | OtherEvent _ _ _ _ => s
  | Message _ _ _ _ m => fst (drain (message m s))
  end.

(** The events after which the loop redraws: mouse events, resizes, the palette
    key, a key that moves the focus, a tooltip that appears, a tick or message after
    which the palette has news; and any event after which the application asks for
    its tree to be rebuilt or wants another focus. *)
Definition redraws (s : S) (e : event K E Msg Sz) : Prop :=
  match e with
  | TooltipTick _ _ _ _ => snd (tooltip_tick s) = true
  | PaletteTick _ _ _ _ => snd (drain s) = true \/ recompose_wanted (handled s e) = true
  | Key _ _ _ _ k => system_key k = true \/ snd (key_focus k s) = true \/ recompose_wanted (handled s e) = true
  | Resize _ _ _ _ _ | Mouse _ _ _ _ _ => True
  | OtherEvent _ _ _ _ => False
  | Message _ _ _ _ m => snd (drain (message m s)) = true \/ recompose_wanted (handled s e) = true
  end.
End Redraw.

(** Histories of which every event either redraws or changes nothing to be seen. *)
Section History.
Variables (S V K E Msg Sz : Type).
Variables (quit recompose_wanted : S -> bool) (focus_index : S -> nat) (rebuild : S -> S) (refocus : nat -> S -> S) (fallback : S -> option S).
Variables (restyle : S -> S) (draw : S -> V).
Variables (tooltip_tick drain : S -> S * bool) (system_key : K -> bool) (open_palette : K -> S -> S)
          (key_focus : K -> S -> S * bool) (key_rest : K -> S -> S)
          (resize : Sz -> S -> S) (mouse : E -> S -> S) (message : Msg -> S -> S).
Definition visible_event (l : loop S V) (e : event K E Msg Sz) : Prop :=
  let s := l_state S V l in
  let s' := handled tooltip_tick drain system_key open_palette key_focus key_rest resize mouse message s e in
  redraws recompose_wanted tooltip_tick drain system_key open_palette key_focus key_rest resize mouse message s e \/
  focus_index s' <> l_last_focus S V l \/ picture restyle draw s' = picture restyle draw s.
Fixpoint all_visible (l : loop S V) (es : list (event K E Msg Sz)) : Prop :=
  match es with
  | [] => True
  | e :: r => visible_event l e /\
      all_visible (turn S V K E Msg Sz quit recompose_wanted focus_index rebuild refocus fallback restyle draw tooltip_tick drain system_key open_palette key_focus key_rest resize mouse message l e) r
  end.
End History.

Section Tooltip.
Context {T : Type}.
(** A rest of the pointer: no move away from one place and one tooltip text. *)
Definition resting (pos : Z * Z) (t : T) (e : tip_event T) : Prop :=
  match e with Moved _ _ p h => p = pos /\ h = Some t | _ => True end.
(** Ticks and moves only. *)
Definition undisturbed (e : tip_event T) : Prop :=
  match e with OtherMouse _ | Rebuilt _ => False | _ => True end.
End Tooltip.
