(** The event loop (crates/textual/src/lib.rs:648-1114): when it redraws, how it
    sets up and restores the terminal, and its tooltip timer.  The application and
    its widget tree are parameters: an arbitrary state with arbitrary handlers. *)
From Coq Require Import List Bool Arith ZArith.
Import ListNotations.

(** ** Redrawing *)
Section Redraw.
Variables (S V K E Msg Sz : Type).
(** should_quit, needs_recompose, focus_index of the application *)
Variables (quit recompose_wanted : S -> bool) (focus_index : S -> nat).
(** the tree built anew (lib.rs:749-777), the focus moved (782-785), the fall-back
    when the focused widget cannot have the focus (791-798; [None]: nothing done) *)
Variables (rebuild : S -> S) (refocus : nat -> S -> S) (fallback : S -> option S).
(** resolve_dirty_styles (803-810) and the picture drawn by render and flush (812-815) *)
Variables (restyle : S -> S) (draw : S -> V).
(** What the branches do with the state: the tooltip tick (826-853, whether one was
    shown), drain_command_palette (236-271, whether it changed something), the
    key that opens the palette (876-880), Tab and BackTab (892-905, whether the focus
    moved), the rest of a key event (908-951), a resize (956-963), a mouse event
    (966-1085), a message (1103-1105). *)
Variables (tooltip_tick drain : S -> S * bool) (system_key : K -> bool) (open_palette : K -> S -> S)
          (key_focus : K -> S -> S * bool) (key_rest : K -> S -> S)
          (resize : Sz -> S -> S) (mouse : E -> S -> S) (message : Msg -> S -> S).

(** Local variables of lib.rs:732-737 and what the terminal shows. *)
Record loop := { l_state : S; l_last_focus : nat; l_render : bool; l_recompose : bool; l_screen : V }.

Inductive event :=
| TooltipTick | PaletteTick | Key (k : K) | Resize (z : Sz) | Mouse (e : E) | OtherEvent | Message (m : Msg).

(** crates/textual/src/lib.rs:747-818: the part before the wait *)
Definition top_rebuild (l : loop) : loop :=
  if l_recompose l then
    let s := rebuild (l_state l) in
    {| l_state := s; l_last_focus := focus_index s; l_render := true; l_recompose := false; l_screen := l_screen l |}
  else l.
Definition top_focus (l : loop) : loop :=
  let f := focus_index (l_state l) in
  if f =? l_last_focus l then l
  else {| l_state := refocus f (l_state l); l_last_focus := f; l_render := true; l_recompose := l_recompose l; l_screen := l_screen l |}.
Definition top_fallback (l : loop) : loop :=
  match fallback (l_state l) with
  | None => l
  | Some s => {| l_state := s; l_last_focus := focus_index s; l_render := true; l_recompose := l_recompose l; l_screen := l_screen l |}
  end.
Definition top_render (l : loop) : loop :=
  if l_render l then
    let s := restyle (l_state l) in
    {| l_state := s; l_last_focus := l_last_focus l; l_render := false; l_recompose := l_recompose l; l_screen := draw s |}
  else l.
Definition top (l : loop) : loop := top_render (top_fallback (top_focus (top_rebuild l))).

Definition upd (l : loop) (s : S) (render recompose : bool) : loop :=
  {| l_state := s; l_last_focus := l_last_focus l; l_render := render; l_recompose := recompose; l_screen := l_screen l |}.

(** crates/textual/src/lib.rs:823-1110: the branches of the [select!] *)
Definition branch (l : loop) (e : event) : loop :=
  match e with
  | TooltipTick => let (s, shown) := tooltip_tick (l_state l) in upd l s (l_render l || shown) (l_recompose l)
  | PaletteTick => let (s, changed) := drain (l_state l) in upd l s (l_render l || changed) (recompose_wanted s)
  | Key k =>
      if system_key k then
        let (s, _) := drain (open_palette k (l_state l)) in upd l s true (recompose_wanted s)
      else
        let (s, moved) := key_focus k (l_state l) in
        let (s', _) := drain (key_rest k s) in
        upd l s' (l_render l || moved) (recompose_wanted s')
  | Resize z => upd l (resize z (l_state l)) true (l_recompose l)
  | Mouse m =>
      let s := mouse m (l_state l) in
      upd l s true (recompose_wanted s)
  | OtherEvent => l
  | Message m =>
      let (s, changed) := drain (message m (l_state l)) in
      upd l s (l_render l || changed) (recompose_wanted s)
  end.

(** One turn: the event, then, unless the application quits (746), the part before the next wait. *)
Definition turn (l : loop) (e : event) : loop :=
  let l' := branch l e in if quit (l_state l') then l' else top l'.
(** The loop over a list of events; nothing happens after the application quits. *)
Fixpoint turns (l : loop) (es : list event) : loop :=
  match es with
  | [] => l
  | e :: r => if quit (l_state l) then l else turns (turn l e) r
  end.
(** lib.rs:728-747: the first time round, [needs_render] is set *)
Definition begin (s : S) (blank : V) : loop :=
  let l := {| l_state := s; l_last_focus := focus_index s; l_render := true; l_recompose := false; l_screen := blank |} in
  if quit s then l else top l.
End Redraw.

(** ** The terminal *)
(** What the process has asked of the terminal. *)
Record terminal := { raw : bool; alternate : bool; cursor_hidden : bool; mouse_capture : bool }.
Definition normal : terminal := {| raw := false; alternate := false; cursor_hidden := false; mouse_capture := false |}.
Inductive command := RawOn | EnterAlternate | HideCursor | MouseOn | MouseOff | ShowCursor | LeaveAlternate | RawOff.
Definition perform (c : command) (t : terminal) : terminal :=
  match c with
  | RawOn => {| raw := true; alternate := alternate t; cursor_hidden := cursor_hidden t; mouse_capture := mouse_capture t |}
  | RawOff => {| raw := false; alternate := alternate t; cursor_hidden := cursor_hidden t; mouse_capture := mouse_capture t |}
  | EnterAlternate => {| raw := raw t; alternate := true; cursor_hidden := cursor_hidden t; mouse_capture := mouse_capture t |}
  | LeaveAlternate => {| raw := raw t; alternate := false; cursor_hidden := cursor_hidden t; mouse_capture := mouse_capture t |}
  | HideCursor => {| raw := raw t; alternate := alternate t; cursor_hidden := true; mouse_capture := mouse_capture t |}
  | ShowCursor => {| raw := raw t; alternate := alternate t; cursor_hidden := false; mouse_capture := mouse_capture t |}
  | MouseOn => {| raw := raw t; alternate := alternate t; cursor_hidden := cursor_hidden t; mouse_capture := true |}
  | MouseOff => {| raw := raw t; alternate := alternate t; cursor_hidden := cursor_hidden t; mouse_capture := false |}
  end.
(** How the loop, or the whole call, ends. *)
Inductive ending := Done | Failed | Panicked.

Section Terminal.
Variable works : command -> bool.   (* whether the terminal accepts a command *)
(** [execute!]: commands in order, stopping at the first that fails *)
Fixpoint execute (cs : list command) (t : terminal) : terminal * bool :=
  match cs with
  | [] => (t, true)
  | c :: r => if works c then execute r (perform c t) else (t, false)
  end.
(** crates/textual/src/lib.rs:648-673 run_inner, around a loop that ends as [result]
    (a panic unwinds past the clean-up) *)
Definition run_inner (result : ending) (t : terminal) : terminal * ending :=
  let (t1, ok1) := execute [RawOn] t in
  if negb ok1 then (t1, Failed) else
  let (t2, ok2) := execute [EnterAlternate; HideCursor; MouseOn] t1 in
  if negb ok2 then (t2, Failed) else
  match result with
  | Panicked => (t2, Panicked)
  | _ =>
      let (t3, ok3) := execute [MouseOff; ShowCursor; LeaveAlternate] t2 in
      if negb ok3 then (t3, Failed) else
      let (t4, ok4) := execute [RawOff] t3 in
      if negb ok4 then (t4, Failed) else (t4, result)
  end.
End Terminal.

(** ** The tooltip timer *)
Section Tooltip.
Variable T : Type.
Variable eqb : T -> T -> bool.
Variable width : T -> Z.          (* desired width of the tooltip showing a text *)
Variable delay : nat.             (* App::tooltip_delay *)

(** lib.rs:738-742 and the Tooltip widget (tooltip.rs:26-45): what it shows and where *)
Record tip := {
  p_deadline : option nat; p_text : option T; p_visible : bool; p_mouse : option (Z * Z);
  p_shown : option (T * (Z * Z)) }.
Definition tip0 : tip := {| p_deadline := None; p_text := None; p_visible := false; p_mouse := None; p_shown := None |}.

Inductive tip_event :=
| Tick (now : nat)                                        (* lib.rs:824-853 *)
| Moved (now : nat) (pos : Z * Z) (hovered : option T)    (* 1018-1076: the tooltip of the widget under the pointer *)
| OtherMouse                                              (* 1077-1087: presses, releases, wheel *)
| Rebuilt.                                                (* 749-777: a new tree, with a new Tooltip *)

Definition same_pos (a b : Z * Z) : bool := ((fst a =? fst b) && (snd a =? snd b))%Z.
Definition place (mouse : Z * Z) (t : T) : Z * Z :=
  (Z.max 0 (fst mouse - Z.quot (width t) 2), Z.max 0 (snd mouse + 1))%Z.

Definition tip_step (p : tip) (e : tip_event) : tip :=
  match e with
  | Tick now =>
      match p_deadline p, p_text p, p_mouse p with
      | Some d, Some t, Some m =>
          if d <=? now then
            {| p_deadline := None; p_text := Some t; p_visible := true; p_mouse := Some m; p_shown := Some (t, place m t) |}
          else p
      | _, _, _ => p
      end
  | Moved now pos hovered =>
      let pos_changed := match p_mouse p with Some m => negb (same_pos m pos) | None => true end in
      match hovered with
      | Some t =>
          let text_changed := match p_text p with Some u => negb (eqb u t) | None => true end in
          let hide := p_visible p && (pos_changed || text_changed) in
          {| p_deadline := if pos_changed || text_changed || match p_deadline p with None => true | _ => false end
                           then Some (now + delay) else p_deadline p;
             p_text := Some t;
             p_visible := if hide then false else p_visible p;
             p_mouse := Some pos;
             p_shown := if hide then None else p_shown p |}
      | None =>
          {| p_deadline := None; p_text := None; p_visible := false; p_mouse := Some pos;
             p_shown := if p_visible p then None else p_shown p |}
      end
  | OtherMouse =>
      if p_visible p then
        {| p_deadline := p_deadline p; p_text := p_text p; p_visible := false; p_mouse := p_mouse p; p_shown := None |}
      else p
  | Rebuilt =>
      {| p_deadline := p_deadline p; p_text := p_text p; p_visible := p_visible p; p_mouse := p_mouse p; p_shown := None |}
  end.
Definition tip_run (es : list tip_event) : tip := fold_left tip_step es tip0.
End Tooltip.
