(** Model of what the event loop does with a key: crates/textual/src/lib.rs:691-951
    with [dispatch_action] (lib.rs:461-504), the focus functions of tree.rs at the
    root that lib.rs:691-700 builds (app_widget.rs) and the command palette.

    The root's children are the screen (0), the tooltip (1, never focusable) and the
    command palette (2).  The screen is a tree of Tree_Model, the palette that of
    Palette_Model.  What the application and the widgets of the screen know is a
    state [W]; their handlers are arbitrary functions on it.  Simplified: handlers
    reach the tree only as far as an action can ask for the focus of a widget by id;
    widgets do not appear, vanish or change whether they can have the focus; the
    application's [focus_index] is always 0 and [needs_recompose] false (the
    defaults); the palette is enabled and not hidden by a stylesheet; mouse events
    are those that the open palette understands. *)
From Coq Require Import String ZArith List Bool Arith.
From Verif Require Import Text_Model Tree_Model.
From Verif Require Palette_Model Keys_Model.
Import ListNotations.
Open Scope nat_scope.
Open Scope list_scope.

(** Whom the loop hands what: a key to the widget at a path of the screen, to the
    palette, to the palette's input line directly, to all (the root's own
    [on_event]), to [App::on_key]; an action to [dispatch_action], because of the
    palette key or because a widget or the palette asked for it, with what
    [on_action] answered. *)
Inductive hearing :=
| ToWidget (p : list nat) (k : Keys_Model.code) | ToPalette (k : Keys_Model.code) | ToLine (k : Keys_Model.code)
| ToAll (k : Keys_Model.code) | ToApp (k : Keys_Model.code) | Act (by_key : bool) (a : text) (handled : bool).

Definition palette_id : text := str "--command-palette".
(** the palette and the input line inside it: command_palette.rs:848-893 *)
Definition palette_path : list nat := [2].
Definition line_path : list nat := [2; 0; 0; 1].
(** lib.rs:468-503: the names of built-in actions *)
Definition named (a : text) (names : list string) : bool := existsb (fun n => text_eqb a (str n)) names.
Definition quits (a : text) : bool := named a ["app.quit"; "quit"]%string.
Definition submits (a : text) : bool := named a ["app.command_palette.submit"; "command_palette.submit"]%string.
Definition opens (a : text) : bool := named a ["app.command_palette"; "command_palette"]%string.

Section Loop.
Variables (W Msg P : Type).
(** what the palette's providers answer, see Palette_Model *)
Variable ask : P -> text -> list Palette_Model.hit.
(** lib.rs:869-870: whether the key is the application's palette key, see Keys_Model *)
Variable system : Keys_Model.event -> bool.
(** [on_event] of the widget at a path of the screen, and of the screen itself
    (screen.rs:759-769), which asks its children in turn *)
Variable widget_key : list nat -> Keys_Model.code -> W -> W * option Msg.
Variable screen_key : Keys_Model.code -> W -> W * option Msg.
(** lib.rs:908-920: the way of a message up from a path, and [App::handle_message] *)
Variable deliver : list nat -> Msg -> W -> W.
(** the text in the palette's input line after a key (input.rs:233-271, see Input_Model) *)
Variable typed : Keys_Model.code -> Palette_Model.palette P -> text.
(** tree.rs:459-473 [collect_pending_actions_mut] on the screen *)
Variable asked : W -> list text * W.
(** [App::on_action]: whether it was handled, and a [focus_by_id] it called *)
Variable on_action : text -> W -> bool * W * option text.
(** [App::on_key]: and whether it asked to quit *)
Variable on_key : Keys_Model.code -> W -> W * bool.
Variable command_providers : W -> list P.

Notation palette := (Palette_Model.palette P).
Notation pstep := (Palette_Model.step P ask).

Record state := State {
  s_screen : widget; s_path : list nat; s_cur : nat;       (* tree.rs:61-68 *)
  s_palette : palette; s_pfocus : bool;                    (* command_palette.rs:799-803 [focused] *)
  s_world : W; s_quit : bool; s_heard : list hearing }.
Definition is_open (s : state) : bool := Palette_Model.visible P (s_palette s).
Definition with_focus (screen : widget) (path : list nat) (cur : nat) (pf : bool) (s : state) : state :=
  State screen path cur (s_palette s) pf (s_world s) (s_quit s) (s_heard s).
Definition with_palette (p : palette) (s : state) : state :=
  State (s_screen s) (s_path s) (s_cur s) p (s_pfocus s) (s_world s) (s_quit s) (s_heard s).
Definition with_world (w : W) (s : state) : state :=
  State (s_screen s) (s_path s) (s_cur s) (s_palette s) (s_pfocus s) w (s_quit s) (s_heard s).
Definition or_quit (b : bool) (s : state) : state :=
  State (s_screen s) (s_path s) (s_cur s) (s_palette s) (s_pfocus s) (s_world s) (s_quit s || b) (s_heard s).
Definition hear (h : hearing) (s : state) : state :=
  State (s_screen s) (s_path s) (s_cur s) (s_palette s) (s_pfocus s) (s_world s) (s_quit s) (s_heard s ++ [h]).

(** app_widget.rs:228-234 [count_focusable], command_palette.rs:1861-1863; a closed
    palette does not take part (1836-1838) *)
Definition screen_count (s : state) : nat := if shown (s_screen s) then count_focusable (s_screen s) else 0.
Definition count (s : state) : nat := screen_count s + (if is_open s then 1 else 0).
(** app_widget.rs:251-257 [clear_focus], command_palette.rs:1865-1867 *)
Definition clear (s : state) : state :=
  with_focus (if shown (s_screen s) then clear_focus (s_screen s) else s_screen s) (s_path s) (s_cur s)
    (if is_open s then false else s_pfocus s) s.
(** app_widget.rs:236-249 [focus_nth], command_palette.rs:1869-1879 *)
Definition focus_at (n : nat) (s : state) : state * bool :=
  if n <? screen_count s then
    let (w, b) := focus_nth n (s_screen s) in (with_focus w (s_path s) (s_cur s) (s_pfocus s) s, b)
  else if is_open s && (n - screen_count s =? 0) then (with_focus (s_screen s) (s_path s) (s_cur s) true s, true)
  else (s, false).
(** tree.rs:524-553 [find_focus_path_recursive] from the root: an open palette can
    have the focus (command_palette.rs:1820-1822) and so can, whether the palette is
    open or not, the input line inside it (360-362, input.rs:332-334) *)
Definition path_to (n : nat) (s : state) : list nat :=
  match find_path (s_screen s) n with
  | inl p => 0 :: p
  | inr r =>
      if is_open s then match r with 0 => palette_path | 1 => line_path | _ => [] end
      else match r with 0 => line_path | _ => [] end
  end.
(** tree.rs:165-177 [update_focus] *)
Definition refocus (n : nat) (s : state) : state :=
  if (n =? s_cur s) && negb (match s_path s with [] => true | _ => false end) then s
  else with_focus (s_screen s) (path_to n s) n (s_pfocus s) s.
(** tree.rs:111-130 [set_focus_index] *)
Definition focus_index (n : nat) (s : state) : state * bool :=
  if count s =? 0 then (let s := clear s in with_focus (s_screen s) [] 0 (s_pfocus s) s, false)
  else if count s <=? n then (s, false)
  else let (s, b) := focus_at n (clear s) in if b then (refocus n s, true) else (s, false).
(** tree.rs:132-162 [focus_next], [focus_previous] *)
Definition next (s : state) : state :=
  if count s =? 0 then s else fst (focus_index ((s_cur s + 1) mod count s) s).
Definition previous (s : state) : state :=
  if count s =? 0 then s
  else fst (focus_index (if s_cur s =? 0 then count s - 1 else s_cur s - 1) s).
(** tree.rs:102-108, 555-579 [focus_by_id]; the input line has no id *)
Definition focus_id (id : text) (s : state) : state :=
  match find_index_by_id id (s_screen s) 0 with
  | inl n => fst (focus_index n s)
  | inr n => if is_open s && text_eqb id palette_id then fst (focus_index n s) else s
  end.

(** lib.rs:461-504 [dispatch_action] *)
Definition act (by_key : bool) (s : state) (a : text) : state :=
  let '(handled, w, f) := on_action a (s_world s) in
  let s := hear (Act by_key a handled) (with_world w s) in
  let s := match f with Some id => focus_id id s | None => s end in
  if handled then s
  else if quits a then or_quit true s
  else if submits a then with_palette (pstep (s_palette s) (Palette_Model.Submit P)) s
  else if opens a then
    let p := pstep (s_palette s) (Palette_Model.SetProviders P (command_providers (s_world s))) in
    focus_id palette_id (with_palette (pstep p (Palette_Model.OpenFocus P (s_cur s))) s)
  else s.
(** lib.rs:236-271 [drain_command_palette]; what the application does on the
    palette's events is left out *)
Definition drain (s : state) : state :=
  with_palette (pstep (pstep (s_palette s) (Palette_Model.Drain P)) (Palette_Model.TakeEvents P)) s.
(** command_palette.rs:1724-1768 [on_event] *)
Definition palette_label (k : Keys_Model.code) (p : palette) : Palette_Model.label P :=
  match k with
  | Keys_Model.Esc => Palette_Model.Esc P
  | Keys_Model.Enter => Palette_Model.Enter P
  | Keys_Model.Up => Palette_Model.Up P
  | Keys_Model.Down => Palette_Model.Down P
  | _ => Palette_Model.Edit P (typed k p)
  end.
(** lib.rs:908-920: a message, if there is one *)
Definition answer (p : list nat) (r : W * option Msg) (s : state) : state :=
  with_world (match snd r with Some m => deliver p m (fst r) | None => fst r end) s.
(** tree.rs:182-205 [dispatch_key] with app_widget.rs:157-165 for the root itself;
    the screen is the last child the root asks *)
Definition dispatch (k : Keys_Model.code) (s : state) : state :=
  match s_path s with
  | 0 :: p =>
      match follow (s_screen s) p with
      | Some _ => answer p (widget_key p k (s_world s)) (hear (ToWidget p k) s)
      | None => s
      end
  | [] =>
      let s := if is_open s then with_palette (pstep (s_palette s) (palette_label k (s_palette s))) s else s in
      answer [] (screen_key k (s_world s)) (hear (ToAll k) s)
  | [2] => with_palette (if is_open s then pstep (s_palette s) (palette_label k (s_palette s)) else s_palette s) (hear (ToPalette k) s)
  | [2; 0; 0; 1] => hear (ToLine k) s
  | _ => s
  end.
(** lib.rs:928-936: the actions asked for by the widgets of the screen, then by the palette *)
Definition actions (s : state) : state :=
  let (l, w) := asked (s_world s) in
  let l := l ++ match Palette_Model.pending_action P (s_palette s) with Some a => [a] | None => [] end in
  fold_left (act false) l (with_palette (pstep (s_palette s) (Palette_Model.TakeAction P)) (with_world w s)).
(** lib.rs:937-945, command_palette.rs:997-1003 *)
Definition give_back (s : state) : state :=
  if is_open s then s
  else match Palette_Model.restore_focus P (s_palette s) with
       | Some n => fst (focus_index n (with_palette (pstep (s_palette s) (Palette_Model.TakeRestore P)) s))
       | None => s
       end.
(** lib.rs:868-951: the key branch *)
Definition move (k : Keys_Model.code) (s : state) : state :=
  if is_open s then s
  else match k with Keys_Model.Tab => next s | Keys_Model.BackTab => previous s | _ => s end.
Definition tell_app (was_open : bool) (k : Keys_Model.code) (s : state) : state :=
  if was_open then s
  else let (w, q) := on_key k (s_world s) in or_quit q (with_world w (hear (ToApp k) s)).
Definition press (e : Keys_Model.event) (s : state) : state :=
  if system e then drain (act true s (str "app.command_palette"))
  else
    let k := Keys_Model.k_code e in
    drain (give_back (actions (tell_app (is_open s) k (dispatch k (move k s))))).
(** lib.rs:976-1022: a mouse event, which only an open palette gets *)
Definition click (l : Palette_Model.label P) (s : state) : state :=
  if is_open s then drain (give_back (actions (with_palette (pstep (s_palette s) l) s))) else s.
(** lib.rs:792-801: whether the widget at the focus path can have the focus; [None]: there is none *)
Definition can_focus (s : state) : option bool :=
  match s_path s with
  | 0 :: p => option_map is_focusable (follow (s_screen s) p)
  | [] => Some false
  | [2] => Some (is_open s)
  | [2; 0; 0; 1] => Some true
  | _ => None
  end.
Definition settle (s : state) : state :=
  match can_focus s with Some false => fst (focus_index 0 s) | _ => s end.

(** What happens: a key; a press outside the palette or on one of its entries; time
    passing and a search task of the palette ending; the 50 ms tick; a message or
    anything else that concerns only the application. *)
Inductive happening :=
| Key (e : Keys_Model.event) | ClickOutside | ClickEntry (i : nat) (release : bool)
| Time (ms : nat) | Task (i : nat) | Tick | Work (f : W -> W).
Definition handle (s : state) (e : happening) : state :=
  match e with
  | Key e => press e s
  | ClickOutside => click (Palette_Model.ClickOutside P) s
  | ClickEntry i r => click (Palette_Model.ClickEntry P i r) s
  | Time ms => with_palette (pstep (s_palette s) (Palette_Model.Advance P ms)) s
  | Task i => with_palette (pstep (s_palette s) (Palette_Model.Finish P i)) s
  | Tick => drain s
  | Work f => drain (with_world (f (s_world s)) s)
  end.
(** lib.rs:750: nothing more happens once the application quits *)
Definition turn (s : state) (e : happening) : state :=
  if s_quit s then s else let s := handle s e in if s_quit s then s else settle s.
Definition turns (s : state) (es : list happening) : state := fold_left turn es s.
(** lib.rs:711-714: the start; [focus_nth] is called on the cleared tree *)
Definition start (screen : widget) (w : W) : state :=
  let s := clear (State screen [] 0 (Palette_Model.palette_new P true) false w false []) in
  settle (refocus 0 (fst (focus_at 0 s))).
End Loop.
Arguments State {W P}. Arguments s_screen {W P}. Arguments s_path {W P}. Arguments s_cur {W P}. Arguments s_palette {W P}.
Arguments s_pfocus {W P}. Arguments s_world {W P}. Arguments s_quit {W P}. Arguments s_heard {W P}.
Arguments is_open {W P}. Arguments with_focus {W P}. Arguments with_palette {W P}. Arguments with_world {W P}. Arguments or_quit {W P}. Arguments hear {W P}.
Arguments screen_count {W P}. Arguments count {W P}. Arguments clear {W P}. Arguments focus_at {W P}. Arguments path_to {W P}. Arguments refocus {W P}.
Arguments focus_index {W P}. Arguments next {W P}. Arguments previous {W P}. Arguments focus_id {W P}. Arguments act {W P}. Arguments drain {W P}.
Arguments palette_label {P}. Arguments answer {W Msg P}. Arguments dispatch {W Msg P}. Arguments actions {W P}. Arguments give_back {W P}.
Arguments move {W P}. Arguments tell_app {W P}. Arguments press {W Msg P}. Arguments click {W P}. Arguments can_focus {W P}. Arguments settle {W P}.
Arguments Key {W}. Arguments ClickOutside {W}. Arguments ClickEntry {W}. Arguments Time {W}. Arguments Task {W}. Arguments Tick {W}. Arguments Work {W}.
Arguments handle {W Msg P}. Arguments turn {W Msg P}. Arguments turns {W Msg P}. Arguments start {W P}.

(** lib.rs:332-336: the default [on_key]; [request_quit] sets the flag that
    [should_quit] reads (lib.rs:339-341, 430-432) *)
Definition default_on_key {W : Type} (k : Keys_Model.code) (w : W) : W * bool :=
  (w, Keys_Model.code_eqb k (Keys_Model.Char 113%Z) || Keys_Model.code_eqb k Keys_Model.Esc).
(** lib.rs:419-421: the default [on_action] *)
Definition default_on_action {W : Type} (a : text) (w : W) : bool * W * option text := (false, w, None).
(** lib.rs:346-376 [command_palette_commands]: the actions of the default commands *)
Definition default_commands : list string := ["app.keys"; "app.maximize"; "app.quit"; "app.screenshot"; "app.theme"]%string.
