(** Model of the two clickable widgets: crates/textual/src/widget/switch.rs and
    button.rs.

    A mouse event carries its kind, its position and the region the widget had
    when it was delivered.  The callback [on_change] is applied to the new value:
    a message is that value.  Styles, ids and the label are left out. *)
From Coq Require Import String ZArith List Bool Arith.
From Verif Require Import Text_Model Canvas_Model.
Import ListNotations.
Open Scope Z_scope.

(** crossterm's [KeyCode], [MouseButton], [MouseEventKind], as far as these
    widgets look at them *)
Inductive key := KSpace | KEnter | KOther.
Inductive button := BLeft | BRight | BMiddle.
Inductive mkind := MMoved | MDown (b : button) | MUp (b : button) | MOther.

(** everything that can be done to the widgets *)
Inductive event :=
| Key (k : key)
| Mouse (k : mkind) (x y : Z) (r : region)
| SetFocus (b : bool) | SetHover (b : bool) | SetActive (b : bool) | ClearHover
| SetDisabled (b : bool) | SetVisible (b : bool) | SetLoading (b : bool)
| SetValue (b : bool) | Tick | SetInline | MarkDirty | MarkClean | TakeAction.

(** ** Switch *)

(** switch.rs:14-43 [struct Switch] *)
Record switch := Switch {
  w_focused : bool; w_hovered : bool; w_active : bool; w_value : bool; w_dirty : bool;
  w_visible : bool; w_loading : bool; w_disabled : bool; w_frame : nat }.

(** switch.rs:49-66 [new] *)
Definition switch_new (v : bool) : switch := Switch false false false v true true false false 0.

(** switch.rs:8 [SPINNER_FRAMES] *)
Definition spinner : text := [10251; 10265; 10297; 10296; 10300; 10292; 10278; 10279; 10247; 10255].

Definition upd_focus (s : switch) (b d : bool) := Switch b (w_hovered s) (w_active s) (w_value s) d (w_visible s) (w_loading s) (w_disabled s) (w_frame s).
Definition upd_hover (s : switch) (b d : bool) := Switch (w_focused s) b (w_active s) (w_value s) d (w_visible s) (w_loading s) (w_disabled s) (w_frame s).
Definition upd_active (s : switch) (b d : bool) := Switch (w_focused s) (w_hovered s) b (w_value s) d (w_visible s) (w_loading s) (w_disabled s) (w_frame s).
Definition upd_value (s : switch) (b d : bool) := Switch (w_focused s) (w_hovered s) (w_active s) b d (w_visible s) (w_loading s) (w_disabled s) (w_frame s).
Definition upd_dirty (s : switch) (d : bool) := Switch (w_focused s) (w_hovered s) (w_active s) (w_value s) d (w_visible s) (w_loading s) (w_disabled s) (w_frame s).
Definition upd_visible (s : switch) (b d : bool) := Switch (w_focused s) (w_hovered s) (w_active s) (w_value s) d b (w_loading s) (w_disabled s) (w_frame s).
Definition upd_loading (s : switch) (b d : bool) := Switch (w_focused s) (w_hovered s) (w_active s) (w_value s) d (w_visible s) b (w_disabled s) (w_frame s).
Definition upd_disabled (s : switch) (b d : bool) := Switch (w_focused s) (w_hovered s) (w_active s) (w_value s) d (w_visible s) (w_loading s) b (w_frame s).
Definition upd_frame (s : switch) (n : nat) (d : bool) := Switch (w_focused s) (w_hovered s) (w_active s) (w_value s) d (w_visible s) (w_loading s) (w_disabled s) n.

(** the setters that compare first: switch.rs:134-139, 258-263, 354-372,
    397-424 *)
Definition set_if (old new : bool) (s : switch) (upd : switch -> bool -> bool -> switch) : switch :=
  if Bool.eqb old new then s else upd s new true.

(** switch.rs:144-149 [tick_spinner] *)
Definition tick (s : switch) : switch :=
  upd_frame s ((w_frame s + 1) mod 10)%nat (if w_loading s then true else w_dirty s).

(** switch.rs:236-252 [on_event] *)
Definition switch_key (s : switch) (k : key) : switch * option bool :=
  if w_disabled s || w_loading s || negb (w_focused s) then (s, None)
  else match k with
       | KSpace | KEnter => (upd_value s (negb (w_value s)) true, Some (negb (w_value s)))
       | KOther => (s, None)
       end.

(** switch.rs:308-352 [on_mouse] *)
Definition switch_mouse (s : switch) (k : mkind) (x y : Z) (r : region) : switch * option bool :=
  let inb := contains_point r x y in
  match k with
  | MMoved => (set_if (w_hovered s) inb s upd_hover, None)
  | MDown _ => if inb && negb (w_disabled s) && negb (w_loading s) then (set_if (w_active s) true s upd_active, None) else (s, None)
  | MUp _ =>
      if inb && w_active s && negb (w_disabled s) && negb (w_loading s) then
        (upd_value (upd_active s false true) (negb (w_value s)) true, Some (negb (w_value s)))
      else (set_if (w_active s) false s upd_active, None)
  | MOther => (s, None)
  end.

(** one call: the new state and the message, if any *)
Definition switch_step (s : switch) (e : event) : switch * option bool :=
  match e with
  | Key k => switch_key s k
  | Mouse k x y r => switch_mouse s k x y r
  | SetFocus b => (set_if (w_focused s) b s upd_focus, None)
  | SetHover b => (set_if (w_hovered s) b s upd_hover, None)
  | SetActive b => (set_if (w_active s) b s upd_active, None)
  | ClearHover => let s1 := set_if (w_hovered s) false s upd_hover in (set_if (w_active s1) false s1 upd_active, None)
  | SetDisabled b => (set_if (w_disabled s) b s upd_disabled, None)
  | SetVisible b => (set_if (w_visible s) b s upd_visible, None)
  | SetLoading b => (set_if (w_loading s) b s upd_loading, None)
  | SetValue b => (set_if (w_value s) b s upd_value, None)
  | Tick => (tick s, None)
  | SetInline => (upd_dirty s true, None)              (* switch.rs:218-221, 231-234 *)
  | MarkDirty => (upd_dirty s true, None)
  | MarkClean => (upd_dirty s false, None)
  | TakeAction => (s, None)                            (* default of the trait *)
  end.

(** switch.rs:163-207 [render]: the text that is put on the canvas; [None] is the
    out-of-bounds panic of [SPINNER_FRAMES[...]] *)
Definition switch_text (s : switch) : option text :=
  let l := if w_focused s then str ">[" else str " [" in
  let r := if w_focused s then str " ]<" else str " ] " in
  if w_loading s then
    option_map (fun f => l ++ str "  " ++ [f] ++ str "  " ++ r) (nth_error spinner (w_frame s))
  else Some (l ++ (if w_value s then str "  ON " else str " OFF ") ++ r).

(** switch.rs:265-280 [get_state]: focus, hover, active, disabled *)
Definition switch_states (s : switch) : bool * bool * bool * bool :=
  (w_focused s, w_hovered s, w_active s, w_disabled s).

(** switch.rs:294-297 [is_focusable] *)
Definition switch_focusable (s : switch) : bool := w_visible s && negb (w_disabled s) && negb (w_loading s).

(** ** Button *)

(** button.rs:43-55 [struct Button]; [b_handler]: an [on_press] callback is set *)
Record btn := Btn {
  b_focused : bool; b_hovered : bool; b_active : bool; b_dirty : bool; b_disabled : bool;
  b_action : option text; b_handler : bool; b_pending : option text }.

(** button.rs:58-77 [new] with [with_action], [with_on_press] *)
Definition btn_new (action : option text) (handler : bool) : btn :=
  Btn false false false true false action handler None.

Definition bupd_focus (s : btn) (b d : bool) := Btn b (b_hovered s) (b_active s) d (b_disabled s) (b_action s) (b_handler s) (b_pending s).
Definition bupd_hover (s : btn) (b d : bool) := Btn (b_focused s) b (b_active s) d (b_disabled s) (b_action s) (b_handler s) (b_pending s).
Definition bupd_active (s : btn) (b d : bool) := Btn (b_focused s) (b_hovered s) b d (b_disabled s) (b_action s) (b_handler s) (b_pending s).
Definition bupd_dirty (s : btn) (d : bool) := Btn (b_focused s) (b_hovered s) (b_active s) d (b_disabled s) (b_action s) (b_handler s) (b_pending s).
Definition bupd_disabled (s : btn) (b d : bool) := Btn (b_focused s) (b_hovered s) (b_active s) d b (b_action s) (b_handler s) (b_pending s).
Definition bupd_pending (s : btn) (p : option text) := Btn (b_focused s) (b_hovered s) (b_active s) (b_dirty s) (b_disabled s) (b_action s) (b_handler s) p.
Definition bset_if (old new : bool) (s : btn) (upd : btn -> bool -> bool -> btn) : btn :=
  if Bool.eqb old new then s else upd s new true.

(** what a call hands to its caller *)
Inductive outcome := Nothing | Message | Action (a : text).

(** button.rs:183-193 [press] *)
Definition press (s : btn) : btn * outcome :=
  if b_disabled s then (s, Nothing)
  else match b_action s with
       | Some a => (bupd_pending s (Some a), Nothing)
       | None => (s, if b_handler s then Message else Nothing)
       end.

(** button.rs:457-465 [on_event] *)
Definition btn_key (s : btn) (k : key) : btn * outcome :=
  if b_disabled s then (s, Nothing)
  else match k with KSpace | KEnter => press s | KOther => (s, Nothing) end.

(** button.rs:467-500 [on_mouse] *)
Definition btn_mouse (s : btn) (k : mkind) (x y : Z) (r : region) : btn * outcome :=
  let inb := contains_point r x y in
  match k with
  | MMoved => (bset_if (b_hovered s) inb s bupd_hover, Nothing)
  | MDown BLeft => if inb && negb (b_disabled s) then (bset_if (b_active s) true s bupd_active, Nothing) else (s, Nothing)
  | MUp BLeft =>
      if b_active s then
        let s1 := bupd_active s false true in
        if inb && negb (b_disabled s) then press s1 else (s1, Nothing)
      else (s, Nothing)
  | _ => (s, Nothing)
  end.

Definition btn_step (s : btn) (e : event) : btn * outcome :=
  match e with
  | Key k => btn_key s k
  | Mouse k x y r => btn_mouse s k x y r
  | SetFocus b => (bset_if (b_focused s) b s bupd_focus, Nothing)      (* button.rs:542-547 *)
  | SetHover b => (bset_if (b_hovered s) b s bupd_hover, Nothing)      (* button.rs:502-510 *)
  | SetActive b => (bset_if (b_active s) b s bupd_active, Nothing)     (* button.rs:519-527 *)
  | ClearHover => (bset_if (b_hovered s) false s bupd_hover, Nothing)  (* button.rs:512-517 *)
  | SetDisabled b => (bupd_disabled s b true, Nothing)                 (* button.rs:557-560 *)
  | SetVisible _ | SetLoading _ => (s, Nothing)                        (* defaults of the trait *)
  | SetValue _ | Tick => (s, Nothing)                                  (* not methods of a button *)
  | SetInline | MarkDirty => (bupd_dirty s true, Nothing)              (* button.rs:421-442 *)
  | MarkClean => (bupd_dirty s false, Nothing)                         (* button.rs:444-447 *)
  | TakeAction =>                                                      (* button.rs:582-584 *)
      (bupd_pending s None, match b_pending s with Some a => Action a | None => Nothing end)
  end.

(** button.rs:396-411 [get_state] *)
Definition btn_states (s : btn) : bool * bool * bool * bool := (b_focused s, b_hovered s, b_active s, b_disabled s).

(** ** Histories: the state afterwards and what the calls returned *)
Fixpoint switch_run (s : switch) (h : list event) : switch * list (option bool) :=
  match h with
  | [] => (s, [])
  | e :: r => let '(s1, m) := switch_step s e in let '(s2, ms) := switch_run s1 r in (s2, m :: ms)
  end.
Fixpoint btn_run (s : btn) (h : list event) : btn * list outcome :=
  match h with
  | [] => (s, [])
  | e :: r => let '(s1, m) := btn_step s e in let '(s2, ms) := btn_run s1 r in (s2, m :: ms)
  end.
