(** Words used in the theorems about keys, the palette and the focus. *)
From Coq Require Import String ZArith List Bool Arith.
From Verif Require Import Text_Model Tree_Model Tree_Spec.
From Verif Require Palette_Model Keys_Model.
From Verif Require Import Keypress_Model.
Import ListNotations.
Open Scope nat_scope.
Open Scope list_scope.

(** A screen the focus can live on: not hidden, with no hidden part, with at least one
    widget that can have the focus, none of which bears the palette's id. *)
Record usable (screen : widget) : Prop := {
  u_shown : shown screen = true;
  u_open : nothing_hidden screen;
  u_some : focus_order screen <> [];
  u_id : forall q, In q (focus_items screen) -> w_id (data (snd q)) <> Some palette_id }.
(** No widget of the screen can have the focus. *)
Definition passive (screen : widget) : Prop := forall q, In q (walk everything screen) -> is_focusable (snd q) = false.

(** The widget at [p], and no other of the screen, has the focus. *)
Definition focus_is (screen : widget) (p : list nat) : Prop := forall q, has_focus screen q <-> q = p.
Definition focus_nowhere (screen : widget) : Prop := forall q, ~ has_focus screen q.

(** Actions that were run because a widget or a command of the palette asked for them. *)
Definition asked_for (h : hearing) : Prop := match h with Act false _ _ => True | _ => False end.
(** One that opens the palette, one that ends the application: not handled by the application itself. *)
Definition reopens (h : hearing) : Prop := match h with Act false a false => a = str "app.command_palette" \/ a = str "command_palette" | _ => False end.
Definition ends (h : hearing) : Prop :=
  match h with
  | ToApp k => k = Keys_Model.Char 113%Z \/ k = Keys_Model.Esc
  | Act _ a false => a = str "app.quit" \/ a = str "quit"
  | _ => False
  end.
(** Happenings other than the use of the mouse. *)
Definition no_mouse {W} (e : happening W) : Prop :=
  match e with ClickOutside | ClickEntry _ _ => False | _ => True end.
(** Where Tab and Shift+Tab lead from the [i]-th of [n] widgets; other keys do not move the focus. *)
Definition moved (k : Keys_Model.code) (n i : nat) : nat :=
  match k with
  | Keys_Model.Tab => (i + 1) mod n
  | Keys_Model.BackTab => (i + n - 1) mod n
  | _ => i
  end.
(** What is heard while the palette is on screen and nothing reaches it. *)
Definition unheard (h : hearing) : Prop := (exists k, h = ToLine k) \/ h = Act true (str "app.command_palette") false.

(** What a key means to an open palette; [line] is the text in its input line after it. *)
Definition means (P : Type) (k : Keys_Model.code) (line : text) : Palette_Model.label P :=
  match k with
  | Keys_Model.Esc => Palette_Model.Esc P
  | Keys_Model.Enter => Palette_Model.Enter P
  | Keys_Model.Up => Palette_Model.Up P
  | Keys_Model.Down => Palette_Model.Down P
  | _ => Palette_Model.Edit P line
  end.
(** What happens to the palette other than by the user's hand. *)
Definition unpressed (P : Type) (l : Palette_Model.label P) : Prop :=
  match l with
  | Palette_Model.Esc _ | Palette_Model.Enter _ | Palette_Model.Up _ | Palette_Model.Down _ | Palette_Model.Edit _ _
  | Palette_Model.ClickOutside _ | Palette_Model.ClickEntry _ _ _ => False
  | _ => True
  end.
(** What a widget's answer does: the message it gives, if any, is delivered from where the widget is. *)
Definition answered_by {W Msg : Type} (deliver : list nat -> Msg -> W -> W) (p : list nat) (r : W * option Msg) : W :=
  match r with (w, Some m) => deliver p m w | (w, None) => w end.
(** Actions, one after the other. *)
Definition acted_on {W : Type} (on_action : text -> W -> bool * W * option text) (l : list text) (w : W) : W :=
  fold_left (fun w a => snd (fst (on_action a w))) l w.
Definition waiting {P : Type} (p : Palette_Model.palette P) : list text :=
  match Palette_Model.pending_action P p with Some a => [a] | None => [] end.
