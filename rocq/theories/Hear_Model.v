(** Model of who hears a message on its way up from the focused widget:
    crates/textual/src/tree.rs:410-435 [bubble_message] (from Tree_Model) with the
    [handle_message] of widget/screen.rs and widget/app_widget.rs.

    The tree is the one lib.rs:691-699 builds: the application's root widget, with
    the screen as its first child and overlays (the tooltip and the command palette)
    after it.  Every other widget has a handler of its own, any function; the default
    of widget.rs:422-424, which does nothing, is one of them.  Wrappers (macros.rs:
    187-193, label.rs:356-362, containers/vertical_scroll.rs:224-230, …) hand both
    [get_child_mut] and [handle_message] on to the widget inside and are left out.
    The screens a user may put inside the screen are left out. *)
From Coq Require Import List Bool Arith.
From Verif Require Import Text_Model Tree_Model.
Import ListNotations.

Section Hearing.
Variable M : Type.
Variable St : Type.
(** the [handle_message] of the widgets other than the root and the screen *)
Variable own : list nat -> St -> envelope M -> option M * St * envelope M.

Definition kids_of (w : widget) : list widget := match w with Leaf _ => [] | Box _ ks => ks end.
(** screen.rs:1164-1171: the children in turn, up to one that answers *)
Fixpoint until_changed (l : list (list nat)) (s : St) (e : envelope M) : option M * St * envelope M :=
  match l with
  | [] => (None, s, e)
  | p :: r => let '(o, s, e) := own p s e in
              match o with Some m => (Some m, s, e) | None => until_changed r s e end
  end.
(** app_widget.rs:219-225: all the children; the answer of the last one *)
Fixpoint all_of (handled : option M) (l : list (list nat)) (s : St) (e : envelope M) : option M * St * envelope M :=
  match l with
  | [] => (handled, s, e)
  | p :: r => let '(o, s, e) := own p s e in all_of o r s e
  end.
Definition screen_handles (root : widget) (s : St) (e : envelope M) : option M * St * envelope M :=
  match kids_of root with
  | [] => (None, s, e)
  | screen :: _ => until_changed (map (fun i => [0; i]) (seq 0 (length (kids_of screen)))) s e
  end.
Definition app_handles (root : widget) (s : St) (e : envelope M) : option M * St * envelope M :=
  match kids_of root with
  | [] => (None, s, e)
  | _ :: overlays =>
      let '(o, s, e) := screen_handles root s e in
      all_of o (map (fun j => [j]) (seq 1 (length overlays))) s e
  end.
Definition handles (root : widget) (p : list nat) (s : St) (e : envelope M) : option M * St * envelope M :=
  match p with
  | [] => app_handles root s e
  | [0] => screen_handles root s e
  | _ => own p s e
  end.
(** lib.rs:905-917: a message of the focused widget at [path], up to the application *)
Definition rise (root : widget) (path : list nat) (s : St) (e : envelope M) : St * envelope M :=
  bubble_message M St (handles root) root path s e.
End Hearing.
