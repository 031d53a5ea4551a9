(** Model of the actions that events leave with widgets and that the event loop then
    performs: crates/textual/src/tree.rs:459-473 [collect_pending_actions_mut], lib.rs:927-936
    and 1002-1011, and [take_pending_action] of the widgets.

    Of a widget the kind, the action it holds, and the children that [for_each_child]
    visits are kept.  Boxes used as widgets are left out. *)
From Coq Require Import ZArith List Bool Arith.
From Verif Require Import Text_Model Name_Model.
From Verif Require Hover_Model.
Import ListNotations.
Open Scope nat_scope.
Open Scope list_scope.

Inductive node := N (k : kind) (pending : option text) (kids : list node).
Definition n_kind (n : node) : kind := match n with N k _ _ => k end.
Definition n_pending (n : node) : option text := match n with N _ p _ => p end.
Definition n_kids (n : node) : list node := match n with N _ _ ks => ks end.

Section User.
(** whether the widgets of the program hand out their actions *)
Variable user_takes : bool.

(** the widgets with a [take_pending_action] that reaches an action:
    static_widget.rs:1035-1037, label.rs:300-302, button.rs:582-584, header.rs:510-512
    (the icon), command_palette.rs:134-136 (the search icon), 1816-1818 (the palette).
    command_palette.rs:356 and 609 ask an [Input] and an [OptionList], which have the
    default of widget.rs:320-322: none *)
Definition takes (k : kind) : bool :=
  match k with
  | KStatic | KLabel | KButton | KHeaderIcon | KSearchIcon | KPalette => true
  | KUser _ _ => user_takes
  | _ => false
  end.
(** the widgets in which an event can leave an action: static_widget.rs:967-974 for a
    left press on a link, and the widgets that forward [on_mouse] to a static: label.rs:284,
    header.rs:110 and 269 (title, clock), input.rs:273, command_palette.rs:122, 344;
    button.rs:187-189, header.rs (icon) when pressed; command_palette.rs for a command chosen *)
Definition stores (k : kind) : bool :=
  match k with
  | KStatic | KLabel | KHeaderTitle | KHeaderClock | KInput | KSearchIcon | KCommandInput | KButton | KHeaderIcon | KPalette | KUser _ _ => true
  | _ => false
  end.
(** one action at most is kept: the last *)
Definition store (given : option text) (k : kind) (p : option text) : option text :=
  if stores k then match given with Some a => Some a | None => p end else p.

Fixpoint at_index (i : nat) (f : node -> node) (l : list node) : list node :=
  match l, i with
  | [], _ => []
  | x :: r, 0 => f x :: r
  | x :: r, S j => x :: at_index j f r
  end.
(** the event at a place (a list of child numbers) *)
Fixpoint update (p : list nat) (given : option text) (n : node) : node :=
  match p with
  | [] => match n with N k s ks => N k (store given k s) ks end
  | i :: r => match n with N k s ks => N k s (at_index i (update r given) ks) end
  end.

Fixpoint height (n : node) : nat :=
  match n with N _ _ ks => S (fold_right (fun c m => Nat.max (height c) m) 0 ks) end.
(** tree.rs:459-473: the widget's action, then those of its children in order; the
    widgets no longer hold them.  [f] bounds the depth (see [height]) *)
Fixpoint collect (f : nat) (n : node) : list text * node :=
  match f with
  | 0 => ([], n)
  | S f' =>
      match n with
      | N k p ks =>
          let own := if takes k then match p with Some a => [a] | None => [] end else [] in
          let r := if Hover_Model.walks k then map (collect f') ks else map (fun c => ([], c)) ks in
          (own ++ concat (map fst r), N k (if takes k then None else p) (map snd r))
      end
  end.

(** an event: the widgets handed it, and the action it leaves with each: for texts the
    link at the point if it is a left press, for buttons and icons their action if it
    fires them (Press_Model), for the palette that of the command chosen *)
Record event := Event { handed : list (list nat); given : list nat -> option text }.
(** lib.rs:976-1011 and 880-936: the widgets get the event, then the actions are collected and
    dispatched in order *)
Definition step (e : event) (n : node) : list text * node :=
  let n := fold_left (fun n p => update p (given e p) n) (handed e) n in collect (height n) n.
Fixpoint run (es : list event) (n : node) : list (list text) :=
  match es with
  | [] => []
  | e :: r => let s := step e n in fst s :: run r (snd s)
  end.
End User.
