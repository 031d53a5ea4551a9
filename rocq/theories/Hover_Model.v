(** Model of the hover state of the widgets of a tree when the pointer moves:
    crates/textual/src/tree.rs:479-487 [clear_all_hover], lib.rs:966-970, and
    [clear_hover] and [on_mouse] of the widgets.

    Of a widget the kind, whether it takes part in the layout, whether it is
    hovered and pressed, the link under the pointer, whether it is dirty, and the
    children that [for_each_child] visits are kept.  The hover mark that
    scrollable containers keep for their own bars is left out (Bars_Model), and boxes
    used as widgets. *)
From Coq Require Import ZArith List Bool Arith.
From Verif Require Import Text_Model Name_Model.
Import ListNotations.
Open Scope nat_scope.
Open Scope list_scope.

Record look := Look { hovered : bool; pressed : bool; link : option text; dirty : bool }.
Inductive node := N (k : kind) (shown : bool) (s : look) (kids : list node).
Definition n_kind (n : node) : kind := match n with N k _ _ _ => k end.
Definition n_shown (n : node) : bool := match n with N _ b _ _ => b end.
Definition n_look (n : node) : look := match n with N _ _ s _ => s end.
Definition n_kids (n : node) : list node := match n with N _ _ _ ks => ks end.

Section User.
(** what a widget of the program does in [clear_hover] and when the pointer moves over it *)
Variables (user_clear user_move : look -> look).

(** [clear_hover] of a widget, as far as itself is concerned: button.rs:512-517,
    header.rs:532-537; switch.rs:374-384, which also ends a press;
    scrollbar.rs:433-440 ([pressed] is a grabbed thumb); static_widget.rs:992-998 and
    label.rs:296-298 for the link; nothing by default (widget.rs:313) *)
Definition own_clear (k : kind) (s : look) : look :=
  match k with
  | KButton | KHeaderIcon => if hovered s then Look false (pressed s) (link s) true else s
  | KSwitch => Look false false (link s) (dirty s || hovered s || pressed s)
  | KBar => if pressed s then s else if hovered s then Look false (pressed s) (link s) true else s
  | KStatic | KLabel => match link s with Some _ => Look (hovered s) (pressed s) None true | None => s end
  | KUser _ _ => user_clear s
  | _ => s
  end.
(** the widgets whose [clear_hover] goes on to their children that take part in the
    layout: container.rs:1601-1607, macros.rs:131, grid.rs:450-456, item_grid.rs:331-337,
    scrollable.rs:1421-1428, vertical_scroll.rs:168, horizontal_scroll.rs:171,
    containers.rs:207-211 and 349-353 (which ask [is_visible]; simplification: the same
    here), screen.rs:1146-1152 *)
Definition forwards (k : kind) : bool :=
  match k with
  | KContainer | KVertical | KHorizontal | KGrid | KItemGrid | KScrollable | KVScroll | KHScroll | KCenter | KMiddle | KScreen | KApp => true
  | _ => false
  end.
(** app_widget.rs:205-209: to all of them *)
Definition to_all (k : kind) : bool := match k with KApp => true | _ => false end.
Fixpoint clear_hover (n : node) : node :=
  match n with
  | N k sh s ks =>
      N k sh (own_clear k s) (if forwards k then map (fun c => if to_all k || n_shown c then clear_hover c else c) ks else ks)
  end.

(** [for_each_child] visits the children: see [Name_Model.styled_children] *)
Definition walks (k : kind) : bool :=
  match k with
  | KUser _ _ | KContainer | KVertical | KHorizontal | KGrid | KItemGrid | KScrollable | KVScroll | KHScroll | KCenter | KMiddle
  | KScreen | KApp | KPalette | KOptions | KHeader | KCommandList => true
  | _ => false
  end.
Fixpoint height (n : node) : nat :=
  match n with N _ _ _ ks => S (fold_right (fun c m => Nat.max (height c) m) 0 ks) end.
(** tree.rs:479-487 [clear_all_hover]: the widget, then its children as they are then;
    [f] bounds the depth (see [height]) *)
Fixpoint clear_all (f : nat) (n : node) : node :=
  match f with
  | 0 => n
  | S f' => match clear_hover n with
            | N k sh s ks => N k sh s (if walks k then map (clear_all f') ks else ks)
            end
  end.

Definition opt_eqb (a b : option text) : bool :=
  match a, b with Some x, Some y => text_eqb x y | None, None => true | _, _ => false end.
(** [on_mouse] with [MouseEventKind::Moved] in the widget's region: button.rs:472-477,
    switch.rs:316-323, header.rs:467-472; scrollbar.rs:241-250; static_widget.rs:976-985
    where [found] is the link at the point, and the widgets that forward to it:
    label.rs:284, header.rs:110 and 269, input.rs:273, command_palette.rs:122, 344 *)
Definition on_move (found : option text) (k : kind) (s : look) : look :=
  match k with
  | KButton | KSwitch | KHeaderIcon => if hovered s then s else Look true (pressed s) (link s) true
  | KBar => if pressed s || hovered s then s else Look true (pressed s) (link s) true
  | KStatic | KLabel | KHeaderTitle | KHeaderClock | KInput | KSearchIcon | KCommandInput =>
      if opt_eqb found (link s) then s else Look (hovered s) (pressed s) found true
  | KUser _ _ => user_move s
  | _ => s
  end.

(** a change of the widget at a place (a list of child numbers) *)
Fixpoint at_index (i : nat) (f : node -> node) (l : list node) : list node :=
  match l, i with
  | [], _ => []
  | x :: r, 0 => f x :: r
  | x :: r, S j => x :: at_index j f r
  end.
Fixpoint update (p : list nat) (f : kind -> look -> look) (n : node) : node :=
  match p with
  | [] => match n with N k sh s ks => N k sh (f k s) ks end
  | i :: r => match n with N k sh s ks => N k sh s (at_index i (update r f) ks) end
  end.

(** lib.rs:966-990 for [MouseEventKind::Moved]: the hover state is cleared, and then the
    widgets at the places [handed] get the event, each in its region; who they are is
    modelled in Pointer_Model.  [found]: the links at the point *)
Definition move (found : list nat -> option text) (handed : list (list nat)) (n : node) : node :=
  fold_left (fun n p => update p (on_move (found p)) n) handed (clear_all (height n) n).
End User.
