(** Model of the operations of a query on all the widgets it matches
    (crates/textual/src/tree.rs:895-1040, [DOMQuery]) with what each kind of widget
    does when asked.

    Of a widget the kind, the id, the classes, the answers of [is_visible] and
    [is_disabled], whether it is marked as dirty itself, and the children are kept.
    [Box<dyn Widget>] used as a widget is left out; it forwards all of these methods
    (widget.rs:576-808). *)
From Coq Require Import String ZArith List Bool Arith.
From Verif Require Import Text_Model Tree_Model Classes_Model Name_Model.
Import ListNotations.
Open Scope nat_scope.
Open Scope list_scope.

Record state := State { s_classes : list text; s_visible : bool; s_disabled : bool; s_dirty : bool }.
Inductive node := N (k : kind) (id : option text) (s : state) (kids : list node).
Definition n_kind (n : node) : kind := match n with N k _ _ _ => k end.
Definition n_id (n : node) : option text := match n with N _ i _ _ => i end.
Definition n_state (n : node) : state := match n with N _ _ s _ => s end.
Definition n_kids (n : node) : list node := match n with N _ _ _ ks => ks end.

(** tree.rs:988-1039: the operations *)
Inductive op :=
| AddClass (c : text) | RemoveClass (c : text) | ToggleClass (c : text) | SetClass (add : bool) (c : text)
| SetVisible (b : bool) | SetDisabled (b : bool) | MarkDirty.

(** *** One widget *)
(** Who keeps classes.  [Own]: static_widget.rs:1008, container.rs:1652,
    scrollable.rs:865, placeholder.rs:631, loading_indicator.rs:204, ruler.rs:283, and
    those that forward to an inner [Container]: header.rs:889, option_list.rs:496,
    command_palette.rs:698 and 1917.  [Wrapped]: label.rs:404, button.rs:562,
    input.rs:399, header.rs:170, 329, 605, command_palette.rs:222 and, through
    [Input], 444.  The others keep the defaults of widget.rs:526-549, which do
    nothing: switch.rs, scrollbar.rs, scrollbar_corner.rs, tooltip.rs, macros.rs,
    grid.rs, item_grid.rs, vertical_scroll.rs, horizontal_scroll.rs, containers.rs,
    screen.rs, app_widget.rs *)
Definition class_impl (k : kind) : option impl :=
  match k with
  | KStatic | KContainer | KScrollable | KPlaceholder | KLoading | KRuler | KHeader | KOptions | KCommandList | KPalette => Some (Own [])
  | KLabel | KButton | KInput | KHeaderTitle | KHeaderClock | KHeaderIcon | KSearchIcon | KCommandInput => Some Wrapped
  | _ => None
  end.
Definition with_dirty (s : state) : state := State (s_classes s) (s_visible s) (s_disabled s) true.
Definition on_classes (f : Classes_Model.widget -> Classes_Model.widget) (s : state) : state :=
  let w := f (Widget (s_classes s) (s_dirty s)) in
  State (w_classes w) (s_visible s) (s_disabled s) (w_dirty w).
(** [has_class], widget.rs:547 by default *)
Definition has (k : kind) (s : state) (c : text) : bool :=
  match class_impl k with
  | Some _ => has_class (Widget (s_classes s) (s_dirty s)) c
  | None => false
  end.
(** widget.rs:526-560 with the implementations above; [toggle_class] and [set_class]
    are not overridden *)
Definition add (k : kind) (c : text) (s : state) : state :=
  match class_impl k with Some i => on_classes (fun w => Classes_Model.add_class i w c) s | None => s end.
Definition remove (k : kind) (c : text) (s : state) : state :=
  match class_impl k with Some _ => on_classes (fun w => Classes_Model.remove_class w c) s | None => s end.
Definition toggle (k : kind) (c : text) (s : state) : state := if has k s c then remove k c s else add k c s.

(** [set_visible]: switch.rs:397-402, loading_indicator.rs:172-174,
    command_palette.rs:1842-1847; the others end in the default of widget.rs:358, also
    where they forward it to an inner [Static], [Container] or [ScrollableContainer] *)
Definition set_visible (k : kind) (b : bool) (s : state) : state :=
  match k with
  | KSwitch | KPalette => if Bool.eqb (s_visible s) b then s else State (s_classes s) b (s_disabled s) true
  | KLoading => State (s_classes s) b (s_disabled s) (s_dirty s)
  | _ => s
  end.
(** [set_disabled]: static_widget.rs:945-948, button.rs:557-560, label.rs:328,
    input.rs:367, header.rs:138, 297, 573, command_palette.rs:170, 392,
    switch.rs:419-424; the others end in widget.rs:378, loading_indicator.rs:186 or
    command_palette.rs:1859, which do nothing *)
Definition set_disabled (k : kind) (b : bool) (s : state) : state :=
  match k with
  | KStatic | KButton | KLabel | KInput | KHeaderTitle | KHeaderClock | KHeaderIcon | KSearchIcon | KCommandInput =>
      State (s_classes s) (s_visible s) b true
  | KSwitch => if Bool.eqb (s_disabled s) b then s else State (s_classes s) (s_visible s) b true
  | _ => s
  end.

Section User.
(** what a widget of the program does to its own state; simplification: it does
    nothing to its children *)
Variable user : op -> state -> state.

Definition one (o : op) (k : kind) (s : state) : state :=
  match k with
  | KUser _ _ => user o s
  | _ =>
      match o with
      | AddClass c => add k c s
      | RemoveClass c => remove k c s
      | ToggleClass c => toggle k c s
      | SetClass b c => if b then add k c s else remove k c s
      | SetVisible b => set_visible k b s
      | SetDisabled b => set_disabled k b s
      | MarkDirty => with_dirty s
      end
  end.

(** screen.rs:710-715, app_widget.rs:116-121: these also mark their children *)
Definition passes_marks (k : kind) : bool := match k with KScreen | KApp => true | _ => false end.
(** [mark_dirty] called [p] times on a widget *)
Fixpoint marked (p : nat) (n : node) : node :=
  match n with
  | N k id s ks => N k id (Nat.iter p (one MarkDirty k) s) (if passes_marks k then map (marked p) ks else ks)
  end.

(** the children seen by queries: see [Name_Model.children] *)
Definition shows (k : kind) : bool :=
  match k with
  | KUser _ _ | KContainer | KVertical | KHorizontal | KGrid | KItemGrid | KScrollable | KVScroll | KHScroll
  | KCenter | KMiddle | KScreen | KApp | KPalette => true
  | _ => false
  end.

Section Query.
(** the text of the type arguments, the selector and the filter; without
    [filter] it is always true *)
Variables (m : text) (sel : ssel) (filter : node -> bool) (o : op).
Definition chosen (n : node) : bool := sel_finds m sel (W (n_kind n) (n_id n) DOther []) && filter n.
Definition is_mark : bool := match o with MarkDirty => true | _ => false end.

(** tree.rs:794-834 [find_all_and_apply], [find_all_and_apply_filtered] with the
    closures of 988-1039: the widget first, then its children as they are then.
    [p] counts the marks the widgets above have passed on to this one before
    it is visited: a rewriting of the recursion that changes the children first. *)
Fixpoint visit (p : nat) (n : node) : node :=
  match n with
  | N k id s ks =>
      let n0 := marked p n in
      let here := chosen n0 in
      let s' := if here then one o k (n_state n0) else n_state n0 in
      let p' := if passes_marks k then p + (if here && is_mark then 1 else 0) else 0 in
      N k id s' (if shows k then map (visit p') ks else ks)
  end.
(** [tree.query(sel).filter(filter).<op>] on the root of the tree *)
Definition query (root : node) : node := visit 0 root.
End Query.
End User.
