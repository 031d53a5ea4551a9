(** Model of what a message says about its sender: the [on_mouse_with_sender] of
    widgets, and the envelopes of lib.rs for messages of the mouse (979-1001) and of
    the keyboard (905-911).

    [on_mouse_with_sender] of containers repeats [on_mouse] with the children's
    [on_mouse_with_sender] in place of their [on_mouse]: container.rs:1506-1568,
    scrollable.rs:1179-1345, grid.rs:390-415, item_grid.rs:272-296,
    screen.rs:956-1133 and app_widget.rs:180-196.  The functions of Pointer_Model are
    used for both.  [Center] and [Middle] (containers.rs:199-205, 341-347) have only
    [on_mouse], so theirs is the default of widget.rs:281-288. *)
From Coq Require Import ZArith List Bool.
From Coq Require Import String.
From Verif Require Import Text_Model Bars_Model Pointer_Model.
From Verif Require Tree_Model.
Import ListNotations.
Open Scope Z_scope.
Open Scope list_scope.
Notation length := List.length.

Section Naming.
Variables x y : Z.
Variable answers : list nat -> bool.
(** Instead of the leaves asked, the widgets that speak for them, in order: the last
    one is named as the sender if there is an answer. *)
Fixpoint reported (press : bool) (n : widget) : asker :=
  match n with
  (* widget.rs:281-288, 450-455: the widget itself *)
  | Leaf => fun path r => if contains_point r x y then ([(path, r)], answers path) else ([], false)
  | Box k p kids =>
      let fs := map (reported press) kids in
      match k with
      | KContainer => ask_container x y p fs
      | KScrollable => ask_scrollable x y press p fs
      | KScreen => ask_screen x y press p fs
      | KGrid => ask_grid x y p fs
      | KApp blocks => ask_app blocks (length kids) fs
      | KCenter vertical size seen => fun path r =>
          (* widget.rs:286-287: [self.on_mouse(…).map(|msg| (msg, self.sender_info()))] *)
          let (l, b) := ask_centre vertical size seen (map (asked x y answers press) kids) path r in
          if b then ([(path, r)], true) else ([], false)
      end
  end.
(** lib.rs:989-994: the widget named in the envelope *)
Definition sender (press : bool) (n : widget) (r : area) : option (list nat) :=
  let (l, b) := reported press n [] r in
  if b then match rev l with [] => None | c :: _ => Some (fst c) end else None.
End Naming.

(** Keys. *)
Section Keys.
Variable M : Type.
(** [on_event] of a widget: what it becomes and its message. *)
Variable on_event : Tree_Model.wdata -> Tree_Model.wdata * option M.
(** the widget at a path changed *)
Fixpoint update (w : Tree_Model.widget) (p : list nat) (f : Tree_Model.wdata -> Tree_Model.wdata) : Tree_Model.widget :=
  match w, p with
  | Tree_Model.Leaf d, [] => Tree_Model.Leaf (f d)
  | Tree_Model.Box d ks, [] => Tree_Model.Box (f d) ks
  | Tree_Model.Leaf d, _ :: _ => Tree_Model.Leaf d
  | Tree_Model.Box d ks, i :: r =>
      Tree_Model.Box d ((fix go (i : nat) (l : list Tree_Model.widget) : list Tree_Model.widget :=
                           match l, i with
                           | [], _ => []
                           | k :: t, O => update k r f :: t
                           | k :: t, S j => k :: go j t
                           end) i ks)
  end.
(** tree.rs:204-206 [dispatch_key] *)
Definition dispatch_key (t : Tree_Model.tree) : Tree_Model.tree * option M :=
  match Tree_Model.focused_widget t with
  | None => (t, None)
  | Some w => (Tree_Model.Tree (update (Tree_Model.t_root t) (Tree_Model.t_path t) (fun d => fst (on_event d))) (Tree_Model.t_path t) (Tree_Model.t_cur t),
               snd (on_event (Tree_Model.data w)))
  end.
(** tree.rs:211-220 [focused_sender_info] *)
Definition focused_sender_info (t : Tree_Model.tree) : option text * text :=
  match Tree_Model.focused_widget t with
  | Some w => (Tree_Model.w_id (Tree_Model.data w), Tree_Model.w_type (Tree_Model.data w))
  | None => (None, str "Widget")
  end.
(** lib.rs:905-910 with message.rs:38-45 *)
Definition key_envelope (t : Tree_Model.tree) : option (Tree_Model.envelope M) :=
  let (t', o) := dispatch_key t in
  match o with
  | Some m => let (id, type) := focused_sender_info t' in Some (Tree_Model.Envelope m id type true)
  | None => None
  end.
End Keys.
