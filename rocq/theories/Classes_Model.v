(** Model of the CSS class interface of widgets (crates/textual/src/widget.rs:519-565
    and its implementations) and of the classes a button keeps for itself
    (widget/button.rs). *)
From Coq Require Import String ZArith List Bool.
From Verif Require Import Text_Model.
Import ListNotations.
Open Scope list_scope.

(** The implementations.
    [Own]: the widget keeps the list itself (static_widget.rs:1008-1037,
    container.rs:1652-1680, scrollable.rs:865-893, placeholder.rs:631-656,
    loading_indicator.rs:204-229, ruler.rs:283-317); [fixed] are the classes
    [set_classes] keeps: the orientation of a ruler, nothing elsewhere.
    [Wrapped]: the widget forwards to an [inner: Static] (button.rs:562-580,
    label.rs:404-422, input.rs:399-417, header.rs:170-190, 329-349, 605-625,
    command_palette.rs:222-240).  There [self.inner.add_class] is the inherent
    method of static_widget.rs:165-167, which takes precedence over the trait's:
    it neither looks for the class nor marks the widget dirty. *)
Inductive impl := Own (fixed : list text) | Wrapped.

Record widget := Widget { w_classes : list text; w_dirty : bool }.

Inductive call :=
| Add (c : text) | Remove (c : text) | Toggle (c : text) | SetClass (add : bool) (c : text)
| SetClasses (s : text) | MarkDirty | MarkClean.

(** static_widget.rs:1022-1024 [has_class] *)
Definition has_class (w : widget) (c : text) : bool := existsb (fun x => text_eqb x c) (w_classes w).

(** static_widget.rs:1008-1013 and 165-167 [add_class] *)
Definition add_class (i : impl) (w : widget) (c : text) : widget :=
  match i with
  | Own _ => if has_class w c then w else Widget (w_classes w ++ [c]) true
  | Wrapped => Widget (w_classes w ++ [c]) (w_dirty w)
  end.

(** [Vec::remove] at the first position that is equal, if any *)
Fixpoint remove_first (l : list text) (c : text) : list text :=
  match l with
  | [] => []
  | x :: r => if text_eqb x c then r else x :: remove_first r c
  end.

(** static_widget.rs:1015-1020 [remove_class] *)
Definition remove_class (w : widget) (c : text) : widget :=
  if has_class w c then Widget (remove_first (w_classes w) c) true else w.

(** static_widget.rs:1026-1029, ruler.rs:301-313 [set_classes] *)
Definition set_classes (i : impl) (w : widget) (s : text) : widget :=
  Widget ((match i with Own fixed => fixed | Wrapped => [] end) ++ split_ws s) true.

(** the defaults of the trait, widget.rs:536-560 *)
Definition step (i : impl) (w : widget) (k : call) : widget :=
  match k with
  | Add c => add_class i w c
  | Remove c => remove_class w c
  | Toggle c => if has_class w c then remove_class w c else add_class i w c
  | SetClass add c => if add then add_class i w c else remove_class w c
  | SetClasses s => set_classes i w s
  | MarkDirty => Widget (w_classes w) true
  | MarkClean => Widget (w_classes w) false
  end.
Definition run (i : impl) (w : widget) (h : list call) : widget := fold_left (step i) h w.

(** a new widget *)
Definition new_widget (i : impl) : widget := Widget (match i with Own fixed => fixed | Wrapped => [] end) true.

(** ** Buttons *)

(** button.rs:10-17 [ButtonVariant] *)
Inductive variant := VDefault | VPrimary | VSuccess | VWarning | VError.
(** button.rs:20-28 [class_name] *)
Definition class_name (v : variant) : text :=
  match v with
  | VDefault => str "-default" | VPrimary => str "-primary" | VSuccess => str "-success"
  | VWarning => str "-warning" | VError => str "-error"
  end.
Definition variant_eqb (a b : variant) : bool :=
  match a, b with
  | VDefault, VDefault | VPrimary, VPrimary | VSuccess, VSuccess | VWarning, VWarning | VError, VError => true
  | _, _ => false
  end.

Section Lower.
(** [str::to_lowercase] *)
Variable lower : text -> text.

(** button.rs:30-39 [parse] *)
Definition parse_variant (name : text) : option variant :=
  let n := lower (trim name) in
  if text_eqb n (str "default") then Some VDefault
  else if text_eqb n (str "primary") then Some VPrimary
  else if text_eqb n (str "success") then Some VSuccess
  else if text_eqb n (str "warning") then Some VWarning
  else if text_eqb n (str "error") then Some VError
  else None.

(** button.rs:43-55: the fields concerned *)
Record button := Button { b_inner : widget; b_variant : variant; b_flat : bool; b_compact : bool }.
(** button.rs:58-77 [new] *)
Definition button_new : button :=
  Button (add_class Wrapped (add_class Wrapped (new_widget Wrapped) (str "-style-default")) (class_name VDefault)) VDefault false false.

Inductive bcall := Class (k : call) | SetVariant (name : text) | SetFlat (b : bool) | SetCompact (b : bool).

(** button.rs:140-152 [set_variant], 154-166 [set_flat], 168-178 [set_compact] *)
Definition button_step (b : button) (k : bcall) : res button :=
  match k with
  | Class k => Ok (Button (step Wrapped (b_inner b) k) (b_variant b) (b_flat b) (b_compact b))
  | SetVariant name =>
      match parse_variant name with
      | None => Panic
      | Some v =>
          if variant_eqb (b_variant b) v then Ok b
          else Ok (Button (add_class Wrapped (remove_class (b_inner b) (class_name (b_variant b))) (class_name v)) v (b_flat b) (b_compact b))
      end
  | SetFlat f =>
      if Bool.eqb (b_flat b) f then Ok b
      else Ok (Button (if f then add_class Wrapped (remove_class (b_inner b) (str "-style-default")) (str "-style-flat")
                       else add_class Wrapped (remove_class (b_inner b) (str "-style-flat")) (str "-style-default"))
                 (b_variant b) f (b_compact b))
  | SetCompact c =>
      if Bool.eqb (b_compact b) c then Ok b
      else Ok (Button (if c then add_class Wrapped (b_inner b) (str "-textual-compact")
                       else remove_class (b_inner b) (str "-textual-compact"))
                 (b_variant b) (b_flat b) c)
  end.
Fixpoint button_run (b : button) (h : list bcall) : res button :=
  match h with
  | [] => Ok b
  | k :: r => bind (button_step b k) (fun b => button_run b r)
  end.
End Lower.
