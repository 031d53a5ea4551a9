(** Specification of hovering: places in a tree, and the widgets that show it. *)
From Coq Require Import ZArith List Bool Arith.
From Verif Require Import Text_Model Name_Model Hover_Model.
Import ListNotations.
Open Scope nat_scope.
Open Scope list_scope.

Fixpoint at_place (n : node) (p : list nat) : option node :=
  match p with
  | [] => Some n
  | i :: r => match nth_error (n_kids n) i with Some x => at_place x r | None => None end
  end.
Definition is_user (k : kind) : Prop := exists p a, k = KUser p a.
(** the widgets with children or parts *)
Definition parents : list kind :=
  [KContainer; KVertical; KHorizontal; KGrid; KItemGrid; KScrollable; KVScroll; KHScroll; KCenter; KMiddle; KScreen; KApp; KPalette; KOptions; KHeader; KCommandList].
(** every widget above the place is one of these, or of the program *)
Fixpoint in_tree (n : node) (p : list nat) : Prop :=
  match p with
  | [] => True
  | i :: r => (In (n_kind n) parents \/ is_user (n_kind n)) /\ match nth_error (n_kids n) i with Some x => in_tree x r | None => False end
  end.
(** the widgets that look different under the pointer ... *)
Definition hoverable : list kind := [KButton; KSwitch; KHeaderIcon].
(** ... and those that show a link under it *)
Definition linked : list kind := [KStatic; KLabel].
(** widgets around a static that do not pass [clear_hover] on *)
Definition forgetful : list kind := [KHeaderTitle; KHeaderClock; KInput; KSearchIcon; KCommandInput].

(** one after the other: the places handed each move *)
Definition moves (user_clear user_move : look -> look) (h : list ((list nat -> option text) * list (list nat))) (n : node) : node :=
  fold_left (fun n e => move user_clear user_move (fst e) (snd e) n) h n.
