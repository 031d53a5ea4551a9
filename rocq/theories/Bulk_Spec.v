(** Specification of operations on all matches of a query: places in the tree,
    the widgets that take each operation, and what it asks of them. *)
From Coq Require Import String ZArith List Bool Arith.
From Verif Require Import Text_Model Tree_Model Name_Model Bulk_Model.
Import ListNotations.
Open Scope nat_scope.
Open Scope list_scope.

(** A place is a list of child numbers. *)
Fixpoint at_place (n : node) (p : list nat) : option node :=
  match p with
  | [] => Some n
  | i :: r => match nth_error (n_kids n) i with Some x => at_place x r | None => None end
  end.
(** The widgets that let queries see their children: the containers, the screen, the
    app, the command palette and the program's own. *)
Definition holders : list kind :=
  [KContainer; KVertical; KHorizontal; KGrid; KItemGrid; KScrollable; KVScroll; KHScroll; KCenter; KMiddle; KScreen; KApp; KPalette].
Definition is_user (k : kind) : Prop := exists p a, k = KUser p a.
Definition holds_children (k : kind) : Prop := In k holders \/ is_user k.
(** every widget above the place is one of these *)
Fixpoint reached (n : node) (p : list nat) : Prop :=
  match p with
  | [] => True
  | i :: r => holds_children (n_kind n) /\ match nth_error (n_kids n) i with Some x => reached x r | None => False end
  end.

(** the widgets that keep classes, ... *)
Definition own_keepers : list kind :=
  [KStatic; KContainer; KScrollable; KPlaceholder; KLoading; KRuler; KHeader; KOptions; KCommandList; KPalette].
Definition wrapping_keepers : list kind :=
  [KLabel; KButton; KInput; KHeaderTitle; KHeaderClock; KHeaderIcon; KSearchIcon; KCommandInput].
Definition keepers : list kind := own_keepers ++ wrapping_keepers.
(** ... can be hidden ... *)
Definition hideable : list kind := [KSwitch; KLoading; KPalette].
(** ... and can be disabled. *)
Definition disableable : list kind := [KStatic; KSwitch; KButton; KLabel; KInput; KHeaderTitle; KHeaderClock; KHeaderIcon; KSearchIcon; KCommandInput].

Definition class_op (o : op) : Prop := match o with AddClass _ | RemoveClass _ | ToggleClass _ | SetClass _ _ => True | _ => False end.
(** it can give a class that was not there *)
Definition may_add (o : op) : Prop := match o with AddClass _ | ToggleClass _ | SetClass true _ => True | _ => False end.
(** the kinds that do something when asked for the operation *)
Definition takers (o : op) (k : kind) : Prop :=
  match o with
  | SetVisible _ => In k hideable
  | SetDisabled _ => In k disableable
  | MarkDirty => ~ is_user k
  | _ => In k keepers
  end.
(** whether class [d] is to be there afterwards, given whether it was there *)
Definition asks (o : op) (d : text) (before : Prop) : Prop :=
  match o with
  | AddClass c | SetClass true c => d = c \/ before
  | RemoveClass c | SetClass false c => d <> c /\ before
  | ToggleClass c => (d = c /\ ~ before) \/ (d <> c /\ before)
  | _ => before
  end.

(** The selector as text asks for a type name and an id (Tree, Name). *)
Definition named (m : text) (sel : ssel) (n : node) : bool := sel_finds m sel (W (n_kind n) (n_id n) DOther []).

(** two trees that differ at most in what is dirty *)
Inductive same_but_dirty : node -> node -> Prop :=
| same_node : forall k id c v d b b' ks ks', same_list ks ks' ->
    same_but_dirty (N k id (State c v d b) ks) (N k id (State c v d b') ks')
with same_list : list node -> list node -> Prop :=
| same_nil : same_list [] []
| same_cons : forall x x' r r', same_but_dirty x x' -> same_list r r' -> same_list (x :: r) (x' :: r').
(** a filter that does not ask whether widgets are dirty *)
Definition ignores_dirt (filter : node -> bool) : Prop := forall x y, same_but_dirty x y -> filter x = filter y.

(** every widget above the place is a screen or the app *)
Fixpoint only_screens (n : node) (p : list nat) : Prop :=
  match p with
  | [] => True
  | i :: r => (n_kind n = KScreen \/ n_kind n = KApp) /\ match nth_error (n_kids n) i with Some x => only_screens x r | None => False end
  end.
(** The place is below a picked widget that a query reaches, from which only screens
    and the app lead to it. *)
Definition below_marked (pick : node -> bool) (n : node) (p : list nat) : Prop :=
  exists above rest x, p = above ++ rest /\ rest <> [] /\ reached n above /\ at_place n above = Some x /\
    pick x = true /\ only_screens x rest.
