(** What setting an attribute of a widget means: the value last set, for the
    widgets that keep the attribute. *)
From Coq Require Import List.
From Verif Require Import Text_Model Attr_Model.
Import ListNotations.

(** The widget a program sees: boxes do not count. *)
Inductive kind := Plain (k : own) | Made (k : wrapper).
Fixpoint kind_of (w : widget) : kind :=
  match w with Own k _ => Plain k | Wrap KBox _ i => kind_of i | Wrap k _ _ => Made k end.
Definition boxed (w : widget) : Prop := match w with Wrap KBox _ _ => True | _ => False end.

(** Which widgets can be hidden, disabled, marked as loading, titled, given a
    tooltip. *)
Definition can_hide : list kind := [Plain KSwitch; Plain KLoading; Made KPalette].
Definition can_disable : list kind :=
  [Plain KStatic; Plain KSwitch; Made KLabel; Made KButton; Made KInput; Made KCommandInput;
   Made KHeaderTitle; Made KHeaderClock; Made KHeaderIcon; Made KSearchIcon].
Definition can_load : list kind := [Plain KSwitch].
Definition can_title : list kind := [Plain KStatic; Plain KContainer; Made KLabel].
Definition can_tip : list kind := [Plain KStatic; Made KHeaderIcon].
Definition no_inline : list kind := [Plain KBare; Plain KCenter; Plain KMiddle].

(** The last value some calls give an attribute. *)
Fixpoint last_of {A} (pick : call -> option A) (cs : list call) : option A :=
  match cs with
  | [] => None
  | c :: r => match last_of pick r with Some a => Some a | None => pick c end
  end.
Definition or_else {A} (o : option A) (a : A) : A := match o with Some b => b | None => a end.

(** Everything but the mark that can be asked of a widget. *)
Definition asked (w : widget) :=
  (is_visible w, is_disabled w, is_loading w, border_title w, border_subtitle w, tooltip w, inline_style w).
