(** Default styles: what a tree brings along, sheets put one after the other, and
    which declarations of them compete. *)
From Coq Require Import String ZArith QArith List Bool.
From Verif Require Import Text_Model Css_Model Css_Spec Name_Model Variables_Spec Styled_Spec.
Import ListNotations.
Local Open Scope list_scope.

(** the widgets of a tree, as far as styling reaches *)
Inductive within (root : widget) : widget -> Prop :=
| within_root : within root root
| within_child : forall w x, within root w -> In x (styled_children w) -> within root x.

(** the text without its comments, all of them closed *)
Inductive uncommented : text -> text -> Prop :=
| un_end : uncommented [] []
| un_final_slash : uncommented [c_slash] [c_slash]
| un_char : forall c r o, c <> c_slash -> uncommented r o -> uncommented (c :: r) (c :: o)
| un_slash : forall d r o, d <> c_star -> d <> c_slash -> uncommented (d :: r) o -> uncommented (c_slash :: d :: r) (c_slash :: o)
| un_block : forall body r o, ~ contains (body ++ [c_star]) [c_star; c_slash] -> uncommented r o ->
    uncommented (c_slash :: c_star :: body ++ c_star :: c_slash :: r) (c_space :: o)
| un_line : forall body r o, ~ In c_newline body -> uncommented r o ->
    uncommented (c_slash :: c_slash :: body ++ c_newline :: r) (c_newline :: o)
| un_last_line : forall body, ~ In c_newline body -> uncommented (c_slash :: c_slash :: body) [].

(** it defines no variable *)
Definition silent (ls : list line) : Prop := forall n v, ~ In (Def n v) ls.

Section Compete.
Context {V : Type}.
(** no two declarations about property [s] in sheets of two different texts of [ds]
    are equally specific for the widget and different; [R] gives the rules of a text *)
Definition agree (gives : declaration V -> list (slot * V)) (c : ctx) (ch : chain) (s : slot) (R : text -> list (rule V)) (ds : list text) : Prop :=
  forall a b, In a ds -> In b ds -> a <> b -> forall p k d ts p' k' d' ts' v v',
    in_force c (R a) ch p k d ts -> in_force c (R b) ch p' k' d' ts' -> weight ts = weight ts' ->
    In (s, v) (gives d) -> In (s, v') (gives d') -> v = v'.
End Compete.
