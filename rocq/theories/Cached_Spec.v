(** When a container may rely on the layout it has kept. *)
From Coq Require Import List.
From Verif Require Import Bars_Model Pointer_Model Cached_Model.
Import ListNotations.

Section Spec.
Variable config : Type.
(** The configuration after a history of changes. *)
Definition now (c : config) (l : list (change config)) : config :=
  fold_left (fun c o => match o with Own f | Kid f => f c | Ask _ _ => c end) l c.
(** The container was told (restyled, marked dirty, resized or given new
    children) after the last change to one of its children. *)
Fixpoint told (since : bool) (l : list (change config)) : bool :=
  match l with
  | [] => since
  | Own _ :: t => told true t
  | Kid _ :: t => told false t
  | Ask _ _ :: t => told since t
  end.
(** It was told of every change to a child before it was next drawn. *)
Definition always_told (l : list (change config)) : Prop :=
  forall before r v after, l = before ++ Ask r v :: after -> told true before = true.
End Spec.
