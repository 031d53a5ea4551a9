(** Specification of actions: places in a tree, their order, and the widgets whose
    actions are performed. *)
From Coq Require Import ZArith List Bool Arith Sorted.
From Verif Require Import Text_Model Name_Model Click_Model.
From Verif Require Hover_Spec.
Import ListNotations.
Open Scope nat_scope.
Open Scope list_scope.

Fixpoint at_place (n : node) (p : list nat) : option node :=
  match p with
  | [] => Some n
  | i :: r => match nth_error (n_kids n) i with Some x => at_place x r | None => None end
  end.
(** every widget above the place is one with children or parts, or of the program *)
Fixpoint in_tree (n : node) (p : list nat) : Prop :=
  match p with
  | [] => True
  | i :: r => (In (n_kind n) Hover_Spec.parents \/ Hover_Spec.is_user (n_kind n)) /\
              match nth_error (n_kids n) i with Some x => in_tree x r | None => False end
  end.
(** parents before children, elder children first *)
Fixpoint before (p q : list nat) : Prop :=
  match p, q with
  | [], _ :: _ => True
  | a :: p, b :: q => a < b \/ (a = b /\ before p q)
  | _, [] => False
  end.

Definition active (user_takes : bool) (k : kind) : Prop :=
  In k [KStatic; KLabel; KButton; KHeaderIcon; KSearchIcon; KPalette] \/ (Hover_Spec.is_user k /\ user_takes = true).
(** those that take up links but never hand them out *)
Definition dead : list kind := [KHeaderTitle; KHeaderClock; KInput; KCommandInput].

(** the actions [out] are those that the event gives to active widgets of the tree,
    each once, in the order of the tree *)
Definition answers (user_takes : bool) (n : node) (e : event) (out : list text) : Prop :=
  exists l : list (list nat * text),
    StronglySorted before (map fst l) /\
    (forall q a, In (q, a) l <->
       exists x, at_place n q = Some x /\ in_tree n q /\ active user_takes (n_kind x) /\ In q (handed e) /\ given e q = Some a) /\
    out = map snd l.
(** no active widget holds an action *)
Definition settled (user_takes : bool) (n : node) : Prop :=
  forall q x, at_place n q = Some x -> in_tree n q -> active user_takes (n_kind x) -> n_pending x = None.
(** two trees of the same widgets *)
Definition alike (n n' : node) : Prop :=
  forall q, option_map n_kind (at_place n q) = option_map n_kind (at_place n' q).
