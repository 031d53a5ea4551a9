(** Specification vocabulary for static text at automatic size. *)
From Coq Require Import ZArith List Bool Arith.
From Verif Require Import Text_Model Strip_Model Wrap_Model Wrap_Spec Markup_Spec.
Import ListNotations.
Open Scope nat_scope.

(** The lines of a text. *)
Definition text_lines (t : text) : list text := split_char 10%Z t.
(** Words one blank apart, with no blank before or after. *)
Definition tidy (l : text) : Prop := l = spaced (split_ws l).

Section Spec.
Variable gr : text -> list text.
Variable gw : text -> nat.
(** Every character that the text (or a blank) has stands by itself: no combining
    marks, joiners and the like.  A blank is one cell wide. *)
Definition letters (src : text) : Prop :=
  gw [32%Z] = 1 /\ forall t, incl t (32%Z :: src) -> gr t = map (fun c => [c]) t.
(** Every character of a word takes up room. *)
Definition inked (src : text) : Prop := forall c, In c src -> is_ws c = false -> 0 < gw [c].
(** A blank of any kind within a line is at least as wide as a blank. *)
Definition wide_blanks (src : text) : Prop := forall c, In c src -> is_ws c = true -> c <> 10%Z -> 1 <= gw [c].
(** Every character is one cell wide. *)
Definition one_cell_each (src : text) : Prop := forall c, In c src -> c <> 10%Z -> gw [c] = 1.
End Spec.

(** What stands in a tag: brackets are matched, characters after a backslash do not
    count, and there is no newline. *)
Inductive tag_body : text -> Prop :=
| body_nil : tag_body []
| body_char : forall c b, plain_char c -> c <> 10%Z -> tag_body b -> tag_body (c :: b)
| body_esc : forall c b, c <> 10%Z -> tag_body b -> tag_body (92%Z :: c :: b)
| body_nest : forall a b, tag_body a -> tag_body b -> tag_body (91%Z :: a ++ 93%Z :: b).
(** [marked src t]: the markup [src] has the text [t], and no tag goes over the end
    of a line. *)
Inductive marked : text -> text -> Prop :=
| marked_end : marked [] []
| marked_char : forall c s t, c <> 91%Z -> c <> 92%Z -> marked s t -> marked (c :: s) (c :: t)
| marked_esc : forall c s t, c = 91%Z \/ c = 92%Z \/ c = 93%Z -> marked s t -> marked (92%Z :: c :: s) (c :: t)
| marked_tag : forall b s t, tag_body b -> marked s t -> marked (91%Z :: b ++ 93%Z :: s) t.

(** The lines that have something on them, or nothing at all. *)
Definition not_blank (l : text) : bool := match l with [] => true | _ => existsb (fun c => negb (is_ws c)) l end.
