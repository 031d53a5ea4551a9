(** What the command palette should offer, said without its functions. *)
From Coq Require Import String ZArith List Bool Permutation Sorting.Sorted.
From Verif Require Import Text_Model Markup_Model Fuzzy_Spec Command_Model.
Import ListNotations.
Open Scope nat_scope.
Open Scope list_scope.

(** Alphabetical order of texts. *)
Inductive alphabetical : text -> text -> Prop :=
| al_nil : forall t, alphabetical [] t
| al_lt : forall (x y : char) a b, (x < y)%Z -> alphabetical (x :: a) (y :: b)
| al_eq : forall (x : char) a b, alphabetical a b -> alphabetical (x :: a) (x :: b).

(** A line stands for a command: choosing it runs the command's action. *)
Definition runs (c : command) (l : line) : Prop :=
  l_text l = c_title c /\ l_action l = Some (c_action c) /\ l_help l = c_help c /\ l_disabled l = false.

(** What is written on a line: the title, and the help on the next line. *)
Definition written (c : command) : text :=
  c_title c ++ match c_help c with None => [] | Some h => 10%Z :: h end.

(** Looks: matched letters bold and underlined, help dim. *)
Definition bold_underlined : style := Style None None (TextStyle true false false true false false false).
Definition dimmed : style := Style None None (TextStyle false true false false false false false).

(** How the characters of a line look: [here] says which positions of the title
    are marked; [c] is the character at position [i] of what is written. *)
Definition looks (title : text) (marked : nat -> Prop) (i : nat) (c : char) (s : style) : Prop :=
  (i < length title /\ marked i /\ is_ws c = false -> s = bold_underlined) /\
  (i < length title /\ ~ (marked i /\ is_ws c = false) -> s = style_default) /\
  (i = length title -> s = style_default) /\
  (length title < i -> s = dimmed).

(** The markup [display] shows the command with these positions marked. *)
Definition displays (parse : text -> res parsed) (display : text) (c : command) (marked : nat -> Prop) : Prop :=
  exists m, parse display = Ok m /\ pm_text m = written c /\
    forall a x b d, written c = a ++ x :: b -> d < utf8_len x -> looks (c_title c) marked (length a) x (style_at m (blen a + d)).

(** Commands with the same title, in the order of the list. *)
Definition titled (t : text) (l : list command) : list command := filter (fun c => text_eqb (c_title c) t) l.

(** ** Commands made by the application *)
Inductive setting := Help (h : text) | Discoverable (d : bool).
Definition set (c : command) (s : setting) : command :=
  match s with Help h => with_help h c | Discoverable d => discoverable d c end.
(** The help and the discoverability given last. *)
Fixpoint last_help (h : option text) (l : list setting) : option text :=
  match l with [] => h | Help x :: r => last_help (Some x) r | _ :: r => last_help h r end.
Fixpoint last_discoverable (d : bool) (l : list setting) : bool :=
  match l with [] => d | Discoverable x :: r => last_discoverable x r | _ :: r => last_discoverable d r end.
