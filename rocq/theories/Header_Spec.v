(** What a header should show, in terms of the calls made on it. *)
From Coq Require Import String ZArith List Bool.
From Verif Require Import Text_Model Markup_Model Press_Model Header_Model.
Import ListNotations.
Open Scope list_scope.

(** The title and subtitle given last. *)
Fixpoint last_title (t : text) (l : list hcall) : text :=
  match l with [] => t | SetTitle u :: r => last_title u r | _ :: r => last_title t r end.
Fixpoint last_subtitle (s : text) (l : list hcall) : text :=
  match l with
  | [] => s
  | SetSubtitle u :: r => last_subtitle u r
  | ClearSubtitle :: r => last_subtitle [] r
  | _ :: r => last_subtitle s r
  end.
Fixpoint last_tall (b : bool) (l : list hcall) : bool :=
  match l with [] => b | Tall c :: r => last_tall c r | _ :: r => last_tall b r end.

(** Markup that stands for the text itself. *)
Definition literal (given shown : text) : Prop := given = flat_map (fun c => if (c =? 91)%Z || (c =? 93)%Z || (c =? 92)%Z then [92%Z; c] else [c]) shown.
(** What is written: the title, then a dash and the subtitle if there is one. *)
Definition heading (title subtitle : text) : text :=
  title ++ match subtitle with [] => [] | _ => str " " ++ [8212%Z] ++ str " " ++ subtitle end.
Definition dim_style : style := Style None None (TextStyle false true false false false false false).

(** Calls that leave the class of the tall style alone. *)
Definition leaves_tall (k : hcall) : Prop :=
  match k with
  | WithClasses _ | Class (Classes_Model.SetClasses _) => False
  | Class (Classes_Model.Add c) | Class (Classes_Model.Remove c) | Class (Classes_Model.Toggle c) | Class (Classes_Model.SetClass _ c) => c <> str "-tall"
  | _ => True
  end.

(** The icon does not listen to keys. *)
Definition no_keys (h : list event) : list event := filter (fun e => match e with Key _ => false | _ => true end) h.
