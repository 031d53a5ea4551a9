(** Specification vocabulary for the Input widget: a text with a gap. *)
From Coq Require Import ZArith List Bool Arith.
From Verif Require Import Text_Model Markup_Model Input_Model.
Import ListNotations.
Open Scope nat_scope.

(** What is before and what is after the cursor, as the user sees it; [b_on] is
    whether keys have an effect. *)
Record buffer := Buffer { b_before : list text; b_after : list text; b_disabled : bool; b_visible : bool }.
Definition b_empty : buffer := Buffer [] [] false true.
Definition b_text (b : buffer) : text := concat (b_before b ++ b_after b).
Definition b_set (b : buffer) (x y : list text) : buffer := Buffer x y (b_disabled b) (b_visible b).
(** The effect of a key on the characters around the cursor. *)
Definition b_key (b : buffer) (k : key) : buffer :=
  match k with
  | KChar c => b_set b (b_before b ++ [[c]]) (b_after b)
  | KBackspace => b_set b (removelast (b_before b)) (b_after b)
  | KDelete => b_set b (b_before b) (tl (b_after b))
  | KLeft => match rev (b_before b) with [] => b | x :: r => b_set b (rev r) (x :: b_after b) end
  | KRight => match b_after b with [] => b | x :: r => b_set b (b_before b ++ [x]) r end
  | KHome => b_set b [] (b_before b ++ b_after b)
  | KEnd => b_set b (b_before b ++ b_after b) []
  | KOther => b
  end.
Section Spec.
Variable gr : text -> list text.
Definition b_op (b : buffer) (o : op) : buffer :=
  match o with
  | Key k => if b_disabled b || negb (b_visible b) then b else b_key b k
  | SetValue v => b_set b (firstn (length (b_before b)) (gr v)) (skipn (length (b_before b)) (gr v))
  | SetCursor c => let all := b_before b ++ b_after b in b_set b (firstn c all) (skipn c all)
  | SetPlaceholder _ | SetFocus _ => b
  | SetDisabled d => Buffer (b_before b) (b_after b) d (b_visible b)
  | SetVisible v => Buffer (b_before b) (b_after b) (b_disabled b) v
  end.
(** [s] shows buffer [b]. *)
Definition represents (s : input) (b : buffer) : Prop :=
  i_value s = b_text b /\ i_cursor s = length (b_before b) /\ gr (i_value s) = b_before b ++ b_after b /\
  i_disabled s = b_disabled b /\ i_visible s = b_visible b.
(** The characters typed and set are clusters of their own wherever they stand. *)
Definition op_chars (o : op) : list char :=
  match o with Key (KChar c) => [c] | SetValue v => v | _ => [] end.
End Spec.
