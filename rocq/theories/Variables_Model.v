(** Model of crates/tcss/src/parser/variables.rs.  [alnum] is
    [char::is_alphanumeric], a parameter. *)
From Coq Require Import ZArith List Bool String.
From Verif Require Import Text_Model.
Import ListNotations.
Open Scope Z_scope.
Open Scope list_scope.

(** [str::lines] (core library): pieces between newlines, without the carriage
    return of a "\r\n"; an empty last piece is not a line *)
Definition chop_cr (t : text) : text := if ends_with t [13] then removelast t else t.
Fixpoint cut_lines (l : list text) : list text :=
  match l with
  | [] => []
  | [last] => if is_nil last then [] else [last]
  | x :: r => chop_cr x :: cut_lines r
  end.
Definition lines (t : text) : list text := cut_lines (split_char 10 t).

Section Variables.
Variable alnum : char -> bool.

(** variables.rs:94 [next.is_alphanumeric() || next == '-' || next == '_'] *)
Definition name_char (c : char) : bool := alnum c || (c =? 45) || (c =? 95).

(** variables.rs:36-56 [StylesheetVariables]: the map as a list, newest first *)
Definition vars := list (text * text).
Definition define (vs : vars) (n v : text) : vars := (n, v) :: vs.
Fixpoint resolve (vs : vars) (n : text) : option text :=
  match vs with [] => None | (m, v) :: r => if text_eqb m n then Some v else resolve r n end.

(** variables.rs:61-76, pass 1: block comments, as an automaton *)
Fixpoint drop_blocks (inside : bool) (t : text) {struct t} : text :=
  match t with
  | [] => []
  | c :: r =>
      match r with
      | d :: r' =>
          if inside then if (c =? 42) && (d =? 47) then drop_blocks false r' else drop_blocks true r
          else if (c =? 47) && (d =? 42) then drop_blocks true r' else c :: drop_blocks false r
      | [] => if inside then [] else [c]
      end
  end.

(** variables.rs:99-104: what a reference becomes *)
Definition expand (vs : vars) (n : text) : text :=
  match resolve vs n with Some v => v | None => 36 :: n end.
(** variables.rs:86-109: one line; [name] is the name collected since a '$' *)
Fixpoint resolve_line (vs : vars) (name : option text) (t : text) : text :=
  match t with
  | [] => match name with Some n => expand vs n | None => [] end
  | c :: r =>
      match name with
      | Some n =>
          if name_char c then resolve_line vs (Some (n ++ [c])) r
          else expand vs n ++ (if c =? 36 then resolve_line vs (Some []) r else c :: resolve_line vs None r)
      | None => if c =? 36 then resolve_line vs (Some []) r else c :: resolve_line vs None r
      end
  end.
(** variables.rs:58-115 [resolve_variables]; it never fails *)
Definition resolve_variables (source : text) (vs : vars) : text :=
  flat_map (fun line => if starts_with (trim line) [36] then [] else resolve_line vs None line ++ [10])
    (lines (drop_blocks false source)).

(** variables.rs:132-141: a definition in a trimmed line *)
Definition definition (trimmed : text) (vs : vars) : vars :=
  match trimmed with
  | c :: _ =>
      if c =? 36 then
        match split_at_char 58 trimmed with
        | Some (before, after) =>
            let value := trim after in
            define vs (trim (tl before)) (if ends_with value [59] then removelast value else value)
        | None => vs
        end
      else vs
  | [] => vs
  end.
(** variables.rs:117-143 [extract_variables]; [inside] is [in_comment] *)
Fixpoint extract_lines (ls : list text) (inside : bool) (vs : vars) : vars :=
  match ls with
  | [] => vs
  | line :: r =>
      let t := trim line in
      let inside := contains_str t (str "/*") || inside in
      if contains_str t (str "*/") then extract_lines r false vs
      else if inside then extract_lines r true vs
      else extract_lines r false (definition t vs)
  end.
Definition extract_variables (source : text) : vars := extract_lines (lines source) false [].

End Variables.
