(** Key bindings: binding strings and the key events they match
    (crates/textual/src/lib.rs).  [lc] is [char::to_lowercase]; [str::to_lowercase]
    is taken char by char (the final-sigma rule is left out). *)
From Coq Require Import String ZArith List Bool.
From Verif Require Import Text_Model.
Import ListNotations.
Open Scope Z_scope.
Open Scope list_scope.

(** crossterm [KeyCode]: the codes the crate names, and every other one
    (Backspace, Delete, Insert, F(n), ...) as [Other n] *)
Inductive code :=
| Char (c : char) | Enter | Esc | Tab | BackTab | Up | Down | Left | Right | Home | End_ | PageUp | PageDown
| Other (n : nat).

(** crossterm [KeyEvent]: its code and modifiers; [k_more] says that one of SUPER,
    HYPER and META is held (no binding can require these) *)
Record event := { k_code : code; k_ctrl : bool; k_shift : bool; k_alt : bool; k_more : bool }.

(** crates/textual/src/lib.rs:160-176: the modifiers required and the last key word *)
Record required := { r_ctrl : bool; r_shift : bool; r_alt : bool; r_key : option text }.
Definition nothing_required : required := {| r_ctrl := false; r_shift := false; r_alt := false; r_key := None |}.

(** crates/textual/src/lib.rs:168-174: one token, already in lower case *)
Definition add_token (r : required) (w : text) : required :=
  if text_eqb w (str "ctrl") || text_eqb w (str "control") then
    {| r_ctrl := true; r_shift := r_shift r; r_alt := r_alt r; r_key := r_key r |}
  else if text_eqb w (str "shift") then
    {| r_ctrl := r_ctrl r; r_shift := true; r_alt := r_alt r; r_key := r_key r |}
  else if text_eqb w (str "alt") then
    {| r_ctrl := r_ctrl r; r_shift := r_shift r; r_alt := true; r_key := r_key r |}
  else if text_eqb w (str "meta") || text_eqb w (str "super") then
    {| r_ctrl := r_ctrl r; r_shift := r_shift r; r_alt := true; r_key := r_key r |}
  else {| r_ctrl := r_ctrl r; r_shift := r_shift r; r_alt := r_alt r; r_key := Some w |}.

(** crates/textual/src/lib.rs:199-225 parse_key_token *)
Definition parse_key_token (w : text) : option code :=
  if text_eqb w (str "enter") then Some Enter
  else if text_eqb w (str "escape") || text_eqb w (str "esc") then Some Esc
  else if text_eqb w (str "tab") then Some Tab
  else if text_eqb w (str "backtab") then Some BackTab
  else if text_eqb w (str "space") then Some (Char 32)
  else if text_eqb w (str "up") then Some Up
  else if text_eqb w (str "down") then Some Down
  else if text_eqb w (str "left") then Some Left
  else if text_eqb w (str "right") then Some Right
  else if text_eqb w (str "home") then Some Home
  else if text_eqb w (str "end") then Some End_
  else if text_eqb w (str "pageup") then Some PageUp
  else if text_eqb w (str "pagedown") then Some PageDown
  else if text_eqb w (str "backslash") then Some (Char 92)
  else match w with [c] => Some (Char c) | _ => None end.

(** [char::to_ascii_lowercase] (core library) *)
Definition to_ascii_lowercase (c : char) : char := if (65 <=? c) && (c <=? 90) then c + 32 else c.

(** [KeyCode: PartialEq] (crossterm, derived) *)
Definition code_eqb (a b : code) : bool :=
  match a, b with
  | Char x, Char y => x =? y
  | Enter, Enter | Esc, Esc | Tab, Tab | BackTab, BackTab | Up, Up | Down, Down | Left, Left | Right, Right
  | Home, Home | End_, End_ | PageUp, PageUp | PageDown, PageDown => true
  | Other n, Other m => Nat.eqb n m
  | _, _ => false
  end.

(** crates/textual/src/lib.rs:227-234 key_matches *)
Definition key_matches (expected actual : code) : bool :=
  match expected, actual with
  | Char x, Char y => to_ascii_lowercase x =? to_ascii_lowercase y
  | _, _ => code_eqb expected actual
  end.

Section Bindings.
Variable lc : char -> text.

(** crates/textual/src/lib.rs:160-197 match_binding_part *)
Definition match_binding_part (e : event) (binding : text) : bool :=
  let words := filter (fun t => negb (is_nil t)) (map trim (split_char 43 binding)) in
  let r := fold_left (fun r w => add_token r (flat_map lc w)) words nothing_required in
  match r_key r with
  | None => false
  | Some w =>
      match parse_key_token w with
      | None => false
      | Some k =>
          if (r_ctrl r && negb (k_ctrl e)) || (r_shift r && negb (k_shift e)) || (r_alt r && negb (k_alt e))
          then false
          else if (k_ctrl e && negb (r_ctrl r)) || (k_alt e && negb (r_alt r)) || k_more e then false
          else key_matches k (k_code e)
      end
  end.

(** crates/textual/src/lib.rs:152-158 matches_binding *)
Definition matches_binding (e : event) (binding : text) : bool :=
  existsb (match_binding_part e) (filter (fun t => negb (is_nil t)) (map trim (split_char 44 binding))).

End Bindings.
