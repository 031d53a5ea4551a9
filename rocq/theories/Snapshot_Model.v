(** Model of the textual snapshots of a canvas, crates/textual/src/canvas.rs:572-709.

    A symbol is its text; cells are coloured with [Color::Rgb] only, as
    [to_crossterm_color] and [resolve_background] make no other (722-776). *)
From Coq Require Import String ZArith List Bool Arith.
From Verif Require Import Text_Model Canvas_Model.
Import ListNotations.
Open Scope Z_scope.
Open Scope list_scope.

(** crossterm's [Color::Rgb] *)
Record rgb := Rgb { r_r : Z; r_g : Z; r_b : Z }.
Definition rgb_eqb (a b : rgb) : bool := (r_r a =? r_r b) && (r_g a =? r_g b) && (r_b a =? r_b b).
Notation cell := (@cell text rgb).
Notation canvas := (@canvas text rgb).

(** the cells of row [y] *)
Definition row_cells (c : canvas) (y : nat) : list cell := firstn (cv_w c) (skipn (y * cv_w c) (cv_cells c)).
(** the bounds test of 576-578, 590-592 and 608-610, and the cell *)
Definition cell_at (c : canvas) (x y : Z) : option cell :=
  if (x <? 0) || (Z.of_nat (cv_w c) <=? x) || (y <? 0) || (Z.of_nat (cv_h c) <=? y) then None
  else nth_error (cv_cells c) (Z.to_nat y * cv_w c + Z.to_nat x).

(** 575-585 [get_char]; 0 is the null character *)
Definition get_char (c : canvas) (x y : Z) : char :=
  match cell_at c x y with
  | None => 0
  | Some k => if c_cont k then 32 else match c_sym k with [] => 0 | a :: _ => a end
  end.
(** 607-613 [has_bg_at] *)
Definition has_bg_at (c : canvas) (x y : Z) : bool :=
  match cell_at c x y with Some k => match c_bg k with Some _ => true | None => false end | None => false end.

(** 596-602, 689-693 *)
Definition cell_text (k : cell) : text := if c_cont k then [32] else c_sym k.
(** 588-604 [row_str], for a row that exists *)
Definition row_str (c : canvas) (y : nat) : text := flat_map cell_text (row_cells c y).

(** [Vec::join("\n")] *)
Fixpoint join_lines (l : list text) : text :=
  match l with [] => [] | [x] => x | x :: r => x ++ 10 :: join_lines r end.
(** 617-622 [to_snapshot] *)
Definition to_snapshot (c : canvas) : text := join_lines (map (fun y => trim_end (row_str c y)) (seq 0 (cv_h c))).

(** [u8] as [Display] *)
Definition dec (n : Z) : text :=
  if n <? 10 then [48 + n]
  else if n <? 100 then [48 + n / 10; 48 + n mod 10]
  else [48 + n / 100; 48 + n / 10 mod 10; 48 + n mod 10].
Definition esc (body : text) : text := 27 :: 91 :: body ++ [109].
(** 646-664: the attributes of a cell *)
Definition attr_codes (a : attrs) : text :=
  esc (str "0") ++ (if a_bold a then esc (str "1") else []) ++ (if a_dim a then esc (str "2") else [])
  ++ (if a_italic a then esc (str "3") else []) ++ (if a_underline a then esc (str "4") else [])
  ++ (if a_strike a then esc (str "9") else []) ++ (if a_reverse a then esc (str "7") else []).
Definition rgb_code (kind : string) (c : rgb) : text :=
  esc (str kind ++ str ";2;" ++ dec (r_r c) ++ str ";" ++ dec (r_g c) ++ str ";" ++ dec (r_b c)).
(** 671-678, 681-688: a colour that changes *)
Definition colour_code (kind back : string) (now last : option rgb) : text :=
  if ocolor_eqb rgb_eqb now last then []
  else match now, last with
       | Some c, _ => rgb_code kind c
       | None, Some _ => esc (str back)
       | None, None => []
       end.
(** 641-694: one cell, given the last attributes and colours *)
Definition ansi_cell (last : attrs * option rgb * option rgb) (k : cell) : text * (attrs * option rgb * option rgb) :=
  let '(a, fg, bg) := last in
  let changed := negb (attrs_eqb (c_attrs k) a) in
  let fg := if changed then None else fg in
  let bg := if changed then None else bg in
  ((if changed then attr_codes (c_attrs k) else []) ++ colour_code "38" "39" (c_fg k) fg ++ colour_code "48" "49" (c_bg k) bg ++ cell_text k,
   (c_attrs k, c_fg k, c_bg k)).
Fixpoint ansi_cells (last : attrs * option rgb * option rgb) (l : list cell) : text :=
  match l with [] => [] | k :: r => let (t, now) := ansi_cell last k in t ++ ansi_cells now r end.
(** 635-699: one row, without the newline *)
Definition ansi_row (l : list cell) : text := ansi_cells (attrs_default, None, None) l ++ esc (str "0").
(** 632-707 [to_ansi_snapshot] *)
Definition to_ansi_snapshot (c : canvas) : text := join_lines (map (fun y => ansi_row (row_cells c y)) (seq 0 (cv_h c))).
