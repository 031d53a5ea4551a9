(** What a snapshot should say: a reader of the escape codes of terminals (ECMA-48,
    "select graphic rendition"), and the picture on a canvas. *)
From Coq Require Import String ZArith List Bool Arith.
From Verif Require Import Text_Model Canvas_Model Snapshot_Model.
Import ListNotations.
Open Scope Z_scope.
Open Scope list_scope.

(** How a character looks. *)
Record look := Look { k_attrs : attrs; k_fg : option rgb; k_bg : option rgb }.
Definition plain : look := Look attrs_default None None.

(** The codes of one sequence, from left to right. *)
Definition set_attr (s : look) (f : attrs -> attrs) : look := Look (f (k_attrs s)) (k_fg s) (k_bg s).
Fixpoint select (s : look) (codes : list Z) : look :=
  match codes with
  | [] => s
  | 38 :: 2 :: r :: g :: b :: rest => select (Look (k_attrs s) (Some (Rgb r g b)) (k_bg s)) rest
  | 48 :: 2 :: r :: g :: b :: rest => select (Look (k_attrs s) (k_fg s) (Some (Rgb r g b))) rest
  | 0 :: rest => select plain rest
  | 1 :: rest => select (set_attr s (fun a => Attrs true (a_dim a) (a_italic a) (a_underline a) (a_strike a) (a_reverse a))) rest
  | 2 :: rest => select (set_attr s (fun a => Attrs (a_bold a) true (a_italic a) (a_underline a) (a_strike a) (a_reverse a))) rest
  | 3 :: rest => select (set_attr s (fun a => Attrs (a_bold a) (a_dim a) true (a_underline a) (a_strike a) (a_reverse a))) rest
  | 4 :: rest => select (set_attr s (fun a => Attrs (a_bold a) (a_dim a) (a_italic a) true (a_strike a) (a_reverse a))) rest
  | 7 :: rest => select (set_attr s (fun a => Attrs (a_bold a) (a_dim a) (a_italic a) (a_underline a) (a_strike a) true)) rest
  | 9 :: rest => select (set_attr s (fun a => Attrs (a_bold a) (a_dim a) (a_italic a) (a_underline a) true (a_reverse a))) rest
  | 39 :: rest => select (Look (k_attrs s) None (k_bg s)) rest
  | 49 :: rest => select (Look (k_attrs s) (k_fg s) None) rest
  | _ :: rest => select s rest
  end.
(** Reading a text: characters are shown with the look selected so far.  An escape
    character and a bracket begin a sequence: numbers between semicolons up to an m. *)
Inductive mode := Normal | Escape | Codes (done : list Z) (number : Z).
Fixpoint read (m : mode) (s : look) (t : text) : list (char * look) :=
  match t with
  | [] => []
  | c :: r =>
      match m with
      | Normal => if c =? 27 then read Escape s r else (c, s) :: read Normal s r
      | Escape => if c =? 91 then read (Codes [] 0) s r else read Normal s r
      | Codes done n =>
          if (48 <=? c) && (c <=? 57) then read (Codes done (n * 10 + (c - 48))) s r
          else if c =? 59 then read (Codes (done ++ [n]) 0) s r
          else if c =? 109 then read Normal (select s (done ++ [n])) r
          else read Normal s r
      end
  end.
Definition shown (t : text) : list (char * look) := read Normal plain t.

(** The picture: row by row the symbols of the cells with their looks, a blank for
    the second half of a wide symbol. *)
Definition cell_shown (k : cell) : list (char * look) :=
  map (fun c => (c, Look (c_attrs k) (c_fg k) (c_bg k))) (if c_cont k then [32] else c_sym k).
Fixpoint rows_shown (l : list (list cell)) : list (char * look) :=
  match l with
  | [] => []
  | [r] => flat_map cell_shown r
  | r :: l => flat_map cell_shown r ++ (10, plain) :: rows_shown l
  end.
(** [rows] are the rows of the canvas. *)
Definition rows_of (c : canvas) (rows : list (list cell)) : Prop :=
  cv_cells c = concat rows /\ length rows = cv_h c /\ Forall (fun r => length r = cv_w c) rows.
(** Symbols without escape characters, colours of eight bits. *)
Definition byte (n : Z) : Prop := 0 <= n <= 255.
Definition printable (k : cell) : Prop :=
  ~ In 27 (c_sym k) /\ forall c, c_fg k = Some c \/ c_bg k = Some c -> byte (r_r c) /\ byte (r_g c) /\ byte (r_b c).
