(** Model of crates/textual/src/canvas.rs: Region, Canvas drawing and clipping,
    and the two flush algorithms.

    Abstracted: a grapheme cluster is a value of [Sym] with display width
    [gw] (grapheme.rs:4-12 and the Unicode crates are not modelled); colours are
    an opaque type [Color] with decidable equality; a background request is an
    opaque [Bg] with [translucent] (canvas.rs:286, the [matches!] test) and
    [resolve_bg] (canvas.rs:757-785).  Coordinates are [Z], so i32 overflow of
    [x + width] is not modelled except in Region, whose saturating additions
    are. *)
From Coq Require Import ZArith List Bool Arith.
Import ListNotations.
Open Scope Z_scope.

(** i32 bounds and canvas.rs:69-76 [saturating_add] *)
Definition i32_min : Z := - 2 ^ 31.
Definition i32_max : Z := 2 ^ 31 - 1.
Definition sat_add (a b : Z) : Z := Z.max i32_min (Z.min i32_max (a + b)).

(** canvas.rs:41-47 [struct Region] *)
Record region := Region { rg_x : Z; rg_y : Z; rg_w : Z; rg_h : Z }.

(** canvas.rs:51-58 [Region::new] *)
Definition region_new (x y w h : Z) : region := Region x y (Z.max w 0) (Z.max h 0).

(** canvas.rs:68-95 [intersection] *)
Definition intersection (a b : region) : region :=
  let x1 := Z.max (rg_x a) (rg_x b) in
  let y1 := Z.max (rg_y a) (rg_y b) in
  let x2 := Z.min (sat_add (rg_x a) (rg_w a)) (sat_add (rg_x b) (rg_w b)) in
  let y2 := Z.min (sat_add (rg_y a) (rg_h a)) (sat_add (rg_y b) (rg_h b)) in
  if (x1 <? x2) && (y1 <? y2) then Region x1 y1 (x2 - x1) (y2 - y1)
  else Region 0 0 0 0.

(** canvas.rs:98-103 [contains_point] *)
Definition contains_point (r : region) (x y : Z) : bool :=
  (rg_x r <=? x) && (x <? sat_add (rg_x r) (rg_w r))
  && (rg_y r <=? y) && (y <? sat_add (rg_y r) (rg_h r)).

(** canvas.rs:106-108 [is_empty] *)
Definition region_is_empty (r : region) : bool := (rg_w r <=? 0) || (rg_h r <=? 0).

(** canvas.rs:13-21 [TextAttributes] *)
Record attrs := Attrs {
  a_bold : bool; a_dim : bool; a_italic : bool; a_underline : bool; a_strike : bool; a_reverse : bool }.
Definition attrs_default : attrs := Attrs false false false false false false.
Definition attrs_eqb (a b : attrs) : bool :=
  Bool.eqb (a_bold a) (a_bold b) && Bool.eqb (a_dim a) (a_dim b)
  && Bool.eqb (a_italic a) (a_italic b) && Bool.eqb (a_underline a) (a_underline b)
  && Bool.eqb (a_strike a) (a_strike b) && Bool.eqb (a_reverse a) (a_reverse b).

(** crossterm attributes used by canvas.rs:514-532 *)
Inductive attribute := AReset | ABold | ADim | AItalic | AUnderlined | ACrossedOut | AReverse.

Section Canvas.
Context {Sym Color Bg : Type}.
Variable gw : Sym -> nat.                 (* display_width of one cluster *)
Variable space : Sym.                     (* " " *)
Variable sym_eqb : Sym -> Sym -> bool.
Variable color_eqb : Color -> Color -> bool.
Variable reset : Color.                   (* Color::Reset *)
Variable translucent : option Bg -> bool. (* Some(c) with c.a < 1.0 and not transparent *)
Variable resolve_bg : option Bg -> option Color -> option Color.

(** canvas.rs:111-119 [struct Cell]; width is u8 in the code, a number here *)
Record cell := Cell {
  c_sym : Sym; c_width : nat; c_cont : bool;
  c_fg : option Color; c_bg : option Color; c_attrs : attrs }.

Definition ocolor_eqb (a b : option Color) : bool :=
  match a, b with
  | None, None => true
  | Some x, Some y => color_eqb x y
  | _, _ => false
  end.

(** derived PartialEq of Cell, canvas.rs:111 *)
Definition cell_eqb (a b : cell) : bool :=
  sym_eqb (c_sym a) (c_sym b) && (c_width a =? c_width b)%nat
  && Bool.eqb (c_cont a) (c_cont b) && ocolor_eqb (c_fg a) (c_fg b)
  && ocolor_eqb (c_bg a) (c_bg b) && attrs_eqb (c_attrs a) (c_attrs b).

(** canvas.rs:121-131 [struct Canvas]; the clip stack has its top at the head *)
Record canvas := Canvas {
  cv_w : nat; cv_h : nat; cv_cells : list cell; cv_prev : list cell;
  cv_first : bool; cv_clips : list region }.

(** canvas.rs:135-142 *)
Definition blank_cell : cell := Cell space 1 false None None attrs_default.

(** canvas.rs:134-151 [Canvas::new]; [None] is the arithmetic panic of the u16
    product [width * height] (debug build; a release build wraps and panics on
    a later index instead). *)
Definition canvas_new (w h : nat) : option canvas :=
  if Z.of_nat w * Z.of_nat h <=? 65535 then
    Some (Canvas w h (repeat blank_cell (w * h)) (repeat blank_cell (w * h)) true [])
  else None.

(** canvas.rs:179-186 [current_clip] *)
Definition current_clip (c : canvas) : region :=
  match cv_clips c with
  | r :: _ => r
  | [] => Region 0 0 (Z.of_nat (cv_w c)) (Z.of_nat (cv_h c))
  end.

Definition set_clips (c : canvas) (l : list region) : canvas :=
  Canvas (cv_w c) (cv_h c) (cv_cells c) (cv_prev c) (cv_first c) l.
Definition set_cells (c : canvas) (l : list cell) : canvas :=
  Canvas (cv_w c) (cv_h c) l (cv_prev c) (cv_first c) (cv_clips c).

(** canvas.rs:167-171 [push_clip] *)
Definition push_clip (c : canvas) (r : region) : canvas :=
  set_clips c (intersection r (current_clip c) :: cv_clips c).

(** canvas.rs:174-176 [pop_clip] *)
Definition pop_clip (c : canvas) : canvas := set_clips c (tl (cv_clips c)).

(** [v[i] = x] with the bounds check *)
Fixpoint set_nth {A} (i : nat) (x : A) (l : list A) : option (list A) :=
  match l, i with
  | [], _ => None
  | _ :: r, O => Some (x :: r)
  | y :: r, S k => option_map (cons y) (set_nth k x r)
  end.

Definition with_bg (o : cell) (b : option Color) : cell :=
  match b with
  | Some _ => Cell (c_sym o) (c_width o) (c_cont o) (c_fg o) b (c_attrs o)
  | None => o
  end.

(** one cell write: canvas.rs:292-309 (head) and 318-334 (continuations);
    [None] is the out-of-bounds panic *)
Definition write_cell (cells : list cell) (idx : Z) (preserve : bool) (bg : option Bg)
    (mk : option Color -> cell) : option (list cell) :=
  match nth_error cells (Z.to_nat idx) with
  | None => None
  | Some old =>
      let new_bg := resolve_bg bg (c_bg old) in
      set_nth (Z.to_nat idx) (if preserve then with_bg old new_bg else mk new_bg) cells
  end.

(** canvas.rs:311-335, the loop over [offset in 1..width]; [n] offsets remain,
    the next one is at column [cx] *)
Fixpoint put_conts (n : nat) (w : nat) (cx y : Z) (fg : option Color) (bg : option Bg) (at_ : attrs)
    (preserve : bool) (clip : region) (cells : list cell) : option (list cell) :=
  match n with
  | O => Some cells
  | S k =>
      if ((cx <? rg_x clip) || (rg_x clip + rg_w clip <=? cx))
         || ((cx <? 0) || (Z.of_nat w <=? cx))
      then put_conts k w (cx + 1) y fg bg at_ preserve clip cells
      else
        match write_cell cells (y * Z.of_nat w + cx) preserve bg
                (fun b => Cell space 0 true fg b at_) with
        | None => None
        | Some cells' => put_conts k w (cx + 1) y fg bg at_ preserve clip cells'
        end
  end.

(** canvas.rs:255-336 [put_grapheme]; [fg] is already converted *)
Definition put_grapheme (c : canvas) (x y : Z) (g : Sym) (width : nat) (fg : option Color)
    (bg : option Bg) (at_ : attrs) (clip : region) : option canvas :=
  if (y <? rg_y clip) || (rg_y clip + rg_h clip <=? y) then Some c
  else if (y <? 0) || (Z.of_nat (cv_h c) <=? y) then Some c
  else if (x <? rg_x clip) || (rg_x clip + rg_w clip <=? x) then Some c
  else if (x <? 0) || (Z.of_nat (cv_w c) <=? x) then Some c
  else if rg_x clip + rg_w clip <? x + Z.of_nat width then Some c
  else if Z.of_nat (cv_w c) <? x + Z.of_nat width then Some c
  else
    let preserve := translucent bg && sym_eqb g space && (width =? 1)%nat
                    && (match fg with None => true | Some _ => false end)
                    && attrs_eqb at_ attrs_default in
    match write_cell (cv_cells c) (y * Z.of_nat (cv_w c) + x) preserve bg
            (fun b => Cell g width false fg b at_) with
    | None => None
    | Some cells1 =>
        option_map (set_cells c)
          (put_conts (width - 1) (cv_w c) (x + 1) y fg bg at_ preserve clip cells1)
    end.

(** canvas.rs:202-217 [put_char] (the char as a cluster) *)
Definition put_char (c : canvas) (x y : Z) (g : Sym) (fg : option Color) (bg : option Bg) (at_ : attrs) :=
  put_grapheme c x y g (gw g) fg bg at_ (current_clip c).

(** canvas.rs:243-251, the loop of [put_str] *)
Fixpoint put_str_loop (c : canvas) (cx y : Z) (s : list Sym) (fg : option Color) (bg : option Bg)
    (at_ : attrs) (clip : region) : option canvas :=
  match s with
  | [] => Some c
  | g :: r =>
      if rg_x clip + rg_w clip <=? cx then Some c
      else
        match put_grapheme c cx y g (gw g) fg bg at_ clip with
        | None => None
        | Some c' => put_str_loop c' (cx + Z.of_nat (gw g)) y r fg bg at_ clip
        end
  end.

(** canvas.rs:221-252 [put_str] *)
Definition put_str (c : canvas) (x y : Z) (s : list Sym) (fg : option Color) (bg : option Bg)
    (at_ : attrs) : option canvas :=
  let clip := current_clip c in
  if (y <? rg_y clip) || (rg_y clip + rg_h clip <=? y) then Some c
  else if (y <? 0) || (Z.of_nat (cv_h c) <=? y) then Some c
  else put_str_loop c x y s fg bg at_ clip.

(** a strip segment as seen by canvas.rs:346-361: text, cell_length, fg, bg, attributes *)
Record seg := Seg {
  s_text : list Sym; s_len : nat; s_fg : option Color; s_bg : option Bg; s_attrs : attrs }.

(** canvas.rs:343-363 [render_strip] *)
Fixpoint render_strip (c : canvas) (segs : list seg) (x y : Z) : option canvas :=
  match segs with
  | [] => Some c
  | s :: r =>
      match put_str c x y (s_text s) (s_fg s) (s_bg s) (s_attrs s) with
      | None => None
      | Some c' => render_strip c' r (x + Z.of_nat (s_len s)) y
      end
  end.

(** canvas.rs:368-372 [render_strips] *)
Fixpoint render_strips (c : canvas) (strips : list (list seg)) (x y : Z) : option canvas :=
  match strips with
  | [] => Some c
  | s :: r =>
      match render_strip c s x y with
      | None => None
      | Some c' => render_strips c' r x (y + 1)
      end
  end.

(** canvas.rs:555-565 [clear] *)
Definition clear (c : canvas) : canvas :=
  Canvas (cv_w c) (cv_h c) (repeat blank_cell (length (cv_cells c))) (cv_prev c) (cv_first c) [].

(** canvas.rs:569-571 [invalidate] *)
Definition invalidate (c : canvas) : canvas :=
  Canvas (cv_w c) (cv_h c) (cv_cells c) (cv_prev c) true (cv_clips c).

(** *** Flushing: the terminal commands that are written *)

Inductive cmd :=
| MoveTo (x y : nat)
| SetFg (c : Color)
| SetBg (c : Color)
| SetAttr (a : attribute)
| Print (s : Sym).

(** canvas.rs:407-411 / 453-457: tracked pen and expected cursor *)
Record fstate := FState {
  f_fg : option Color; f_bg : option Color; f_attrs : attrs; f_x : Z; f_y : Z }.

(** canvas.rs:403-405, 429-431, 450-452, 481-483 *)
Definition reset_cmds : list cmd := [SetFg reset; SetBg reset; SetAttr AReset].

Definition unwrap_or_reset (c : option Color) : Color :=
  match c with Some x => x | None => reset end.

(** canvas.rs:504-553 [emit_cell]: commands, and new tracked fg/bg/attrs *)
Definition emit_cell (c : cell) (st : fstate) : list cmd * fstate :=
  let '(k1, fg1, bg1) :=
    if attrs_eqb (c_attrs c) (f_attrs st) then ([], f_fg st, f_bg st)
    else
      (SetAttr AReset
        :: (if a_bold (c_attrs c) then [SetAttr ABold] else [])
        ++ (if a_dim (c_attrs c) then [SetAttr ADim] else [])
        ++ (if a_italic (c_attrs c) then [SetAttr AItalic] else [])
        ++ (if a_underline (c_attrs c) then [SetAttr AUnderlined] else [])
        ++ (if a_strike (c_attrs c) then [SetAttr ACrossedOut] else [])
        ++ (if a_reverse (c_attrs c) then [SetAttr AReverse] else []), None, None) in
  let k2 := if ocolor_eqb (c_fg c) fg1 then [] else [SetFg (unwrap_or_reset (c_fg c))] in
  let k3 := if ocolor_eqb (c_bg c) bg1 then [] else [SetBg (unwrap_or_reset (c_bg c))] in
  (k1 ++ k2 ++ k3 ++ [Print (c_sym c)],
   FState (if ocolor_eqb (c_fg c) fg1 then fg1 else c_fg c)
          (if ocolor_eqb (c_bg c) bg1 then bg1 else c_bg c)
          (if attrs_eqb (c_attrs c) (f_attrs st) then f_attrs st else c_attrs c)
          (f_x st) (f_y st)).

(** canvas.rs:420-442 and 472-497 (the same code twice): jump if the cursor is
    not where this cell is, emit it, advance the expected cursor *)
Definition flush_cell (w : nat) (i : nat) (c : cell) (st : fstate) : list cmd * fstate :=
  let x := (i mod w)%nat in
  let y := (i / w)%nat in
  let jump := negb (f_x st =? Z.of_nat x) || negb (f_y st =? Z.of_nat y) in
  let st1 := if jump then FState None None attrs_default (f_x st) (f_y st) else st in
  let '(k, st2) := emit_cell c st1 in
  let nx := Z.of_nat x + Z.of_nat (c_width c) in
  let st3 :=
    if Z.of_nat w <=? nx then FState (f_fg st2) (f_bg st2) (f_attrs st2) 0 (Z.of_nat y + 1)
    else FState (f_fg st2) (f_bg st2) (f_attrs st2) nx (Z.of_nat y) in
  ((if jump then MoveTo x y :: reset_cmds else []) ++ k, st3).

(** canvas.rs:415-443, loop of [flush_full] from index [i] *)
Fixpoint full_loop (w i : nat) (st : fstate) (l : list cell) : list cmd :=
  match l with
  | [] => []
  | c :: r =>
      if c_cont c then full_loop w (S i) st r
      else let '(k, st') := flush_cell w i c st in k ++ full_loop w (S i) st' r
  end.

(** canvas.rs:399-444 [flush_full] *)
Definition flush_full (w : nat) (cells : list cell) : list cmd :=
  MoveTo 0 0 :: reset_cmds ++ full_loop w 0 (FState None None attrs_default 0 0) cells.

(** canvas.rs:461-498, loop of [flush_diff] from index [i] (zip stops at the
    shorter list) *)
Fixpoint diff_loop (w i : nat) (st : fstate) (l prev : list cell) : list cmd :=
  match l, prev with
  | c :: r, p :: pr =>
      if cell_eqb c p then diff_loop w (S i) st r pr
      else if c_cont c then diff_loop w (S i) st r pr
      else let '(k, st') := flush_cell w i c st in k ++ diff_loop w (S i) st' r pr
  | _, _ => []
  end.

(** canvas.rs:446-501 [flush_diff] *)
Definition flush_diff (w : nat) (cells prev : list cell) : list cmd :=
  reset_cmds ++ diff_loop w 0 (FState None None attrs_default (-1) (-1)) cells prev.

(** canvas.rs:374-396 [flush]: what is written, and the canvas afterwards (the
    two buffers are swapped) *)
Definition flush (c : canvas) : list cmd * canvas :=
  (if cv_first c then flush_full (cv_w c) (cv_cells c)
   else flush_diff (cv_w c) (cv_cells c) (cv_prev c),
   Canvas (cv_w c) (cv_h c) (cv_prev c) (cv_cells c) false (cv_clips c)).

End Canvas.
