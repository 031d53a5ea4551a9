(** Specification for the canvas: which cells may change, an independent model of
    a terminal, and what it means that a terminal shows a frame. *)
From Coq Require Import ZArith List Bool Arith.
From Verif Require Import Canvas_Model.
Import ListNotations.
Open Scope Z_scope.

(** Coordinates and sizes that fit the Rust types. *)
Definition is_i32 (z : Z) : Prop := - 2 ^ 31 <= z <= 2 ^ 31 - 1.
Definition is_u16 (n : nat) : Prop := Z.of_nat n <= 65535.
Definition region_i32 (r : region) : Prop :=
  is_i32 (rg_x r) /\ is_i32 (rg_y r) /\ is_i32 (rg_w r) /\ is_i32 (rg_h r).

(** A point of the plane lies in the region as a set. *)
Definition in_region (r : region) (x y : Z) : Prop :=
  rg_x r <= x < rg_x r + rg_w r /\ rg_y r <= y < rg_y r + rg_h r.

Definition on_screen (w h : nat) (x y : Z) : Prop :=
  0 <= x < Z.of_nat w /\ 0 <= y < Z.of_nat h.

Section Spec.
Context {Sym Color Bg : Type}.
Variable gw : Sym -> nat.
Variable space : Sym.
Variable sym_eqb : Sym -> Sym -> bool.
Variable color_eqb : Color -> Color -> bool.
Variable reset : Color.
Variable translucent : option Bg -> bool.
Variable resolve_bg : option Bg -> option Color -> option Color.

Notation cell := (@cell Sym Color).
Notation canvas := (@canvas Sym Color).

(** The cell in column [x] of row [y]. *)
Definition cell_xy (w : nat) (cells : list cell) (x y : Z) : option cell :=
  nth_error cells (Z.to_nat (y * Z.of_nat w + x)).

(** Drawing requests. *)
Inductive draw :=
| DChar (x y : Z) (g : Sym) (fg : option Color) (bg : option Bg) (a : attrs)
| DStr (x y : Z) (s : list Sym) (fg : option Color) (bg : option Bg) (a : attrs)
| DStrip (segs : list (@seg Sym Color Bg)) (x y : Z)
| DStrips (strips : list (list (@seg Sym Color Bg))) (x y : Z).

Definition do_draw (c : canvas) (d : draw) : option canvas :=
  match d with
  | DChar x y g fg bg a => put_char gw space sym_eqb translucent resolve_bg c x y g fg bg a
  | DStr x y s fg bg a => put_str gw space sym_eqb translucent resolve_bg c x y s fg bg a
  | DStrip segs x y => render_strip gw space sym_eqb translucent resolve_bg c segs x y
  | DStrips l x y => render_strips gw space sym_eqb translucent resolve_bg c l x y
  end.

(** Everything a program can do with a canvas. *)
Inductive op :=
| ODraw (d : draw) | OPush (r : region) | OPop | OClear | OInvalidate | OFlush.

Definition do_op (c : canvas) (o : op) : option canvas :=
  match o with
  | ODraw d => do_draw c d
  | OPush r => Some (push_clip c r)
  | OPop => Some (pop_clip c)
  | OClear => Some (clear space c)
  | OInvalidate => Some (invalidate c)
  | OFlush => Some (snd (flush sym_eqb color_eqb reset c))
  end.

Fixpoint run (c : canvas) (ops : list op) : option canvas :=
  match ops with
  | [] => Some c
  | o :: r => match do_op c o with None => None | Some c' => run c' r end
  end.

(** The regions pushed and not yet popped by a history (newest first). *)
Definition open_step (l : list region) (o : op) : list region :=
  match o with
  | OPush r => r :: l
  | OPop => tl l
  | OClear => []
  | _ => l
  end.
Definition open_clips (ops : list op) : list region := fold_left open_step ops [].

Definition op_i32 (o : op) : Prop := match o with OPush r => region_i32 r | _ => True end.

(** *** A terminal

    A screen cell holds the left part of a glyph together with the pen it was
    written with, the right part of a wide glyph, or something unspecified (what
    remains of a wide glyph when one of its halves is overwritten).  The cursor
    column may equal the width: the next glyph then wraps to the next line
    (deferred wrap), scrolling on the last line. *)

Record pen := Pen { p_fg : Color; p_bg : Color; p_attrs : attrs }.
Inductive tcell := THead (s : Sym) (w : nat) (p : pen) | TTail | TJunk.
Record term := Term { t_scr : nat -> nat -> tcell; t_x : nat; t_y : nat; t_pen : pen }.

Definition is_tail (c : tcell) : bool := match c with TTail => true | _ => false end.

(** columns [a .. a+n-1] of a row are all right parts *)
Definition all_tails (row : nat -> tcell) (a n : nat) : bool :=
  forallb (fun j => is_tail (row j)) (seq a n).

(** Writing a glyph of width [gw s] at column [p]: neighbouring halves of wide
    glyphs that are cut in two become unspecified. *)
Definition print_row (row : nat -> tcell) (p : nat) (s : Sym) (w : nat) (pn : pen) : nat -> tcell :=
  fun j =>
    if (j <? p)%nat then
      if all_tails row (j + 1) (p - j) then TJunk else row j
    else if (j =? p)%nat then THead s w pn
    else if (j <? p + w)%nat then TTail
    else if all_tails row (p + w) (j + 1 - (p + w)) then TJunk else row j.

Definition set_row (scr : nat -> nat -> tcell) (y : nat) (row : nat -> tcell) : nat -> nat -> tcell :=
  fun y' => if (y' =? y)%nat then row else scr y'.

Definition scroll_up (h : nat) (scr : nat -> nat -> tcell) : nat -> nat -> tcell :=
  fun y => if (S y <? h)%nat then scr (S y) else fun _ => TJunk.

Definition set_attr (a : attrs) (k : attribute) : attrs :=
  match k with
  | AReset => attrs_default
  | ABold => Attrs true (a_dim a) (a_italic a) (a_underline a) (a_strike a) (a_reverse a)
  | ADim => Attrs (a_bold a) true (a_italic a) (a_underline a) (a_strike a) (a_reverse a)
  | AItalic => Attrs (a_bold a) (a_dim a) true (a_underline a) (a_strike a) (a_reverse a)
  | AUnderlined => Attrs (a_bold a) (a_dim a) (a_italic a) true (a_strike a) (a_reverse a)
  | ACrossedOut => Attrs (a_bold a) (a_dim a) (a_italic a) (a_underline a) true (a_reverse a)
  | AReverse => Attrs (a_bold a) (a_dim a) (a_italic a) (a_underline a) (a_strike a) true
  end.

(** SGR 0 also resets the colours. *)
Definition pen_attr (p : pen) (k : attribute) : pen :=
  match k with
  | AReset => Pen reset reset attrs_default
  | _ => Pen (p_fg p) (p_bg p) (set_attr (p_attrs p) k)
  end.

Definition exec (w h : nat) (t : term) (k : @cmd Sym Color) : term :=
  match k with
  | MoveTo x y => Term (t_scr t) x y (t_pen t)
  | SetFg c => Term (t_scr t) (t_x t) (t_y t) (Pen c (p_bg (t_pen t)) (p_attrs (t_pen t)))
  | SetBg c => Term (t_scr t) (t_x t) (t_y t) (Pen (p_fg (t_pen t)) c (p_attrs (t_pen t)))
  | SetAttr a => Term (t_scr t) (t_x t) (t_y t) (pen_attr (t_pen t) a)
  | Print s =>
      let wrap := (w <? t_x t + gw s)%nat in
      let bottom := (h <=? S (t_y t))%nat in
      let scr := if wrap && bottom then scroll_up h (t_scr t) else t_scr t in
      let x := if wrap then 0%nat else t_x t in
      let y := if wrap then (if bottom then t_y t else S (t_y t)) else t_y t in
      Term (set_row scr y (print_row (scr y) x s (gw s) (t_pen t))) (x + gw s) y (t_pen t)
  end.

Definition exec_all (w h : nat) (t : term) (l : list cmd) : term := fold_left (exec w h) l t.

(** *** What a frame looks like *)

Definition show_cell (c : cell) : tcell :=
  if c_cont c then TTail
  else THead (c_sym c) (c_width c)
         (Pen (match c_fg c with Some x => x | None => reset end)
              (match c_bg c with Some x => x | None => reset end) (c_attrs c)).

Definition shows (w h : nat) (t : term) (cells : list cell) : Prop :=
  forall x y c, (x < w)%nat -> (y < h)%nat -> nth_error cells (y * w + x) = Some c ->
    t_scr t y x = show_cell c.

(** A frame is well formed if every row is a sequence of glyphs, each followed
    by the right number of continuation cells. *)
Definition wf_frame (w h : nat) (cells : list cell) : Prop :=
  length cells = (w * h)%nat /\
  forall x y c, (x < w)%nat -> (y < h)%nat -> nth_error cells (y * w + x) = Some c ->
    (x = 0%nat -> c_cont c = false) /\
    (c_cont c = false ->
       c_width c = gw (c_sym c) /\ (1 <= c_width c)%nat /\ (x + c_width c <= w)%nat /\
       (forall k c', (1 <= k < c_width c)%nat -> nth_error cells (y * w + x + k) = Some c' ->
          c_cont c' = true) /\
       (forall c', (x + c_width c < w)%nat -> nth_error cells (y * w + x + c_width c) = Some c' ->
          c_cont c' = false)).

(** *** Histories of canvas and terminal together *)

Inductive event := EOp (o : op) | EGarble (t : term).  (* something else wrote to the terminal *)

Definition do_event (w h : nat) (s : canvas * term) (e : event) : option (canvas * term) :=
  match e with
  | EOp OFlush =>
      let '(k, c') := flush sym_eqb color_eqb reset (fst s) in
      Some (c', exec_all w h (snd s) k)
  | EOp o => option_map (fun c => (c, snd s)) (do_op (fst s) o)
  | EGarble t => Some (fst s, t)
  end.

Fixpoint run_events (w h : nat) (s : canvas * term) (l : list event) : option (canvas * term) :=
  match l with
  | [] => Some s
  | e :: r => match do_event w h s e with None => None | Some s' => run_events w h s' r end
  end.

(** Every flush of the history happens on a well-formed frame. *)
Fixpoint flushes_wf (w h : nat) (s : canvas * term) (l : list event) : Prop :=
  match l with
  | [] => True
  | e :: r =>
      (match e with EOp OFlush => wf_frame w h (cv_cells (fst s)) | _ => True end) /\
      match do_event w h s e with None => True | Some s' => flushes_wf w h s' r end
  end.

(** After something else wrote to the terminal there is an invalidate before the
    next flush.  [full]: the next flush repaints everything anyway (initially,
    or after invalidate). *)
Fixpoint invalidated (full dirty : bool) (l : list event) : Prop :=
  match l with
  | [] => True
  | EGarble _ :: r => invalidated full (negb full) r
  | EOp OInvalidate :: r => invalidated true false r
  | EOp OFlush :: r => dirty = false /\ invalidated false false r
  | EOp _ :: r => invalidated full dirty r
  end.

(** *** Sufficient conditions for well-formed frames *)

(** clip regions pushed by the history fit in i32 *)
Definition event_i32 (e : event) : Prop := match e with EOp o => op_i32 o | EGarble _ => True end.

(** every symbol drawn satisfies [OK] *)
Definition draw_ok (OK : Sym -> Prop) (d : draw) : Prop :=
  match d with
  | DChar _ _ g _ _ _ => OK g
  | DStr _ _ s _ _ _ => Forall OK s
  | DStrip segs _ _ => Forall (fun s => Forall OK (s_text s)) segs
  | DStrips l _ _ => Forall (Forall (fun s => Forall OK (s_text s))) l
  end.

(** only glyphs of width one are drawn *)
Definition event_narrow (e : event) : Prop :=
  match e with EOp (ODraw d) => draw_ok (fun g => gw g = 1%nat) d | _ => True end.

(** a glyph starts at (x, y): the cell is not a continuation *)
Definition starts (w : nat) (l : list cell) (x y : Z) : Prop :=
  forall c, cell_xy w l x y = Some c -> c_cont c = false.

(** from column [x] on, row [y] has no continuation cells *)
Definition row_free (w : nat) (l : list cell) (x y : Z) : Prop :=
  forall x', (x <= x') -> (0 <= x' < Z.of_nat w) -> starts w l x' y.

(** a segment whose clusters have positive width and whose recorded length is
    the width of its text *)
Definition seg_sound (s : @seg Sym Color Bg) : Prop :=
  Forall (fun g => (1 <= gw g)%nat) (s_text s) /\ s_len s = fold_right (fun g n => (gw g + n)%nat) 0%nat (s_text s).


End Spec.
