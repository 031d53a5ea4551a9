(** Model of crates/textual/src/svg.rs: [SvgRenderer::render], which turns a
    canvas into an SVG picture.

    A symbol is its text.  The picture is modelled as its colour rules, its
    background rectangles and its text elements, each with the attributes the
    code writes; the fixed text around them (svg.rs:91-208: header, fonts, clip
    paths) is left out.  Columns, widths and rows are in cells: the code
    multiplies them with [char_width] and [line_height] (f32) when it prints
    them. *)
From Coq Require Import String ZArith List Bool Arith.
From Coq Require DecimalString.
From Verif Require Import Text_Model Canvas_Model.
Import ListNotations.
Open Scope Z_scope.

(** crossterm's [Color]: an RGB colour or one of the palette/named ones *)
Inductive color := Rgb (r g b : Z) | Palette (n : Z).
Definition color_eqb (a b : color) : bool :=
  match a, b with
  | Rgb r g b, Rgb r' g' b' => (r =? r') && (g =? g') && (b =? b')
  | Palette n, Palette m => n =? m
  | _, _ => false
  end.

Notation cell := (@Canvas_Model.cell text color).

(** svg.rs:220-226 and 262-276, [canvas.cell_at(y * width + x)] for [x] in
    [0..width]: row [y] *)
Definition row (w y : nat) (cells : list cell) : list cell := firstn w (skipn (y * w) cells).

(** [{:02x}] of a u8 *)
Definition hex1 (d : Z) : char := if d <? 10 then 48 + d else 87 + d.
Definition hex2 (v : Z) : text := [hex1 (v / 16); hex1 (v mod 16)].

(** svg.rs:364-369 [color_to_hex] *)
Definition color_to_hex (c : color) : text :=
  match c with
  | Rgb r g b => str "#" ++ hex2 r ++ hex2 g ++ hex2 b
  | Palette _ => str "#000000"
  end.

(** svg.rs:372-386 [escape_xml] *)
Definition escape_char (c : char) : text :=
  if c =? 60 then str "&lt;"
  else if c =? 62 then str "&gt;"
  else if c =? 38 then str "&amp;"
  else if c =? 34 then str "&quot;"
  else if c =? 39 then str "&apos;"
  else if c =? 32 then str "&#160;"
  else [c].
Definition escape_xml (s : text) : text := flat_map escape_char s.

(** svg.rs:389-398 [build_text_decoration] *)
Definition text_decoration (a : attrs) : text :=
  match a_underline a, a_strike a with
  | true, true => str "underline line-through"
  | true, false => str "underline"
  | false, true => str "line-through"
  | false, false => []
  end.

(** svg.rs:292-308: the [style] attribute, empty if there is none *)
Definition style_attr (a : attrs) : text :=
  trim ((if a_bold a then str "font-weight: bold; " else [])
        ++ (if a_italic a then str "font-style: italic; " else [])
        ++ (match text_decoration a with
            | [] => []
            | d => str "text-decoration: " ++ d ++ str "; "
            end)).

(** ** Colour classes *)

(** svg.rs:341-352 [struct StyleCollector]; the map in order of insertion *)
Record collector := Collector { sc_styles : list (color * text); sc_counter : nat }.

(** [format!("terminal-r{}", n)] *)
Definition class_name (n : nat) : text :=
  str "terminal-r" ++ str (DecimalString.NilEmpty.string_of_uint (Nat.to_uint n)).

(** [HashMap::get] *)
Fixpoint class_of (l : list (color * text)) (c : color) : option text :=
  match l with
  | [] => None
  | (k, n) :: r => if color_eqb k c then Some n else class_of r c
  end.

(** svg.rs:354-360 [add_fg] *)
Definition add_fg (s : collector) (c : color) : collector :=
  match class_of (sc_styles s) c with
  | Some _ => s
  | None => Collector (sc_styles s ++ [(c, class_name (sc_counter s))]) (S (sc_counter s))
  end.

(** svg.rs:77-89 [collect_styles], all cells in row order *)
Definition collect_styles (cells : list cell) : collector :=
  fold_left (fun s c => match c_fg c with Some f => add_fg s f | None => s end) cells (Collector [] 1).

(** svg.rs:140-151: one rule per RGB colour (their order, by class name, is left
    out): class name and fill *)
Definition rules (s : collector) : list (text * text) :=
  flat_map (fun p => match fst p with Rgb _ _ _ => [(snd p, color_to_hex (fst p))] | Palette _ => [] end)
    (sc_styles s).

(** ** Background rectangles *)

Record rect := Rect { r_fill : text; r_x : nat; r_y : nat; r_w : nat }.

(** svg.rs:230-240: the flush of a run *)
Definition flush_bg (y x start : nat) (bg : option color) : list rect :=
  match bg with Some b => [Rect (color_to_hex b) start y (x - start)] | None => [] end.

(** svg.rs:217-244, the loop over the columns of a row from [x] on; the end of
    the row counts as a cell without background *)
Fixpoint bg_row (y x start : nat) (run : option color) (l : list cell) : list rect :=
  match l with
  | [] => if ocolor_eqb color_eqb None run then [] else flush_bg y x start run
  | c :: r =>
      if ocolor_eqb color_eqb (c_bg c) run then bg_row y (S x) start run r
      else flush_bg y x start run ++ bg_row y (S x) x (c_bg c) r
  end.

(** svg.rs:210-246 [write_backgrounds] *)
Definition backgrounds (w h : nat) (cells : list cell) : list rect :=
  flat_map (fun y => bg_row y 0 0 None (row w y cells)) (seq 0 h).

(** ** Text *)

Record elem := Elem { e_class : text; e_x : nat; e_len : nat; e_style : text; e_row : nat; e_text : text }.

(** svg.rs:256-260: the run being collected *)
Record run := Run { n_start : nat; n_text : text; n_cells : nat; n_fg : option color; n_attrs : attrs }.

(** svg.rs:281-315: the element written when a run ends *)
Definition text_elem (styles : list (color * text)) (y : nat) (n : run) : elem :=
  Elem (match n_fg n with
        | Some f => match class_of styles f with Some s => s | None => str "terminal-default" end
        | None => str "terminal-default"
        end) (n_start n) (n_cells n) (style_attr (n_attrs n)) y (escape_xml (n_text n)).

(** svg.rs:279-325: a cell (or the end of the row) in style ([fg], [at_]) at
    column [x]: what is written, and the run afterwards *)
Definition restyle (styles : list (color * text)) (y x : nat) (n : run) (fg : option color) (at_ : attrs)
    : list elem * run :=
  let changed := negb (ocolor_eqb color_eqb fg (n_fg n)) || negb (attrs_eqb at_ (n_attrs n)) in
  let out := if changed && negb (is_nil (n_text n)) then [text_elem styles y n] else [] in
  let n1 := if changed && negb (is_nil (n_text n)) then Run (n_start n) [] 0 (n_fg n) (n_attrs n) else n in
  (out, if changed then Run x (n_text n1) (n_cells n1) fg at_ else n1).

(** svg.rs:262-331, the loop over the columns of a row from [x] on *)
Fixpoint text_row (styles : list (color * text)) (y x : nat) (n : run) (l : list cell) : list elem :=
  match l with
  | [] => fst (restyle styles y x n None attrs_default)
  | c :: r =>
      let '(out, n1) := restyle styles y x n (c_fg c) (c_attrs c) in
      out ++ text_row styles y (S x)
        (if c_cont c then n1
         else Run (n_start n1) (n_text n1 ++ c_sym c) (n_cells n1 + c_width c) (n_fg n1) (n_attrs n1)) r
  end.

(** svg.rs:248-333 [write_text] *)
Definition texts (styles : list (color * text)) (w h : nat) (cells : list cell) : list elem :=
  flat_map (fun y => text_row styles y 0 (Run 0 [] 0 None attrs_default) (row w y cells)) (seq 0 h).

(** svg.rs:60-75 [render] *)
Record picture := Picture { p_rules : list (text * text); p_rects : list rect; p_texts : list elem }.
Definition render (w h : nat) (cells : list cell) : picture :=
  let s := collect_styles (firstn (w * h) cells) in
  Picture (rules s) (backgrounds w h cells) (texts (sc_styles s) w h cells).
