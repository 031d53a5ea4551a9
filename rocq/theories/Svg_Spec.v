(** Specification for the SVG export: what a viewer shows. *)
From Coq Require Import String ZArith List Bool Arith.
From Verif Require Import Text_Model Canvas_Model Svg_Model.
Import ListNotations.
Open Scope Z_scope.

(** ** Reading text of an XML document: the five named entities and decimal
    character references *)
Definition entities : list (text * char) :=
  [(str "lt", 60); (str "gt", 62); (str "amp", 38); (str "quot", 34); (str "apos", 39)].

Definition entity (name : text) : option char :=
  match find (fun p => text_eqb (fst p) name) entities with
  | Some p => Some (snd p)
  | None =>
      match name with
      | 35 :: d => if negb (is_nil d) && forallb is_digit d then Some (digits_value d) else None
      | _ => None
      end
  end.

(** [xml_text t s]: the document text [t] stands for the characters [s].  A bare
    "<" or "&" is not allowed. *)
Inductive xml_text : text -> text -> Prop :=
| xml_end : xml_text [] []
| xml_plain : forall c t s, c <> 60 -> c <> 38 -> xml_text t s -> xml_text (c :: t) (c :: s)
| xml_ref : forall name c t s, ~ In 59 name -> entity name = Some c -> xml_text t s ->
    xml_text (str "&" ++ name ++ str ";" ++ t) (c :: s).

(** Blanks are written as no-break spaces, which SVG viewers do not collapse. *)
Definition nbsp (s : text) : text := map (fun c => if c =? 32 then 160 else c) s.

(** A colour in hexadecimal notation. *)
Definition hex_digit (c : char) : option Z :=
  if (48 <=? c) && (c <=? 57) then Some (c - 48)
  else if (97 <=? c) && (c <=? 102) then Some (c - 87) else None.
Definition hex_colour (t : text) (r g b : Z) : Prop :=
  exists r1 r0 g1 g0 b1 b0 d1 d2 d3 d4 d5 d6, t = [35; r1; r0; g1; g0; b1; b0] /\
    hex_digit r1 = Some d1 /\ hex_digit r0 = Some d2 /\ hex_digit g1 = Some d3 /\
    hex_digit g0 = Some d4 /\ hex_digit b1 = Some d5 /\ hex_digit b0 = Some d6 /\
    r = 16 * d1 + d2 /\ g = 16 * d3 + d4 /\ b = 16 * d5 + d6.
Definition is_u8 (v : Z) : Prop := 0 <= v <= 255.
Definition colour_u8 (c : color) : Prop :=
  match c with Rgb r g b => is_u8 r /\ is_u8 g /\ is_u8 b | Palette _ => True end.

(** The declarations of a style attribute. *)
Definition declarations (s : text) : list text :=
  filter (fun d => negb (is_nil d)) (map trim (split_char 59 s)).

(** ** Rows *)

Definition cell_at (w : nat) (cells : list cell) (x y : nat) : option cell := nth_error cells (y * w + x).

(** the columns a rectangle or text element takes *)
Definition rect_covers (r : rect) (x y : nat) : Prop := r_y r = y /\ (r_x r <= x < r_x r + r_w r)%nat.
Definition elem_covers (e : elem) (x y : nat) : Prop := e_row e = y /\ (e_x e <= x < e_x e + e_len e)%nat.

(** A row is a sequence of glyphs, each followed by its continuation cells in
    the same style. *)
Inductive glyphs : list cell -> Prop :=
| glyphs_nil : glyphs []
| glyphs_cons : forall (c : cell) (tail r : list cell), c_cont c = false -> c_sym c <> [] -> c_width c = S (length tail) ->
    Forall (fun t : cell => c_cont t = true /\ c_fg t = c_fg c /\ c_attrs t = c_attrs c) tail ->
    glyphs r -> glyphs (c :: tail ++ r).

(** the text of some cells *)
Definition symbols (l : list cell) : text :=
  flat_map (fun c : cell => if c_cont c then [] else c_sym c) l.

(** no foreground colour and no attribute *)
Definition plain (c : cell) : Prop := c_fg c = None /\ c_attrs c = attrs_default.

(** The fill a viewer gives to text of a class: that of its rules if there is
    one (the last wins), black otherwise. *)
Definition fill_of (rules : list (text * text)) (class : text) : text :=
  match find (fun p => text_eqb (fst p) class) (rev rules) with Some p => snd p | None => str "#000000" end.

(** every row of the picture is such a sequence *)
Definition rows_ok (w h : nat) (cells : list cell) : Prop :=
  forall y, (y < h)%nat -> glyphs (firstn w (skipn (y * w) cells)).
