(** Specification vocabulary for static text: rows are lists of cells. *)
From Coq Require Import ZArith List Arith Bool.
From Verif Require Import Strip_Model Strip_Spec Row_Model Row_Spec Bars_Model Bars_Spec Static_Model.
Import ListNotations.
Open Scope nat_scope.

Section Spec.
Context {G St Mt A : Type}.
Variable gw : G -> nat.
Variable is_space : G -> bool.
Variable link_of : Mt -> option A.
Notation cell := (@cell G St Mt).
Notation strip := (@strip G St Mt).
Notation look := (@look G St Mt).

(** [n] things in [room] places: [a] places before, [b] after them. *)
Definition down (v : valign) (room n a b : nat) : Prop :=
  a + n + b = room /\ match v with VTop => a = 0 | VBottom => b = 0 | VMiddle => a = b \/ S a = b end.
Definition across (h : halign) (room n a b : nat) : Prop :=
  a + n + b = room /\ match h with HLeft => a = 0 | HRight => b = 0 | HCenter => a = b \/ S a = b end.

Definition side (t : talign) : halign :=
  match t with TStart | TLeft | TJustify => HLeft | TEnd | TRight => HRight | TCenter => HCenter end.
(** How the line [l] is set in [w] cells, to [r]: a justified line that is not the
    last of its paragraph and has gaps is stretched evenly, every other one is put
    at its side. *)
Definition set_in (t : talign) (last : bool) (w : nat) (pad : cell) (l r : list cell) : Prop :=
  match t, last with
  | TJustify, false =>
      (0 < spaces is_space l /\ length l < w /\ r = stretch is_space (even_share (spaces is_space l) (w - length l)) 0 l) \/
      ((spaces is_space l = 0 \/ w <= length l) /\ r = l ++ repeat pad (w - length l))
  | _, _ => exists a b, across (side t) w (length l) a b /\ r = repeat pad a ++ l ++ repeat pad b
  end.

(** The row [r], [w] cells wide, of the line [l] of a text whose widest line has
    [block] cells: the text as a block is put to the side content-align says, and
    the line is set in the block; except that with content-align left and top the
    line is set in the whole row. *)
Definition in_block (k : look) (w block : nat) (pad : cell) (last : bool) (l r : list cell) : Prop :=
  match k_h k, k_v k with
  | HLeft, VTop => set_in (k_t k) last w pad (firstn w l) r
  | _, _ => exists a b m, across (k_h k) w block a b /\ r = repeat pad a ++ m ++ repeat pad b /\ set_in (k_t k) last block pad (firstn w l) m
  end.

(** The lines of the text, each with [line-pad] blanks at both ends, and whether it
    ends a paragraph. *)
Definition text_lines (blank : cell) (k : look) (ls : list (@wline G St Mt)) : list (list cell * bool) :=
  map (fun l => (repeat blank (k_line_pad k) ++ cells (w_strip l) ++ repeat blank (k_line_pad k), w_end l)) ls.
Definition widest (ls : list (list cell * bool)) : nat := fold_right (fun l m => Nat.max (length (fst l)) m) 0 ls.
(** [rows] are the [h] rows, [w] cells wide, of a text: its lines, as many as there
    is room for, in order and one below the other, placed up or down as the vertical
    content-align says. *)
Definition shows_text (k : look) (w h : nat) (pad : cell) (lines : list (list cell * bool)) (rows : list (list cell)) : Prop :=
  exists above below mid,
    down (k_v k) h (length mid) above below /\
    rows = repeat (repeat pad w) above ++ mid ++ repeat (repeat pad w) below /\
    Forall2 (fun l r => length r = w /\ in_block k w (Nat.min w (widest lines)) pad (snd l) (fst l) r) (firstn h lines) mid.

(** Lines of one-cell clusters with the right cached lengths. *)
Definition plain_lines (ls : list (@wline G St Mt)) : Prop := Forall (fun l => plain gw (w_strip l)) ls.

(** The room inside border and padding, and the rows of it that are left for text. *)
Definition room_w (k : look) (w : nat) : nat :=
  w - (b2n (shown_v (e_left (k_border k))) + b2n (shown_v (e_right (k_border k))) + (e_left (k_padding k) + e_right (k_padding k))).
Definition room_h (k : look) (h : nat) : nat :=
  h - (b2n (shown_h (e_top (k_border k))) + b2n (shown_h (e_bottom (k_border k))) + (e_top (k_padding k) + e_bottom (k_padding k))).
(** Titles are in a border or there are none. *)
Definition titles_in_borders (k : look) : Prop :=
  (shown_h (e_top (k_border k)) = false -> k_title k = None) /\ (shown_h (e_bottom (k_border k)) = false -> k_subtitle k = None).
(** Nothing is drawn over the edges. *)
Definition not_outlined (k : look) : Prop := any_edge (visible_edges (k_outline k)) = false.
(** The drawing characters of the boxes are one cell each. *)
Definition glyph_boxes (k : look) : Prop := box_ok gw (k_box k) /\ box_ok gw (k_outline_box k).

(** The whole row of the widget with the text's row [r] in it. *)
Definition framed (pad : cell) (k : look) (r : list cell) : list cell :=
  let '(_, (lf, _, rt), _) := k_box k in
  edge_cells (shown_v (e_left (k_border k))) lf ++ repeat pad (e_left (k_padding k)) ++ r ++
  repeat pad (e_right (k_padding k)) ++ edge_cells (shown_v (e_right (k_border k))) rt.
(** The first row of the text. *)
Definition first_row (k : look) : nat := b2n (shown_h (e_top (k_border k))) + e_top (k_padding k).

(** ** Links *)
(** What the cell at column [x] of row [y] links to. *)
Definition link_at (rows : list strip) (x y : nat) : option A :=
  match nth_error rows y with
  | Some r => match nth_error (cells r) x with Some c => link_of (snd c) | None => None end
  | None => None
  end.
Definition no_links (l : list cell) : Prop := Forall (fun c => link_of (snd c) = None) l.
(** Neither titles nor borders have links. *)
Definition row_unlinked (r : @box_row G St Mt) : Prop :=
  let '(a, b, c) := r in link_of (sg_meta a) = None /\ link_of (sg_meta b) = None /\ link_of (sg_meta c) = None.
Definition unlinked (k : look) : Prop :=
  (let '(a, b, c) := k_box k in row_unlinked a /\ row_unlinked b /\ row_unlinked c) /\
  (forall s, k_title k = Some s -> no_links (cells s)) /\ (forall s, k_subtitle k = Some s -> no_links (cells s)).

(** Histories: the widget is drawn (with any look and text at any size), the mouse
    does something at ([mx],[my]) while the widget occupies [r], the pointer leaves,
    or the application takes the pending action. *)
Inductive happening :=
| Drawn (k : look) (wrap : nat -> list (@wline G St Mt)) (width height : nat)
| Pointed (e : mouse) (r : area) (mx my : Z)
| Leaves
| Taken.
(** What a user expects: the rows on the screen, the link pointed at and the link
    clicked last and not yet taken. *)
Record expected := Expected { x_rows : list strip; x_hover : option A; x_pending : option A }.
Definition pointed_at (rows : list strip) (r : area) (mx my : Z) : option A :=
  link_at rows (Z.to_nat (mx - a_x r)) (Z.to_nat (my - a_y r)).
Definition stepped (x : expected) (rows : list strip) (e : mouse) (r : area) (mx my : Z) : expected :=
  match e with
  | LeftDown => match pointed_at rows r mx my with Some a => Expected (x_rows x) (x_hover x) (Some a) | None => x end
  | Moved => Expected (x_rows x) (pointed_at rows r mx my) (x_pending x)
  | Other => x
  end.
(** A widget drawn in an empty region changes nothing on the screen; the mouse
    counts only inside the region. *)
Definition in_region (r : area) (mx my : Z) : bool :=
  (Z.leb (a_x r) mx && Z.ltb mx (a_x r + a_w r) && Z.leb (a_y r) my && Z.ltb my (a_y r + a_h r))%bool.
Definition expects (draw : look -> (nat -> list (@wline G St Mt)) -> nat -> nat -> list strip) (x : expected) (h : happening) : expected :=
  match h with
  | Drawn k wrap w h => if (w =? 0) || (h =? 0) then x else Expected (draw k wrap w h) (x_hover x) (x_pending x)
  | Pointed e r mx my => if in_region r mx my then stepped x (x_rows x) e r mx my else x
  | Leaves => Expected (x_rows x) None (x_pending x)
  | Taken => Expected (x_rows x) (x_hover x) None
  end.
(** The drawings the claim is about: nothing covers the text, titles are in borders,
    and only the text has links. *)
Definition clickable (k : look) (wrap : nat -> list (@wline G St Mt)) (w : nat) : Prop :=
  titles_in_borders k /\ not_outlined k /\ glyph_boxes k /\ unlinked k /\
  plain_opt gw (k_title k) /\ plain_opt gw (k_subtitle k) /\ plain_lines (wrap (Nat.max (room_w k w - k_line_pad k * 2) 1)).
Definition clickable_in (h : happening) : Prop := match h with Drawn k wrap w _ => clickable k wrap w | _ => True end.
End Spec.
Arguments Expected {G St Mt A}. Arguments x_rows {G St Mt A}. Arguments x_hover {G St Mt A}. Arguments x_pending {G St Mt A}.
Arguments Drawn {G St Mt}. Arguments Pointed {G St Mt}. Arguments Leaves {G St Mt}. Arguments Taken {G St Mt}.
