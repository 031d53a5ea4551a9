(** Model of the drawing of Ruler, LoadingIndicator and ScrollBarCorner over the canvas.

    The characters of the widgets are clusters of the canvas model.  Colours are
    those of the canvas model, already converted. *)
From Coq Require Import ZArith List Bool Arith.
From Verif Require Import Canvas_Model.
Import ListNotations.
Open Scope Z_scope.

Section Mark.
Context {Sym Color Bg : Type}.
Variable gw : Sym -> nat.
Variable space : Sym.
Variable sym_eqb : Sym -> Sym -> bool.
Variable translucent : option Bg -> bool.
Variable resolve_bg : option Bg -> option Color -> option Color.
Notation canvas := (@canvas Sym Color).
Notation put_char := (@put_char Sym Color Bg gw space sym_eqb translucent resolve_bg).
Notation render_strip := (@render_strip Sym Color Bg gw space sym_eqb translucent resolve_bg).

(** what the computed style gives: visibility, colours, attributes *)
Record look := Look { l_hidden : bool; l_fg : option Color; l_bg : option Bg; l_attrs : attrs }.

(** *** Ruler *)
Variables (bullet dot : Sym).
Inductive orientation := Vertical | Horizontal.
(** ruler.rs:125-133 [char_at] *)
Definition char_at (pos : nat) : Sym := if ((pos + 1) mod 5 =? 0)%nat then bullet else dot.
(** Strip::from_segment of one styled text; its cell length is the sum of the widths *)
Definition one_segment (l : look) (s : list Sym) : list (@seg Sym Color Bg) :=
  [Seg s (fold_right (fun g n => (gw g + n)%nat) 0%nat s) (l_fg l) (l_bg l) (l_attrs l)].
(** ruler.rs:184-189, the loop over the rows from [i] on, [n] left *)
Fixpoint ruler_rows (l : look) (c : canvas) (x y : Z) (i n : nat) : option canvas :=
  match n with
  | O => Some c
  | S n' =>
      match render_strip c (one_segment l [char_at i]) x (y + Z.of_nat i) with
      | Some c' => ruler_rows l c' x y (S i) n'
      | None => None
      end
  end.
(** ruler.rs:170-202 [render] *)
Definition ruler_render (o : orientation) (l : look) (c : canvas) (r : region) : option canvas :=
  if l_hidden l then Some c
  else if (rg_w r <=? 0) || (rg_h r <=? 0) then Some c
  else match o with
       | Vertical => ruler_rows l c (rg_x r) (rg_y r) 0 (Z.to_nat (rg_h r))
       | Horizontal => render_strip c (one_segment l (map char_at (seq 0 (Z.to_nat (rg_w r))))) (rg_x r) (rg_y r)
       end.

(** *** LoadingIndicator *)
(** loading_indicator.rs:11 *)
Variable frames : list Sym.
(** loading_indicator.rs:14-23: the frame and whether it is visible *)
Record spinner := Spinner { sp_frame : nat; sp_visible : bool; sp_dirty : bool }.
(** loading_indicator.rs:26-37 [new] *)
Definition spinner_new : spinner := Spinner 0 true true.
(** loading_indicator.rs:59-62 [tick] *)
Definition tick (s : spinner) : spinner := Spinner ((sp_frame s + 1) mod length frames) (sp_visible s) true.
(** loading_indicator.rs:52-57 [LoadingIndicator::set_visible] and 167-169 [Widget::set_visible] *)
Definition show_inherent (v : bool) (s : spinner) : spinner :=
  if Bool.eqb (sp_visible s) v then s else Spinner (sp_frame s) v true.
Definition show_widget (v : bool) (s : spinner) : spinner := Spinner (sp_frame s) v (sp_dirty s).
(** mark_clean: loading_indicator.rs:147-149 *)
Definition spinner_clean (s : spinner) : spinner := Spinner (sp_frame s) (sp_visible s) false.
(** loading_indicator.rs:79-92 [render]; the index is checked *)
Definition spinner_render (s : spinner) (l : look) (c : canvas) (r : region) : option canvas :=
  if negb (sp_visible s) || l_hidden l then Some c
  else match nth_error frames (sp_frame s) with
       | Some g => put_char c (rg_x r) (rg_y r) g (l_fg l) (l_bg l) attrs_default
       | None => None
       end.

(** *** ScrollBarCorner *)
(** scrollbar_corner.rs:60-65 [effective_color]: the colour given, the style's, the fallback *)
Definition corner_color (own style : option Bg) (fallback : Bg) : Bg :=
  match own with Some b => b | None => match style with Some b => b | None => fallback end end.
(** scrollbar_corner.rs:89-100, one row, the columns from [i] on *)
Fixpoint corner_row (b : Bg) (c : canvas) (x y : Z) (i n : nat) : option canvas :=
  match n with
  | O => Some c
  | S n' =>
      match put_char c (x + Z.of_nat i) y space None (Some b) attrs_default with
      | Some c' => corner_row b c' x y (S i) n'
      | None => None
      end
  end.
Fixpoint corner_rows (b : Bg) (c : canvas) (x y : Z) (w i n : nat) : option canvas :=
  match n with
  | O => Some c
  | S n' =>
      match corner_row b c x (y + Z.of_nat i) 0 w with
      | Some c' => corner_rows b c' x y w (S i) n'
      | None => None
      end
  end.
(** scrollbar_corner.rs:76-101 [render]; [w] and [h] are the size of the corner *)
Definition corner_render (hidden : bool) (w h : nat) (own style : option Bg) (fallback : Bg) (c : canvas) (r : region) : option canvas :=
  if hidden then Some c
  else corner_rows (corner_color own style fallback) c (rg_x r) (rg_y r)
         (Z.to_nat (Z.min (rg_w r) (Z.of_nat w))) 0 (Z.to_nat (Z.min (rg_h r) (Z.of_nat h))).
(** scrollbar_corner.rs:51-57 [update_size] *)
Definition update_size (w h : nat) (old : nat * nat * bool) : nat * nat * bool :=
  let '(ow, oh, dirty) := old in if ((ow =? w) && (oh =? h))%nat then old else (w, h, true).
End Mark.
