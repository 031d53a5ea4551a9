(** Model of how links look: crates/textual/src/content.rs:296-315 and 353-477
    [apply_link_style], crates/tcss/src/types/link.rs:15-28, and the styles of
    crates/textual/src/segment.rs:22-94.

    The rendering of lines is that of Wrap_Model, whose opaque styles, metadata and
    link styling are given here.  A metadata map is a list of keys and values, the
    last added first. *)
From Coq Require Import String ZArith QArith List Bool.
From Verif Require Import Text_Model Colour_Model.
From Verif Require Wrap_Model.
Import ListNotations.
Open Scope bool_scope.
Open Scope list_scope.

(** segment.rs:22-40 [Style] *)
Record style := Style { s_fg : option rgba; s_bg : option rgba; s_bold : bool; s_dim : bool; s_italic : bool; s_underline : bool; s_strike : bool; s_reverse : bool }.
Definition plain : style := Style None None false false false false false false.
(** segment.rs:66-75 [is_empty] *)
Definition style_empty (s : style) : bool :=
  match s_fg s, s_bg s with
  | None, None => negb (s_bold s) && negb (s_dim s) && negb (s_italic s) && negb (s_underline s) && negb (s_strike s) && negb (s_reverse s)
  | _, _ => false
  end.
Definition or_else {A} (a b : option A) : option A := match a with Some _ => a | None => b end.
(** segment.rs:83-94 [apply] *)
Definition style_apply (s o : style) : style :=
  Style (or_else (s_fg o) (s_fg s)) (or_else (s_bg o) (s_bg s)) (s_bold s || s_bold o) (s_dim s || s_dim o) (s_italic s || s_italic o)
        (s_underline s || s_underline o) (s_strike s || s_strike o) (s_reverse s || s_reverse o).

(** the attributes of [TextStyle] (tcss types/text.rs) that a style has; the others
    (double underline, blinking, overline) and the theme variable have no effect here *)
Record attrs := Attrs { t_bold : bool; t_dim : bool; t_italic : bool; t_underline : bool; t_strike : bool; t_reverse : bool }.
Definition no_attrs : attrs := Attrs false false false false false false.
(** link.rs:15-28 [LinkStyle] *)
Record links := Links { l_color : option rgba; l_bg : option rgba; l_color_hover : option rgba; l_bg_hover : option rgba; l_style : attrs; l_style_hover : attrs }.

Section Float.
Variable rnd : Q -> Q.

(** 409-417 *)
Definition effective_bg (given base : option rgba) : option rgba :=
  match given, base with
  | Some g, Some b => if negb (Qle_bool 1 (c_a g)) then Some (blend_over rnd g b) else Some g
  | Some g, None => Some g
  | None, b => b
  end.
(** 423-453 *)
Definition effective_fg (given bg base_bg base_fg : option rgba) : option rgba :=
  match given with
  | Some c =>
      if c_auto c then
        match bg, base_bg with
        | Some b, _ => Some (contrasting rnd b (c_a c))
        | None, Some b => Some (contrasting rnd b (c_a c))
        | None, None => base_fg
        end
      else if negb (Qle_bool 1 (c_a c)) then
        match bg, base_bg with
        | Some b, _ => Some (blend_over rnd c b)
        | None, Some b => Some (blend_over rnd c b)
        | None, None => Some c
        end
      else Some c
  | None => match bg with Some b => Some (contrasting rnd b (rnd (87 # 100))) | None => base_fg end
  end.
(** 387-405 *)
Definition merged (l : links) (hovered : bool) : attrs :=
  let a := l_style l in let b := l_style_hover l in
  if hovered then
    Attrs (t_bold a || t_bold b) (t_dim a || t_dim b) (t_italic a || t_italic b) (t_underline a || t_underline b) (t_strike a || t_strike b) (t_reverse a || t_reverse b)
  else a.
(** 361-477 [apply_link_style] *)
Definition apply_link (s : style) (l : links) (hovered : bool) : style :=
  let given_bg := if hovered then or_else (l_bg_hover l) (l_bg l) else l_bg l in
  let given_fg := if hovered then or_else (l_color_hover l) (l_color l) else l_color l in
  let t := merged l hovered in
  let bg := effective_bg given_bg (s_bg s) in
  Style (effective_fg given_fg bg (s_bg s) (s_fg s)) bg (s_bold s || t_bold t) (s_dim s || t_dim t) (s_italic s || t_italic t)
        (if hovered then t_underline t else true) (s_strike s || t_strike t) (s_reverse s || t_reverse t).

(** HashMap *)
Definition meta := list (text * text).
Fixpoint lookup (k : text) (m : meta) : option text :=
  match m with
  | [] => None
  | (k', v) :: r => if text_eqb k k' then Some v else lookup k r
  end.
Definition extend (m o : meta) : meta := o ++ m.
Definition meta_empty (m : meta) : bool := match m with [] => true | _ => false end.

(** 306-315; [ls] is [link_style], [hov] is [hovered_action] *)
Definition restyle (ls : option links) (hov : option text) (s : style) (m : meta) : style :=
  match lookup (str "@click") m with
  | Some a =>
      match ls with
      | Some l => apply_link s l (match hov with Some h => text_eqb h a | None => false end)
      | None => s
      end
  | None => s
  end.

(** [lines] of a content with this link style and hovered action *)
Definition lines (gr : text -> list text) (gw : text -> nat) (ls : option links) (hov : option text) (c : @Wrap_Model.content style meta) :=
  Wrap_Model.lines gr gw style_apply plain style_empty [] meta_empty extend (restyle ls hov) c.
End Float.
