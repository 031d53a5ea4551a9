(** Specification of the look of links. *)
From Coq Require Import String ZArith QArith List Bool.
From Verif Require Import Text_Model Colour_Model Colour_Spec Link_Model.
From Verif Require Wrap_Spec.
Import ListNotations.

(** the action of a character: what its metadata says under "@click" *)
Definition action (m : meta) : option text := lookup (str "@click") m.
Definition opaque (c : rgba) : Prop := (1 <= c_a c)%Q.
Definition bytes_opt (c : option rgba) : Prop := match c with Some c => bytes c | None => True end.
(** a colour for links, that for hovered links first *)
Definition chosen (hovered : bool) (normal hover : option rgba) : option rgba :=
  if hovered then match hover with Some c => Some c | None => normal end else normal.
Definition glyph_char (g : @Wrap_Spec.glyph style meta) := fst (fst g).
Definition glyph_style (g : @Wrap_Spec.glyph style meta) := snd (fst g).
Definition glyph_meta (g : @Wrap_Spec.glyph style meta) := snd g.
