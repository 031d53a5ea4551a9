(** The stylesheet parser with the colours of Colour_Model. *)
From Coq Require Import String ZArith QArith List Bool.
From Verif Require Import Text_Model Css_Model Colour_Model Sheet_Model.
Import ListNotations.
Open Scope Z_scope.
Open Scope list_scope.

(** color.rs:182-187 [theme_variable], with 89-101 [default] *)
Definition theme_variable (n : text) : rgba := Rgba 0 0 0 1%Q None false (Some n).

Section Whole.
Variable alnum : char -> bool.      (* char::is_alphanumeric *)
Variable lc : char -> text.         (* char::to_lowercase *)
Variables rnd rnd64 : Q -> Q.       (* rounding to f32 and f64 *)
Variables parse_f32 parse_f64 : text -> option Q.
(** mod.rs:152-163 *)
Definition selector_list : parser (list complex) := parse_selector_list alnum.
(** mod.rs:115-123, as [Sheet_Model.parse_rules] with color.rs:113-115, 125-135, 182-187 and 436-470 *)
Definition rules : text -> res (list (rule (value rgba))) :=
  parse_rules alnum (Colour_Model.lower lc) rnd rnd64 parse_f32 parse_f64 rgba (Colour_Model.parse rnd lc parse_f32) with_alpha theme_variable (rgba_of 0 0 0 0%Q).
(** mod.rs:108-126 *)
Definition stylesheet : text -> res (list (rule (value rgba))) :=
  parse_stylesheet alnum (Colour_Model.lower lc) rnd rnd64 parse_f32 parse_f64 rgba (Colour_Model.parse rnd lc parse_f32) with_alpha theme_variable (rgba_of 0 0 0 0%Q).
End Whole.
