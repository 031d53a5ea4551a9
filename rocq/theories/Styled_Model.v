(** The values a parsed stylesheet gives to the single fields of a style. *)
From Coq Require Import ZArith QArith List Bool.
From Verif Require Import Text_Model Css_Model Colour_Model Sheet_Model.

Definition V : Type := value rgba.
(** cascade.rs:297, 302 with geometry.rs:86-113 [Spacing]: the fields of a
    spacing; for other values (excluded by the types of the program) the value itself *)
Definition top (v : V) : V := match v with VSpacing t _ _ _ => VScalar t | _ => v end.
Definition right (v : V) : V := match v with VSpacing _ r _ _ => VScalar r | _ => v end.
Definition bottom (v : V) : V := match v with VSpacing _ _ b _ => VScalar b | _ => v end.
Definition left (v : V) : V := match v with VSpacing _ _ _ l => VScalar l | _ => v end.
(** cascade.rs:430-432 with types/scrollbar.rs:5-12 [ScrollbarSize] *)
Definition horizontal (v : V) : V := match v with VSizes h _ => VInt h | _ => v end.
Definition vertical (v : V) : V := match v with VSizes _ w => VInt w | _ => v end.

Section Styled.
(** resolve_theme_color and its companions (cascade.rs:113-229, see C100), the
    automatic flag of a colour as a value, the flag of an explicit visibility,
    and merging of text styles (types/text.rs) *)
Variables (theme_color theme_edge theme_style theme_hatch theme_keyline auto_flag : V -> V) (v_true : V) (merge : V -> V -> V).
(** cascade.rs:231-273 [compute_style] on the values of the parser *)
Definition style_of : cstyle V -> ctx -> meta -> list meta -> list (rule V) -> cstyle V :=
  compute_style V theme_color theme_edge theme_style theme_hatch theme_keyline auto_flag v_true top right bottom left horizontal vertical merge.
End Styled.
