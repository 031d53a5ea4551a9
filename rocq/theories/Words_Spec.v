(** Specification of style tags: what the words of a tag mean. *)
From Coq Require Import String ZArith List Bool.
From Verif Require Import Text_Model Markup_Model Colour_Spec.
Import ListNotations.
Open Scope Z_scope.
Open Scope list_scope.

(** White space only. *)
Definition blank (t : text) : Prop := Forall (fun c => is_ws c = true) t.
Definition solid (t : text) : Prop := t <> [] /\ Forall (fun c => is_ws c = false) t.
(** A text made of these words with white space around and between them. *)
Inductive spaced : list text -> text -> Prop :=
| spaced_nil : forall g, blank g -> spaced [] g
| spaced_last : forall g w h, blank g -> solid w -> blank h -> spaced [w] (g ++ w ++ h)
| spaced_cons : forall g w h ws t, blank g -> solid w -> blank h -> h <> [] -> spaced ws t -> spaced (w :: ws) (g ++ w ++ h ++ t).

(** The seven attributes and their names. *)
Inductive attr := Bold | Dim | Italic | Underline | Strike | Reverse | Blink.
Definition attr_names : list (string * attr) :=
  [("bold", Bold); ("b", Bold); ("dim", Dim); ("d", Dim); ("italic", Italic); ("i", Italic); ("underline", Underline); ("u", Underline);
   ("strike", Strike); ("s", Strike); ("strikethrough", Strike); ("reverse", Reverse); ("r", Reverse); ("blink", Blink)]%string.
Definition has (a : attr) (s : style) : bool :=
  let t := s_text s in
  match a with Bold => ts_bold t | Dim => ts_dim t | Italic => ts_italic t | Underline => ts_underline t | Strike => ts_strike t | Reverse => ts_reverse t | Blink => ts_blink t end.

(** A byte written in decimal, possibly with a plus sign and blanks around. *)
Definition numeral (n : Z) (t : text) : Prop :=
  n <= 255 /\ exists a b d, t = a ++ d ++ b /\ blank a /\ blank b /\ (decimal n d \/ exists d', d = 43 :: d' /\ decimal n d').

Section Words.
Variable lower : text -> text.
Variable known_color : text -> bool.
(** A colour: three or six hexadecimal digits after a hash sign, rgb(r,g,b), or
    a known name in any case. *)
Inductive colour_core : text -> color -> Prop :=
| core_short : forall x y z a b c, hex_char x a -> hex_char y b -> hex_char z c ->
    colour_core [35; a; b; c] (Rgb (17 * x) (17 * y) (17 * z))
| core_long : forall r1 r2 g1 g2 b1 b2 a b c d e f,
    hex_char r1 a -> hex_char r2 b -> hex_char g1 c -> hex_char g2 d -> hex_char b1 e -> hex_char b2 f ->
    colour_core [35; a; b; c; d; e; f] (Rgb (16 * r1 + r2) (16 * g1 + g2) (16 * b1 + b2))
| core_rgb : forall r g b p1 p2 p3, numeral r p1 -> numeral g p2 -> numeral b p3 ->
    colour_core (str "rgb(" ++ p1 ++ [44] ++ p2 ++ [44] ++ p3 ++ str ")") (Rgb r g b)
| core_name : forall t, nth_error t 0 <> Some 35 -> (forall p, t <> str "rgb(" ++ p ++ str ")") -> known_color (lower t) = true ->
    colour_core t (Named (lower t)).
(** White space around a colour does not matter. *)
Definition colour_text (t : text) (c : color) : Prop :=
  exists a b core, t = a ++ core ++ b /\ blank a /\ blank b /\ colour_core core c /\
    (forall x r, core = x :: r -> is_ws x = false) /\ (forall x r, core = r ++ [x] -> is_ws x = false) /\ core <> [].

(** What a word or two say. *)
Inductive item := Attr (a : attr) | Fg (c : color) | Bg (c : color).
Inductive spells : list text -> list item -> Prop :=
| spells_nil : spells [] []
| spells_attr : forall w n a ws is_, lower w = str n -> In (n, a) attr_names -> spells ws is_ -> spells (w :: ws) (Attr a :: is_)
| spells_on : forall w cw c ws is_, lower w = str "on" -> colour_text cw c -> spells ws is_ -> spells (w :: cw :: ws) (Bg c :: is_)
| spells_colour : forall w c ws is_, lower w <> str "on" -> (forall n a, In (n, a) attr_names -> lower w <> str n) ->
    colour_text (lower w) c \/ ((forall d, ~ colour_text (lower w) d) /\ colour_text w c) ->
    spells ws is_ -> spells (w :: ws) (Fg c :: is_).
End Words.
(** The last of the colours given. *)
Definition last_some {A : Type} (f : item -> option A) (l : list item) : option A :=
  fold_left (fun o i => match f i with Some x => Some x | None => o end) l None.
Definition meaning (l : list item) (s : style) : Prop :=
  s_fg s = last_some (fun i => match i with Fg c => Some c | _ => None end) l /\
  s_bg s = last_some (fun i => match i with Bg c => Some c | _ => None end) l /\
  forall a, has a s = true <-> In (Attr a) l.
(** What is assumed of lower-casing: it is the usual one on ASCII, and it does
    not conjure up a leading hash sign. *)
Definition ascii_lower (c : char) : char := if (65 <=? c) && (c <=? 90) then c + 32 else c.
Definition lowercase_like (lower : text -> text) : Prop :=
  (forall w, Forall (fun c => 0 <= c < 128) w -> lower w = map ascii_lower w) /\
  (forall w, nth_error (trim (lower w)) 0 = Some 35 -> nth_error (trim w) 0 = Some 35).
