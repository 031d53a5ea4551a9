(** Model of crates/tcss/src/types/color.rs without [luminance], [lighten],
    [darken] and the conversions to and from L*ab, which use
    powers; all but the first are in Theme_Model.

    [rnd] is the rounding of f32 arithmetic (see Float32_Model), applied after
    every operation.  [lc] is [char::to_lowercase] and [parse_float] is
    [str::parse::<f32>] on finite values; both are parameters.  (Rust lowers a
    final capital sigma differently; no colour contains one.) *)
From Coq Require Import ZArith QArith Qround String List Bool.
From Verif Require Import Text_Model Float32_Model.
Import ListNotations.
Notation length := List.length.
Open Scope Z_scope.
Open Scope list_scope.

(** color.rs:71-87 [RgbaColor] *)
Record rgba := Rgba { c_r : Z; c_g : Z; c_b : Z; c_a : Q; c_ansi : option Z; c_auto : bool; c_theme : option text }.
(** color.rs:232-250 [rgb], [rgba] and 260-266 [auto] *)
Definition rgba_of (r g b : Z) (a : Q) : rgba := Rgba r g b a None false None.
Definition rgb_of (r g b : Z) : rgba := rgba_of r g b 1%Q.
Definition auto_of (a : Q) : rgba := Rgba 0 0 0 a None true None.
(** color.rs:125-135 [with_alpha] *)
Definition with_alpha (c : rgba) (a : Q) : rgba := Rgba (c_r c) (c_g c) (c_b c) a (c_ansi c) (c_auto c) (c_theme c).

(** [q.clamp(0.0, 255.0) as u8] *)
Definition u8_clamp (q : Q) : Z := trunc (if Qle_bool q 0 then 0 else if Qle_bool 255 q then 255 else q)%Q.
(** [q.round() as u8], which saturates: half away from zero; a value that is
    not positive gives 0 either way *)
Definition u8_round (q : Q) : Z := if Qle_bool q 0 then 0 else Z.min (Qfloor (q + (1 # 2))%Q) 255.

Section Float.
Variable rnd : Q -> Q.
Notation "a +. b" := (rnd (a + b)%Q) (at level 50).
Notation "a -. b" := (rnd (a - b)%Q) (at level 50).
Notation "a *. b" := (rnd (a * b)%Q) (at level 40).
Notation "a /. b" := (rnd (a / b)%Q) (at level 40).
Notation f32 := inject_Z.

(** color.rs:151-157 [with_opacity]; the f64 opacity is cast to f32 *)
Definition with_opacity (c : rgba) (opacity : Q) : rgba :=
  if Qle_bool 1 opacity then c else with_alpha c (c_a c *. rnd opacity).
(** [from as f32 + (to as f32 - from as f32) * factor] *)
Definition lerp (from to : Z) (factor : Q) : Q := f32 from +. ((f32 to -. f32 from) *. factor).
(** color.rs:291-308 [blend] *)
Definition blend (c d : rgba) (factor : Q) (alpha : option Q) : rgba :=
  if Qle_bool factor 0 then c
  else if Qle_bool 1 factor then d
  else
    let a := match alpha with Some a => a | None => c_a c +. ((c_a d -. c_a c) *. factor) end in
    rgba_of (u8_clamp (lerp (c_r c) (c_r d) factor)) (u8_clamp (lerp (c_g c) (c_g d) factor)) (u8_clamp (lerp (c_b c) (c_b d) factor)) a.
(** color.rs:311-313 [inverse] *)
Definition inverse (c : rgba) : rgba := rgba_of (255 - c_r c) (255 - c_g c) (255 - c_b c) (c_a c).
(** color.rs:344-358 [tint] *)
Definition tint (c overlay : rgba) : rgba :=
  rgba_of (u8_clamp (lerp (c_r c) (c_r overlay) (c_a overlay))) (u8_clamp (lerp (c_g c) (c_g overlay) (c_a overlay)))
          (u8_clamp (lerp (c_b c) (c_b overlay) (c_a overlay))) (c_a c).
(** color.rs:373-379 [blend_over] *)
Definition blend_over (c background : rgba) : rgba := if Qle_bool 1 (c_a c) then c else tint background c.
(** color.rs:406-426 [blend_toward]; the f64 factor is cast to f32 *)
Definition blend_toward (c d : rgba) (factor : Q) : rgba :=
  if Qle_bool 1 factor then c
  else if Qle_bool factor 0 then d
  else
    rgba_of (u8_clamp (lerp (c_r d) (c_r c) (rnd factor))) (u8_clamp (lerp (c_g d) (c_g c) (rnd factor)))
            (u8_clamp (lerp (c_b d) (c_b c) (rnd factor))) (c_a c).
(** color.rs:228-230 [perceived_brightness] *)
Definition brightness (c : rgba) : Q :=
  ((((rnd (299 # 1000) *. f32 (c_r c)) +. (rnd (587 # 1000) *. f32 (c_g c))) +. (rnd (114 # 1000) *. f32 (c_b c))) /. f32 255).
(** color.rs:316-323 [contrast_text] *)
Definition contrast_text (c : rgba) (alpha : Q) : rgba :=
  if Qle_bool (1 # 2) (brightness c) then rgba_of 0 0 0 alpha else rgba_of 255 255 255 alpha.
(** color.rs:195-222 [get_contrasting_color] *)
Definition contrasting (c : rgba) (ratio : Q) : rgba :=
  let k := if Qle_bool (1 # 2) (brightness c) then 0 else 255 in
  if Qle_bool 1 ratio then rgb_of k k k
  else
    let mix bg := u8_round ((f32 k *. ratio) +. (f32 bg *. (1 -. ratio))) in
    rgb_of (mix (c_r c)) (mix (c_g c)) (mix (c_b c)).

(** color.rs:769-787 [hue_to_rgb] *)
Definition hue_to_rgb (p q t : Q) : Q :=
  let t := if Qle_bool 0 t then t else t +. 1 in
  let t := if Qle_bool t 1 then t else t -. 1 in
  if negb (Qle_bool (1 /. 6) t) then p +. (((q -. p) *. 6) *. t)
  else if negb (Qle_bool (1 # 2) t) then q
  else if negb (Qle_bool (2 /. 3) t) then p +. (((q -. p) *. ((2 /. 3) -. t)) *. 6)
  else p.
(** color.rs:744-767 [hsl_to_rgb], and the same in 718-742 [from_hsl], before
    the channels are rounded *)
Definition hsl_channels (h s l : Q) : Q * Q * Q :=
  if Qeq_bool s 0 then (l, l, l)
  else
    let h := h /. 360 in
    let q := if negb (Qle_bool (1 # 2) l) then l *. (1 +. s) else (l +. s) -. (l *. s) in
    let p := (2 *. l) -. q in
    (hue_to_rgb p q (h +. (1 /. 3)), hue_to_rgb p q h, hue_to_rgb p q (h -. (1 /. 3))).
Definition hsl_to_rgb (h s l : Q) : Z * Z * Z :=
  match hsl_channels h s l with (r, g, b) => (u8_round (r *. 255), u8_round (g *. 255), u8_round (b *. 255)) end.

(** *** Parsing *)
Section Parse.
Variable lc : char -> text.
Variable parse_float : text -> option Q.
Definition lower (t : text) : text := flat_map lc t.

(** color.rs:513-521 [parse_hex_digit], after lowering *)
Definition hex_digit (c : char) : res Z :=
  if (48 <=? c) && (c <=? 57) then Ok (c - 48) else if (97 <=? c) && (c <=? 102) then Ok (c - 97 + 10) else Err.
(** color.rs:523-527 [parse_hex_pair] *)
Definition hex_pair (a b : char) : res Z := bind (hex_digit a) (fun h => bind (hex_digit b) (fun l => Ok (h * 16 + l))).
(** color.rs:472-511 [parse_hex] *)
Definition parse_hex (hex : text) : res rgba :=
  match lower hex with
  | [a; b; c] =>
      bind (hex_digit a) (fun r => bind (hex_digit b) (fun g => bind (hex_digit c) (fun b => Ok (rgb_of (r * 17) (g * 17) (b * 17)))))
  | [a; b; c; d] =>
      bind (hex_digit a) (fun r => bind (hex_digit b) (fun g => bind (hex_digit c) (fun b => bind (hex_digit d) (fun x =>
        Ok (rgba_of (r * 17) (g * 17) (b * 17) (f32 (x * 17) /. f32 255))))))
  | [a; b; c; d; e; f] =>
      bind (hex_pair a b) (fun r => bind (hex_pair c d) (fun g => bind (hex_pair e f) (fun b => Ok (rgb_of r g b))))
  | [a; b; c; d; e; f; g; h] =>
      bind (hex_pair a b) (fun r => bind (hex_pair c d) (fun gr => bind (hex_pair e f) (fun b => bind (hex_pair g h) (fun x =>
        Ok (rgba_of r gr b (f32 x /. f32 255))))))
  | _ => Err
  end.
(** color.rs:595-605 [parse_u8]: [str::parse::<i32>], then the range *)
Definition parse_i32 (t : text) : option Z :=
  match t with
  | c :: d => if c =? 45 then option_map Z.opp (parse_unsigned 2147483648 (match d with 43 :: _ => [] | _ => d end)) else parse_unsigned 2147483647 t
  | [] => None
  end.
Definition parse_u8 (t : text) : res Z :=
  match parse_i32 t with
  | Some n => if (n <? 0) || (255 <? n) then Err else Ok n
  | None => Err
  end.
(** color.rs:607-611 [parse_f32] *)
Definition parse_f32 (t : text) : res Q := match parse_float t with Some q => Ok q | None => Err end.
(** color.rs:613-619 [parse_percentage] *)
Definition parse_percentage (t : text) : res Q :=
  match parse_float (trim_end_char 37 t) with Some q => Ok (q /. 100) | None => Err end.
(** color.rs:531-538 and 562-569: [&input[start + 1..end]] between the first '('
    and the first ')'; the slice panics when they are the other way round *)
Definition between_parens (t : text) : res text :=
  match split_at_char 40 t with
  | None => Err
  | Some (before, _) =>
      match split_at_char 41 t with
      | None => Err
      | Some (content, _) => if (length content <? length before + 1)%nat then Panic else Ok (skipn (length before + 1) content)
      end
  end.
(** color.rs:551-555 and 582-586: the optional fourth part *)
Definition alpha_part (parts : list text) : res Q :=
  match parts with a :: _ => parse_f32 a | [] => Ok 1%Q end.
(** color.rs:529-558 [parse_rgb_func] *)
Definition parse_rgb_func (t : text) : res rgba :=
  bind (between_parens t) (fun content =>
    match map trim (split_char 44 content) with
    | x :: y :: z :: more =>
        bind (parse_u8 x) (fun r => bind (parse_u8 y) (fun g => bind (parse_u8 z) (fun b => bind (alpha_part more) (fun a => Ok (rgba_of r g b a)))))
    | _ => Err
    end).
(** color.rs:560-593 [parse_hsl_func] *)
Definition parse_hsl_func (t : text) : res rgba :=
  bind (between_parens t) (fun content =>
    match map trim (split_char 44 content) with
    | x :: y :: z :: more =>
        bind (parse_f32 x) (fun h => bind (parse_percentage y) (fun s => bind (parse_percentage z) (fun l => bind (alpha_part more) (fun a =>
          match hsl_to_rgb h s l with (r, g, b) => Ok (rgba_of r g b a) end))))
    | _ => Err
    end).
(** color.rs:789-938 [parse_named] *)
Definition names : list (string * (Z * Z * Z)) :=
  [("black", (0, 0, 0)); ("white", (255, 255, 255)); ("red", (255, 0, 0));
   ("green", (0, 128, 0)); ("blue", (0, 0, 255)); ("yellow", (255, 255, 0));
   ("cyan", (0, 255, 255)); ("aqua", (0, 255, 255)); ("magenta", (255, 0, 255));
   ("fuchsia", (255, 0, 255)); ("aliceblue", (240, 248, 255)); ("antiquewhite", (250, 235, 215));
   ("aquamarine", (127, 255, 212)); ("azure", (240, 255, 255)); ("beige", (245, 245, 220));
   ("bisque", (255, 228, 196)); ("blanchedalmond", (255, 235, 205)); ("blueviolet", (138, 43, 226));
   ("brown", (165, 42, 42)); ("burlywood", (222, 184, 135)); ("cadetblue", (95, 158, 160));
   ("chartreuse", (127, 255, 0)); ("chocolate", (210, 105, 30)); ("coral", (255, 127, 80));
   ("cornflowerblue", (100, 149, 237)); ("cornsilk", (255, 248, 220)); ("crimson", (220, 20, 60));
   ("darkblue", (0, 0, 139)); ("darkcyan", (0, 139, 139)); ("darkgoldenrod", (184, 134, 11));
   ("darkgray", (169, 169, 169)); ("darkgrey", (169, 169, 169)); ("darkgreen", (0, 100, 0));
   ("darkkhaki", (189, 183, 107)); ("darkmagenta", (139, 0, 139)); ("darkolivegreen", (85, 107, 47));
   ("darkorange", (255, 140, 0)); ("darkorchid", (153, 50, 204)); ("darkred", (139, 0, 0));
   ("darksalmon", (233, 150, 122)); ("darkseagreen", (143, 188, 143)); ("darkslateblue", (72, 61, 139));
   ("darkslategray", (47, 79, 79)); ("darkslategrey", (47, 79, 79)); ("darkturquoise", (0, 206, 209));
   ("darkviolet", (148, 0, 211)); ("deeppink", (255, 20, 147)); ("deepskyblue", (0, 191, 255));
   ("dimgray", (105, 105, 105)); ("dimgrey", (105, 105, 105)); ("dodgerblue", (30, 144, 255));
   ("firebrick", (178, 34, 34)); ("floralwhite", (255, 250, 240)); ("forestgreen", (34, 139, 34));
   ("gainsboro", (220, 220, 220)); ("ghostwhite", (248, 248, 255)); ("gold", (255, 215, 0));
   ("goldenrod", (218, 165, 32)); ("gray", (128, 128, 128)); ("grey", (128, 128, 128));
   ("greenyellow", (173, 255, 47)); ("honeydew", (240, 255, 240)); ("hotpink", (255, 105, 180));
   ("indianred", (205, 92, 92)); ("indigo", (75, 0, 130)); ("ivory", (255, 255, 240));
   ("khaki", (240, 230, 140)); ("lavender", (230, 230, 250)); ("lavenderblush", (255, 240, 245));
   ("lawngreen", (124, 252, 0)); ("lemonchiffon", (255, 250, 205)); ("lightblue", (173, 216, 230));
   ("lightcoral", (240, 128, 128)); ("lightcyan", (224, 255, 255)); ("lightgoldenrodyellow", (250, 250, 210));
   ("lightgray", (211, 211, 211)); ("lightgrey", (211, 211, 211)); ("lightgreen", (144, 238, 144));
   ("lightpink", (255, 182, 193)); ("lightsalmon", (255, 160, 122)); ("lightseagreen", (32, 178, 170));
   ("lightskyblue", (135, 206, 250)); ("lightslategray", (119, 136, 153)); ("lightslategrey", (119, 136, 153));
   ("lightsteelblue", (176, 196, 222)); ("lightyellow", (255, 255, 224)); ("lime", (0, 255, 0));
   ("limegreen", (50, 205, 50)); ("linen", (250, 240, 230)); ("maroon", (128, 0, 0));
   ("mediumaquamarine", (102, 205, 170)); ("mediumblue", (0, 0, 205)); ("mediumorchid", (186, 85, 211));
   ("mediumpurple", (147, 112, 219)); ("mediumseagreen", (60, 179, 113)); ("mediumslateblue", (123, 104, 238));
   ("mediumspringgreen", (0, 250, 154)); ("mediumturquoise", (72, 209, 204)); ("mediumvioletred", (199, 21, 133));
   ("midnightblue", (25, 25, 112)); ("mintcream", (245, 255, 250)); ("mistyrose", (255, 228, 225));
   ("moccasin", (255, 228, 181)); ("navajowhite", (255, 222, 173)); ("navy", (0, 0, 128));
   ("oldlace", (253, 245, 230)); ("olive", (128, 128, 0)); ("olivedrab", (107, 142, 35));
   ("orange", (255, 165, 0)); ("orangered", (255, 69, 0)); ("orchid", (218, 112, 214));
   ("palegoldenrod", (238, 232, 170)); ("palegreen", (152, 251, 152)); ("paleturquoise", (175, 238, 238));
   ("palevioletred", (219, 112, 147)); ("papayawhip", (255, 239, 213)); ("peachpuff", (255, 218, 185));
   ("peru", (205, 133, 63)); ("pink", (255, 192, 203)); ("plum", (221, 160, 221));
   ("powderblue", (176, 224, 230)); ("purple", (128, 0, 128)); ("rebeccapurple", (102, 51, 153));
   ("rosybrown", (188, 143, 143)); ("royalblue", (65, 105, 225)); ("saddlebrown", (139, 69, 19));
   ("salmon", (250, 128, 114)); ("sandybrown", (244, 164, 96)); ("seagreen", (46, 139, 87));
   ("seashell", (255, 245, 238)); ("sienna", (160, 82, 45)); ("silver", (192, 192, 192));
   ("skyblue", (135, 206, 235)); ("slateblue", (106, 90, 205)); ("slategray", (112, 128, 144));
   ("slategrey", (112, 128, 144)); ("snow", (255, 250, 250)); ("springgreen", (0, 255, 127));
   ("steelblue", (70, 130, 180)); ("tan", (210, 180, 140)); ("teal", (0, 128, 128));
   ("thistle", (216, 191, 216)); ("tomato", (255, 99, 71)); ("turquoise", (64, 224, 208));
   ("violet", (238, 130, 238)); ("wheat", (245, 222, 179)); ("whitesmoke", (245, 245, 245));
   ("yellowgreen", (154, 205, 50))]%string.
Fixpoint find_name (t : text) (l : list (string * (Z * Z * Z))) : option (Z * Z * Z) :=
  match l with [] => None | (n, v) :: r => if text_eqb t (str n) then Some v else find_name t r end.
Definition parse_named (t : text) : res rgba :=
  match find_name t names with Some (r, g, b) => Ok (rgb_of r g b) | None => Err end.
(** color.rs:436-470 [parse] *)
Definition parse (input : text) : res rgba :=
  let input := trim input in
  match input with
  | [] => Err
  | c :: rest =>
      let low := lower input in
      if text_eqb low (str "auto") then Ok (auto_of 1%Q)
      else if text_eqb low (str "transparent") then Ok (rgba_of 0 0 0 0%Q)
      else if c =? 35 then parse_hex rest
      else if starts_with low (str "rgb") then parse_rgb_func low
      else if starts_with low (str "hsl") then parse_hsl_func low
      else parse_named low
  end.
End Parse.
End Float.
