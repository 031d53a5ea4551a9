(** Specification vocabulary for colours. *)
From Coq Require Import ZArith QArith Qround Qabs String List Bool.
From Verif Require Import Text_Model Float32_Model Colour_Model.
Import ListNotations.
Open Scope Z_scope.

(** The three channels of a colour. *)
Inductive channel := Red | Green | Blue.
Definition get (k : channel) (c : rgba) : Z := match k with Red => c_r c | Green => c_g c | Blue => c_b c end.
(** Channels are bytes. *)
Definition bytes (c : rgba) : Prop := forall k, 0 <= get k c <= 255.
(** [z] lies between [x] and [y]. *)
Definition between (x y z : Z) : Prop := Z.min x y <= z <= Z.max x y.
(** The point a fraction [f] of the way from [x] to [y]. *)
Definition part_way (x y : Z) (f : Q) : Q := (inject_Z x + (inject_Z y - inject_Z x) * f)%Q.
(** An arithmetic whose operations are off by at most one part in 2^24. *)
Definition accurate (rnd : Q -> Q) : Prop := forall q, (Qabs (rnd q - q) <= (1 # 2 ^ 24) * Qabs q)%Q.
(** Perceived brightness (ITU-R BT.601) from 0 to 1. *)
Definition luma (c : rgba) : Q :=
  (((299 # 1000) * inject_Z (c_r c) + (587 # 1000) * inject_Z (c_g c) + (114 # 1000) * inject_Z (c_b c)) / 255)%Q.
(** Arithmetic without rounding. *)
Notation exactly := (fun q : Q => q).

(** The CSS definition of hsl(): each channel is
    [l - a * max(-1, min(k - 3, 9 - k, 1))] with [k = (n + hue / 30) mod 12],
    [a = s * min(l, 1 - l)] and [n] being 0, 8 and 4 for red, green and blue. *)
Definition qmin2 (a b : Q) : Q := if Qle_bool a b then a else b.
Definition qmax2 (a b : Q) : Q := if Qle_bool a b then b else a.
Definition css_hsl (ch : channel) (h s l : Q) : Q :=
  let n := (match ch with Red => 0 | Green => 8 | Blue => 4 end)%Q in
  let x := (n + h / 30)%Q in
  let k := (x - 12 * inject_Z (Qfloor (x / 12)))%Q in
  let a := (s * qmin2 l (1 - l))%Q in
  (l - a * qmax2 (- (1)) (qmin2 (k - 3) (qmin2 (9 - k) 1)))%Q.

(** A hexadecimal digit of value [d], in either case. *)
Definition hex_char (d : Z) (c : char) : Prop :=
  (0 <= d <= 9 /\ c = 48 + d) \/ (10 <= d <= 15 /\ (c = 97 + (d - 10) \/ c = 65 + (d - 10))).
(** ASCII white space only. *)
Definition blank (t : text) : Prop := Forall (fun c => is_ws c = true /\ 0 <= c < 128) t.
(** Text of one or more decimal digits for [n]. *)
Definition decimal (n : Z) (t : text) : Prop := t <> [] /\ Forall (fun c => is_digit c = true) t /\ digits_value t = n.
(** Text such as [-12.5e+3]: digits, signs, point, exponent. *)
Definition numeric (t : text) : Prop := Forall (fun c => is_digit c = true \/ c = 45 \/ c = 43 \/ c = 46 \/ c = 101) t.

(** Lower-casing: ASCII as usual, and no other letter lowers to hexadecimal
    digits only. *)
Definition ascii_lc (c : char) : char := if (65 <=? c) && (c <=? 90) then c + 32 else c.
Definition lower_ok (lc : char -> text) : Prop :=
  (forall c, 0 <= c < 128 -> lc c = [ascii_lc c]) /\
  (forall c, 128 <= c -> exists x, In x (lc c) /\ forall d, ~ hex_char d x).
Definition scalar (t : text) : Prop := Forall (fun c => 0 <= c) t.

(** The named colours of CSS (CSS Color Module Level 4, section 6.1) as
    hexadecimal digits; written down independently of the code's table. *)
Definition css_names : list (string * string) :=
  [("aliceblue", "f0f8ff"); ("antiquewhite", "faebd7"); ("aqua", "00ffff"); ("aquamarine", "7fffd4"); ("azure", "f0ffff"); ("beige", "f5f5dc");
   ("bisque", "ffe4c4"); ("black", "000000"); ("blanchedalmond", "ffebcd"); ("blue", "0000ff"); ("blueviolet", "8a2be2"); ("brown", "a52a2a");
   ("burlywood", "deb887"); ("cadetblue", "5f9ea0"); ("chartreuse", "7fff00"); ("chocolate", "d2691e"); ("coral", "ff7f50"); ("cornflowerblue", "6495ed");
   ("cornsilk", "fff8dc"); ("crimson", "dc143c"); ("cyan", "00ffff"); ("darkblue", "00008b"); ("darkcyan", "008b8b"); ("darkgoldenrod", "b8860b");
   ("darkgray", "a9a9a9"); ("darkgreen", "006400"); ("darkgrey", "a9a9a9"); ("darkkhaki", "bdb76b"); ("darkmagenta", "8b008b"); ("darkolivegreen", "556b2f");
   ("darkorange", "ff8c00"); ("darkorchid", "9932cc"); ("darkred", "8b0000"); ("darksalmon", "e9967a"); ("darkseagreen", "8fbc8f"); ("darkslateblue", "483d8b");
   ("darkslategray", "2f4f4f"); ("darkslategrey", "2f4f4f"); ("darkturquoise", "00ced1"); ("darkviolet", "9400d3"); ("deeppink", "ff1493"); ("deepskyblue", "00bfff");
   ("dimgray", "696969"); ("dimgrey", "696969"); ("dodgerblue", "1e90ff"); ("firebrick", "b22222"); ("floralwhite", "fffaf0"); ("forestgreen", "228b22");
   ("fuchsia", "ff00ff"); ("gainsboro", "dcdcdc"); ("ghostwhite", "f8f8ff"); ("gold", "ffd700"); ("goldenrod", "daa520"); ("gray", "808080");
   ("green", "008000"); ("greenyellow", "adff2f"); ("grey", "808080"); ("honeydew", "f0fff0"); ("hotpink", "ff69b4"); ("indianred", "cd5c5c");
   ("indigo", "4b0082"); ("ivory", "fffff0"); ("khaki", "f0e68c"); ("lavender", "e6e6fa"); ("lavenderblush", "fff0f5"); ("lawngreen", "7cfc00");
   ("lemonchiffon", "fffacd"); ("lightblue", "add8e6"); ("lightcoral", "f08080"); ("lightcyan", "e0ffff"); ("lightgoldenrodyellow", "fafad2"); ("lightgray", "d3d3d3");
   ("lightgreen", "90ee90"); ("lightgrey", "d3d3d3"); ("lightpink", "ffb6c1"); ("lightsalmon", "ffa07a"); ("lightseagreen", "20b2aa"); ("lightskyblue", "87cefa");
   ("lightslategray", "778899"); ("lightslategrey", "778899"); ("lightsteelblue", "b0c4de"); ("lightyellow", "ffffe0"); ("lime", "00ff00"); ("limegreen", "32cd32");
   ("linen", "faf0e6"); ("magenta", "ff00ff"); ("maroon", "800000"); ("mediumaquamarine", "66cdaa"); ("mediumblue", "0000cd"); ("mediumorchid", "ba55d3");
   ("mediumpurple", "9370db"); ("mediumseagreen", "3cb371"); ("mediumslateblue", "7b68ee"); ("mediumspringgreen", "00fa9a"); ("mediumturquoise", "48d1cc"); ("mediumvioletred", "c71585");
   ("midnightblue", "191970"); ("mintcream", "f5fffa"); ("mistyrose", "ffe4e1"); ("moccasin", "ffe4b5"); ("navajowhite", "ffdead"); ("navy", "000080");
   ("oldlace", "fdf5e6"); ("olive", "808000"); ("olivedrab", "6b8e23"); ("orange", "ffa500"); ("orangered", "ff4500"); ("orchid", "da70d6");
   ("palegoldenrod", "eee8aa"); ("palegreen", "98fb98"); ("paleturquoise", "afeeee"); ("palevioletred", "db7093"); ("papayawhip", "ffefd5"); ("peachpuff", "ffdab9");
   ("peru", "cd853f"); ("pink", "ffc0cb"); ("plum", "dda0dd"); ("powderblue", "b0e0e6"); ("purple", "800080"); ("rebeccapurple", "663399");
   ("red", "ff0000"); ("rosybrown", "bc8f8f"); ("royalblue", "4169e1"); ("saddlebrown", "8b4513"); ("salmon", "fa8072"); ("sandybrown", "f4a460");
   ("seagreen", "2e8b57"); ("seashell", "fff5ee"); ("sienna", "a0522d"); ("silver", "c0c0c0"); ("skyblue", "87ceeb"); ("slateblue", "6a5acd");
   ("slategray", "708090"); ("slategrey", "708090"); ("snow", "fffafa"); ("springgreen", "00ff7f"); ("steelblue", "4682b4"); ("tan", "d2b48c");
   ("teal", "008080"); ("thistle", "d8bfd8"); ("tomato", "ff6347"); ("turquoise", "40e0d0"); ("violet", "ee82ee"); ("wheat", "f5deb3");
   ("white", "ffffff"); ("whitesmoke", "f5f5f5"); ("yellow", "ffff00"); ("yellowgreen", "9acd32")]%string.
(** The value of two hexadecimal digits in small letters. *)
Definition hex_value (c : char) : Z := if c <=? 57 then c - 48 else c - 87.
Definition hex_bytes (t : text) : Z * Z * Z :=
  match map hex_value t with
  | [a; b; c; d; e; f] => (16 * a + b, 16 * c + d, 16 * e + f)
  | _ => (-1, -1, -1)
  end.
