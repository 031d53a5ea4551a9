(** Model of crates/tcss/src/types/theme.rs, of the L*ab conversions in
    crates/tcss/src/types/color.rs and of the resolution of theme references in
    crates/tcss/src/parser/cascade.rs.

    [rnd] is the rounding of f32 arithmetic and [powf x y] is [f32::powf]; both
    are parameters.  A hash map is the list of its insertions, latest first.
    The fields of a colour system are finite numbers. *)
From Coq Require Import String ZArith QArith List Bool.
From Verif Require Import Text_Model Float32_Model Colour_Model Sheet_Model.
Import ListNotations.
Notation length := List.length.
Open Scope Z_scope.
Open Scope list_scope.

(** [HashMap::insert] and [HashMap::get] *)
Definition vmap (V : Type) : Type := list (text * V).
Definition insert {V} (k : text) (v : V) (m : vmap V) : vmap V := (k, v) :: m.
Fixpoint get {V} (m : vmap V) (k : text) : option V :=
  match m with [] => None | (x, v) :: r => if text_eqb x k then Some v else get r k end.
Definition inserts {V} (l : list (string * V)) (m : vmap V) : vmap V := fold_left (fun m kv => insert (str (fst kv)) (snd kv) m) l m.

(** color.rs:104-115 [white], [transparent] *)
Definition white : rgba := rgb_of 255 255 255.
Definition transparent : rgba := rgba_of 0 0 0 0%Q.

(** theme.rs:51-80 [ColorSystem] *)
Record system := System {
  s_primary : rgba; s_secondary : option rgba; s_warning : option rgba; s_error : option rgba; s_success : option rgba;
  s_accent : option rgba; s_foreground : option rgba; s_background : option rgba; s_surface : option rgba; s_panel : option rgba;
  s_boost : option rgba; s_dark : bool; s_spread : Q; s_text_alpha : Q }.
(** theme.rs:103-161: the builder methods for colours *)
Inductive field := FSecondary | FWarning | FError | FSuccess | FAccent | FForeground | FBackground | FSurface | FPanel | FBoost.
Definition with_field (f : field) (c : rgba) (s : system) : system :=
  let 'System p se w e su a fg bg sf pa bo d sp ta := s in
  match f with
  | FSecondary => System p (Some c) w e su a fg bg sf pa bo d sp ta
  | FWarning => System p se (Some c) e su a fg bg sf pa bo d sp ta
  | FError => System p se w (Some c) su a fg bg sf pa bo d sp ta
  | FSuccess => System p se w e (Some c) a fg bg sf pa bo d sp ta
  | FAccent => System p se w e su (Some c) fg bg sf pa bo d sp ta
  | FForeground => System p se w e su a (Some c) bg sf pa bo d sp ta
  | FBackground => System p se w e su a fg (Some c) sf pa bo d sp ta
  | FSurface => System p se w e su a fg bg (Some c) pa bo d sp ta
  | FPanel => System p se w e su a fg bg sf (Some c) bo d sp ta
  | FBoost => System p se w e su a fg bg sf pa (Some c) d sp ta
  end.

Section Float.
Variable rnd : Q -> Q.
Variable powf : Q -> Q -> Q.
Notation "a +. b" := (rnd (a + b)%Q) (at level 50).
Notation "a -. b" := (rnd (a - b)%Q) (at level 50).
Notation "a *. b" := (rnd (a * b)%Q) (at level 40).
Notation "a /. b" := (rnd (a / b)%Q) (at level 40).
Notation f32 := inject_Z.
(** [x > y] *)
Definition above (x y : Q) : bool := negb (Qle_bool x y).

(** *** color.rs:621-716: L*ab *)
(** 623-641: one channel, made linear *)
Definition linear (c : Z) : Q :=
  let r := f32 c /. 255 in
  if above r (rnd (4045 # 100000)) then powf ((r +. rnd (55 # 1000)) /. rnd (1055 # 1000)) (rnd (24 # 10)) else r /. rnd (1292 # 100).
Definition off : Q := 16 /. 116.
(** 648-662 *)
Definition lab_curve (x : Q) : Q :=
  if above x (rnd (8856 # 1000000)) then powf x (1 /. 3) else (rnd (7787 # 1000) *. x) +. off.
(** a row of a matrix: [x * a + y * b + z * c] *)
Definition row (a b c x y z : Q) : Q := ((x *. rnd a) +. (y *. rnd b)) +. (z *. rnd c).
(** color.rs:622-668 [to_lab] *)
Definition to_lab (c : rgba) : Q * Q * Q :=
  let r := linear (c_r c) in
  let g := linear (c_g c) in
  let b := linear (c_b c) in
  let x := lab_curve (row (4124 # 100) (3576 # 100) (1805 # 100) r g b /. rnd (95047 # 1000)) in
  let y := lab_curve (row (2126 # 100) (7152 # 100) (722 # 100) r g b /. 100) in
  let z := lab_curve (row (193 # 100) (1192 # 100) (9505 # 100) r g b /. rnd (108883 # 1000)) in
  ((116 *. y) -. 16, 500 *. (x -. y), 200 *. (y -. z)).
(** 698-713 and 715: gamma, then [(v * 255.0).clamp(0.0, 255.0) as u8] *)
Definition channel_of (v : Q) : Z :=
  let v := if above v (rnd (31308 # 10000000)) then (rnd (1055 # 1000) *. powf v (1 /. rnd (24 # 10))) -. rnd (55 # 1000) else rnd (1292 # 100) *. v in
  u8_clamp (v *. 255).
(** color.rs:671-717 [from_lab] *)
Definition from_lab (l a b alpha : Q) : rgba :=
  let y := (l +. 16) /. 116 in
  let x := (a /. 500) +. y in
  let z := y -. (b /. 200) in
  let limit := rnd (2068930344 # 10000000000) in
  let y := if above y limit then powf y 3 else (y -. off) /. rnd (7787 # 1000) in
  let x := if above x limit then rnd (95047 # 100000) *. powf x 3 else rnd (122059 # 1000000) *. (x -. off) in
  let z := if above z limit then rnd (108883 # 100000) *. powf z 3 else rnd (139827 # 1000000) *. (z -. off) in
  rgba_of (channel_of (row (32406 # 10000) (-15372 # 10000) (-4986 # 10000) x y z))
          (channel_of (row (-9689 # 10000) (18758 # 10000) (415 # 10000) x y z))
          (channel_of (row (557 # 10000) (-2040 # 10000) (10570 # 10000) x y z)) alpha.
Definition is_some {A} (o : option A) : bool := match o with Some _ => true | None => false end.
Definition special (c : rgba) : bool := is_some (c_ansi c) || c_auto c || is_some (c_theme c).
(** [l.clamp(0.0, 100.0)] *)
Definition clamp100 (l : Q) : Q := if negb (Qle_bool 0 l) then 0%Q else if above l 100 then 100%Q else l.
(** color.rs:280-287 [darken] *)
Definition darken (c : rgba) (amount : Q) : rgba :=
  if special c then c
  else let '(l, a, b) := to_lab c in from_lab (clamp100 (l -. (amount *. 100))) a b (c_a c).
(** color.rs:273-278 [lighten] *)
Definition lighten (c : rgba) (amount : Q) : rgba := if special c then c else darken c (- amount)%Q.

(** *** theme.rs *)
(** theme.rs:82-101 [new] *)
Definition new_system (primary : rgba) (dark : bool) : system :=
  System primary None None None None None None None None None None dark (rnd (15 # 100)) (rnd (95 # 100)).
(** theme.rs:163-173 [with_luminosity_spread], [with_text_alpha] *)
Definition with_spread (q : Q) (s : system) : system :=
  let 'System p se w e su a fg bg sf pa bo d _ ta := s in System p se w e su a fg bg sf pa bo d q ta.
Definition with_text_alpha (q : Q) (s : system) : system :=
  let 'System p se w e su a fg bg sf pa bo d sp _ := s in System p se w e su a fg bg sf pa bo d sp q.
(** theme.rs:175-191 [default_background], [default_surface]; the hexadecimal
    constants are written out *)
Definition default_background (dark : bool) : rgba := if dark then rgb_of 18 18 18 else rgb_of 239 239 239.
Definition default_surface (dark : bool) : rgba := if dark then rgb_of 30 30 30 else rgb_of 245 245 245.
Definition or_else (o : option rgba) (c : rgba) : rgba := match o with Some x => x | None => c end.
Definition blend := Colour_Model.blend rnd.
Definition tint := Colour_Model.tint rnd.

(** theme.rs:197-230: the colours everything is made from *)
Definition secondary (s : system) : rgba := or_else (s_secondary s) (s_primary s).
Definition warning (s : system) : rgba := or_else (s_warning s) (s_primary s).
Definition error (s : system) : rgba := or_else (s_error s) (secondary s).
Definition success (s : system) : rgba := or_else (s_success s) (secondary s).
Definition accent (s : system) : rgba := or_else (s_accent s) (s_primary s).
Definition background (s : system) : rgba := or_else (s_background s) (default_background (s_dark s)).
Definition surface (s : system) : rgba := or_else (s_surface s) (default_surface (s_dark s)).
Definition foreground (s : system) : rgba := or_else (s_foreground s) (inverse (background s)).
Definition contrast (s : system) : rgba := contrast_text rnd (background s) (s_text_alpha s).
Definition boost (s : system) : rgba := or_else (s_boost s) (with_alpha (contrast s) (rnd (4 # 100))).
Definition panel (s : system) : rgba :=
  or_else (s_panel s)
    (let p := blend (surface s) (s_primary s) (rnd (1 # 10)) (Some 1%Q) in if s_dark s then tint p (boost s) else p).
(** theme.rs:232-246 *)
Definition base_colours (s : system) : list (string * rgba) :=
  [("primary", s_primary s); ("secondary", secondary s); ("primary-background", s_primary s); ("secondary-background", secondary s);
   ("background", background s); ("foreground", foreground s); ("panel", panel s); ("boost", boost s); ("surface", surface s);
   ("warning", warning s); ("error", error s); ("success", success s); ("accent", accent s)]%string.
(** theme.rs:251-257: the suffix and the change of a shade *)
Definition step (s : system) : Q := s_spread s /. 2.
Definition suffix (n : Z) : text :=
  if n <? 0 then str "-darken-" ++ [48 - n] else if 0 <? n then str "-lighten-" ++ [48 + n] else [].
Definition delta (s : system) (n : Z) : Q := if n =? 0 then 0%Q else f32 n *. step s.
(** theme.rs:250-271: one shade *)
Definition is_dark_shade (s : system) (name : string) : bool :=
  s_dark s && (String.eqb name "primary-background" || String.eqb name "secondary-background").
Definition shade (s : system) (name : string) (c : rgba) (n : Z) : rgba :=
  if is_dark_shade s name
  then blend (blend (background s) c (rnd (15 # 100)) (Some 1%Q)) white (s_spread s +. delta s n) (Some 1%Q)
  else lighten c (delta s n).
Definition shade_numbers : list Z := [-3; -2; -1; 0; 1; 2; 3].
Definition shades (s : system) (m : vmap rgba) : vmap rgba :=
  fold_left (fun m nc => fold_left (fun m n => insert (str (fst nc) ++ suffix n) (shade s (fst nc) (snd nc) n) m) shade_numbers m) (base_colours s) m.
(** theme.rs:273-284: the text colours, and 351-354 *)
Definition text_colour (s : system) (a : Q) : rgba := if is_some (c_ansi (foreground s)) then foreground s else auto_of (rnd a).
Definition get_or (m : vmap rgba) (k : string) (c : rgba) : rgba := match get m (str k) with Some x => x | None => c end.
(** theme.rs:286-325 *)
Definition text_of (s : system) (c : rgba) : rgba := tint (contrast s) (with_alpha c (rnd (66 # 100))).
Definition muted (s : system) (c : rgba) : rgba := blend c (background s) (rnd (7 # 10)) None.
(** theme.rs:328-336 *)
Definition scrollbar_of (s : system) (track : rgba) (a : Q) : rgba := blend track (with_alpha (s_primary s) (rnd a)) (rnd a) (Some 1%Q).
(** theme.rs:194-409 [generate] *)
Definition generate (s : system) : vmap rgba :=
  let m := shades s [] in
  let m := inserts
    [("foreground-muted", with_alpha (foreground s) (rnd (6 # 10))); ("foreground-disabled", with_alpha (foreground s) (rnd (38 # 100)));
     ("text", text_colour s (87 # 100)); ("text-muted", text_colour s (60 # 100)); ("text-disabled", text_colour s (38 # 100));
     ("text-primary", text_of s (s_primary s)); ("text-secondary", text_of s (secondary s)); ("text-warning", text_of s (warning s));
     ("text-error", text_of s (error s)); ("text-success", text_of s (success s)); ("text-accent", text_of s (accent s));
     ("primary-muted", muted s (s_primary s)); ("secondary-muted", muted s (secondary s)); ("accent-muted", muted s (accent s));
     ("warning-muted", muted s (warning s)); ("error-muted", muted s (error s)); ("success-muted", muted s (success s))]%string m in
  let track := get_or m "background-darken-1" (darken (background s) (step s)) in
  let m := inserts
    [("scrollbar", scrollbar_of s track (4 # 10)); ("scrollbar-hover", scrollbar_of s track (5 # 10)); ("scrollbar-active", s_primary s);
     ("scrollbar-background", track); ("scrollbar-corner-color", track); ("scrollbar-background-hover", track);
     ("scrollbar-background-active", track)]%string m in
  let text := get_or m "text" (foreground s) in
  let muted_foreground := get_or m "foreground-muted" (foreground s) in
  inserts
    [("link-color", text); ("link-background", transparent); ("link-color-hover", text); ("link-background-hover", s_primary s);
     ("border", s_primary s); ("border-blurred", darken (surface s) (rnd (25 # 1000)));
     ("surface-active", lighten (surface s) (s_spread s /. (5 # 2)));
     ("block-cursor-foreground", text); ("block-cursor-background", s_primary s); ("block-cursor-blurred-foreground", foreground s);
     ("block-cursor-blurred-background", with_alpha (s_primary s) (rnd (3 # 10))); ("block-hover-background", with_alpha (boost s) (rnd (1 # 10)));
     ("footer-foreground", foreground s); ("footer-background", panel s); ("footer-key-foreground", accent s);
     ("footer-key-background", transparent); ("footer-description-foreground", foreground s);
     ("footer-description-background", transparent); ("footer-item-background", transparent);
     ("input-cursor-background", foreground s); ("input-cursor-foreground", background s);
     ("input-selection-background", with_alpha (s_primary s) (rnd (4 # 10)));
     ("markdown-h1-color", s_primary s); ("markdown-h1-background", transparent); ("markdown-h2-color", s_primary s);
     ("markdown-h2-background", transparent); ("markdown-h3-color", s_primary s); ("markdown-h3-background", transparent);
     ("markdown-h4-color", foreground s); ("markdown-h4-background", transparent); ("markdown-h5-color", foreground s);
     ("markdown-h5-background", transparent); ("markdown-h6-color", muted_foreground); ("markdown-h6-background", transparent);
     ("button-foreground", foreground s); ("button-color-foreground", text)]%string m.

(** theme.rs:412-470 [generate_styles] *)
Definition style_of (bold underline reverse : bool) : text_style :=
  TextStyle bold false false underline false false false reverse false false None.
Definition generate_styles : vmap text_style :=
  inserts
    [("link-style", style_of false true false); ("link-style-hover", style_of true false false);
     ("block-cursor-text-style", style_of true false false); ("block-cursor-blurred-text-style", no_style);
     ("input-cursor-text-style", no_style); ("markdown-h1-text-style", style_of true false false);
     ("markdown-h2-text-style", style_of false true false); ("markdown-h3-text-style", style_of true false false);
     ("markdown-h4-text-style", style_of true true false); ("markdown-h5-text-style", style_of true false false);
     ("markdown-h6-text-style", style_of true false false); ("button-focus-text-style", style_of true false true)]%string [].

(** theme.rs:473-518 [Theme] *)
Record theme := Theme { t_name : text; t_dark : bool; t_colors : vmap rgba; t_styles : vmap text_style }.
Definition new_theme (name : text) (dark : bool) : theme := Theme name dark [] [].
Definition from_color_system (name : text) (s : system) : theme := Theme name (s_dark s) (generate s) generate_styles.
Definition get_color (t : theme) (name : text) : option rgba := get (t_colors t) name.
Definition get_style (t : theme) (name : text) : option text_style := get (t_styles t) name.

(** color.rs:120-122 [hex], on the literals below: no rounding, ASCII only *)
Definition hex (t : string) : res rgba :=
  match Colour_Model.parse (fun q => q) (fun c => [if (65 <=? c) && (c <=? 90) then c + 32 else c]) (fun _ => None) (str t) with
  | Ok c => Ok c
  | _ => Panic
  end.
(** theme.rs:521-808 [standard_themes]: key, name, primary colour, dark, and
    the builder calls *)
Definition standard_table : list (string * string * string * bool * list (field * string)) :=
  [
("textual-dark", "textual-dark", "#0178D4", true, [(FSecondary, "#004578"); (FWarning, "#ffa62b"); (FError, "#ba3c5b"); (FSuccess, "#4EBF71"); (FAccent, "#ffa62b"); (FForeground, "#e0e0e0")]);
   ("textual-light", "textual-light", "#004578", false, [(FSecondary, "#0178D4"); (FWarning, "#ffa62b"); (FError, "#ba3c5b"); (FSuccess, "#4EBF71"); (FAccent, "#ffa62b"); (FBackground, "#E0E0E0"); (FSurface, "#D8D8D8"); (FPanel, "#D0D0D0")]);
   ("nord", "nord", "#88C0D0", true, [(FSecondary, "#81A1C1"); (FWarning, "#EBCB8B"); (FError, "#BF616A"); (FSuccess, "#A3BE8C"); (FAccent, "#B48EAD"); (FForeground, "#D8DEE9"); (FBackground, "#2E3440"); (FSurface, "#3B4252"); (FPanel, "#434C5E")]);
   ("gruvbox", "gruvbox", "#85A598", true, [(FSecondary, "#A89A85"); (FWarning, "#fe8019"); (FError, "#fb4934"); (FSuccess, "#b8bb26"); (FAccent, "#fabd2f"); (FForeground, "#fbf1c7"); (FBackground, "#282828"); (FSurface, "#3c3836"); (FPanel, "#504945")]);
   ("catppuccin-mocha", "catppuccin-mocha", "#F5C2E7", true, [(FSecondary, "#cba6f7"); (FWarning, "#FAE3B0"); (FError, "#F28FAD"); (FSuccess, "#ABE9B3"); (FAccent, "#fab387"); (FForeground, "#cdd6f4"); (FBackground, "#181825"); (FSurface, "#313244"); (FPanel, "#45475a")]);
   ("catppuccin-latte", "catppuccin-latte", "#8839EF", false, [(FSecondary, "#DC8A78"); (FWarning, "#DF8E1D"); (FError, "#D20F39"); (FSuccess, "#40A02B"); (FAccent, "#FE640B"); (FForeground, "#4C4F69"); (FBackground, "#EFF1F5"); (FSurface, "#E6E9EF"); (FPanel, "#CCD0DA")]);
   ("dracula", "dracula", "#BD93F9", true, [(FSecondary, "#6272A4"); (FWarning, "#FFB86C"); (FError, "#FF5555"); (FSuccess, "#50FA7B"); (FAccent, "#FF79C6"); (FForeground, "#F8F8F2"); (FBackground, "#282A36"); (FSurface, "#2B2E3B"); (FPanel, "#313442")]);
   ("tokyo-night", "tokyo-night", "#BB9AF7", true, [(FSecondary, "#7AA2F7"); (FWarning, "#E0AF68"); (FError, "#F7768E"); (FSuccess, "#9ECE6A"); (FAccent, "#FF9E64"); (FForeground, "#a9b1d6"); (FBackground, "#1A1B26"); (FSurface, "#24283B"); (FPanel, "#414868")]);
   ("monokai", "monokai", "#AE81FF", true, [(FSecondary, "#F92672"); (FWarning, "#FD971F"); (FError, "#F92672"); (FSuccess, "#A6E22E"); (FAccent, "#66D9EF"); (FForeground, "#d6d6d6"); (FBackground, "#272822"); (FSurface, "#2e2e2e"); (FPanel, "#3E3D32")]);
   ("flexoki", "flexoki", "#205EA6", true, [(FSecondary, "#24837B"); (FWarning, "#AD8301"); (FError, "#AF3029"); (FSuccess, "#66800B"); (FAccent, "#9B76C8"); (FForeground, "#FFFCF0"); (FBackground, "#100F0F"); (FSurface, "#1C1B1A"); (FPanel, "#282726")]);
   ("solarized-light", "solarized-light", "#268bd2", false, [(FSecondary, "#2aa198"); (FWarning, "#cb4b16"); (FError, "#dc322f"); (FSuccess, "#859900"); (FAccent, "#6c71c4"); (FForeground, "#586e75"); (FBackground, "#fdf6e3"); (FSurface, "#eee8d5"); (FPanel, "#eee8d5")]);
   ("solarized-dark", "solarized-dark", "#268bd2", true, [(FSecondary, "#2aa198"); (FWarning, "#cb4b16"); (FError, "#dc322f"); (FSuccess, "#859900"); (FAccent, "#6c71c4"); (FForeground, "#839496"); (FBackground, "#002b36"); (FSurface, "#073642"); (FPanel, "#073642")]);
   ("rose-pine", "rose-pine", "#c4a7e7", true, [(FSecondary, "#31748f"); (FWarning, "#f6c177"); (FError, "#eb6f92"); (FSuccess, "#9ccfd8"); (FAccent, "#ebbcba"); (FForeground, "#e0def4"); (FBackground, "#191724"); (FSurface, "#1f1d2e"); (FPanel, "#26233a")]);
   ("rose-pine-moon", "rose-pine-moon", "#c4a7e7", true, [(FSecondary, "#3e8fb0"); (FWarning, "#f6c177"); (FError, "#eb6f92"); (FSuccess, "#9ccfd8"); (FAccent, "#ea9a97"); (FForeground, "#e0def4"); (FBackground, "#232136"); (FSurface, "#2a273f"); (FPanel, "#393552")]);
   ("rose-pine-dawn", "rose-pine-dawn", "#907aa9", false, [(FSecondary, "#286983"); (FWarning, "#ea9d34"); (FError, "#b4637a"); (FSuccess, "#56949f"); (FAccent, "#d7827e"); (FForeground, "#575279"); (FBackground, "#faf4ed"); (FSurface, "#fffaf3"); (FPanel, "#f2e9e1")]);
   ("textual-ansi", "textual-ansi", "#0000ff", true, [(FSecondary, "#00ffff"); (FWarning, "#ffff00"); (FError, "#ff0000"); (FSuccess, "#00ff00"); (FAccent, "#5555ff")])
  ]%string.
Fixpoint with_all (l : list (field * string)) (s : system) : res system :=
  match l with [] => Ok s | (f, h) :: r => bind (hex h) (fun c => with_all r (with_field f c s)) end.
Definition standard_theme (primary : string) (dark : bool) (l : list (field * string)) : res system :=
  bind (hex primary) (fun p => with_all l (new_system p dark)).
Fixpoint standard_from (l : list (string * string * string * bool * list (field * string))) (m : vmap theme) : res (vmap theme) :=
  match l with
  | [] => Ok m
  | (k, n, p, d, fs) :: r => bind (standard_theme p d fs) (fun s => standard_from r (insert (str k) (from_color_system (str n) s) m))
  end.
Definition standard_themes : res (vmap theme) := standard_from standard_table [].

(** *** cascade.rs *)
(** [str::rsplitn(3, '-')]: the last dash and the one before it *)
Definition last_dash (t : text) : option (text * text) :=
  match split_at_char 45 (rev t) with Some (a, b) => Some (rev b, rev a) | None => None end.
Definition rsplit3 (t : text) : option (text * text * text) :=
  match last_dash t with
  | None => None
  | Some (b, amount) => match last_dash b with None => None | Some (base, mode) => Some (base, mode, amount) end
  end.
Variable parse_float : text -> option Q.  (* str::parse::<f32>, finite values *)
(** cascade.rs:606-653 [resolve_theme_color] *)
Definition resolve_colour (c : rgba) (t : theme) : rgba :=
  match c_theme c with
  | None => c
  | Some name =>
      let found :=
        match get_color t name with
        | Some x => x
        | None =>
            match rsplit3 name with
            | None => white
            | Some (base, mode, amount) =>
                match parse_float amount with
                | None => white
                | Some q =>
                    let b := match get_color t base with Some x => x | None => white end in
                    if text_eqb mode (str "lighten") then lighten b q
                    else if text_eqb mode (str "darken") then darken b q
                    else white
                end
            end
        end in
      if negb (Qle_bool 1 (c_a c)) then with_alpha found (c_a c) else found
  end.
(** cascade.rs:655-661 [resolve_theme_style] *)
Definition resolve_style (s : text_style) (t : theme) : text_style :=
  match ts_theme s with None => s | Some name => match get_style t name with Some x => x | None => no_style end end.
End Float.
