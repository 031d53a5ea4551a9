(** Specification vocabulary for themes. *)
From Coq Require Import String ZArith QArith List Bool.
From Verif Require Import Text_Model Float32_Model Colour_Model Colour_Spec Sheet_Model Theme_Model.
Import ListNotations.
Notation length := List.length.
Open Scope Z_scope.
Open Scope list_scope.

(** Calls of the builder methods, on a system made from its primary colour. *)
Inductive call := CColour (f : field) (c : rgba) | CSpread (q : Q) | CTextAlpha (q : Q).
Definition run_call (s : system) (c : call) : system :=
  match c with CColour f x => with_field f x s | CSpread q => with_spread q s | CTextAlpha q => with_text_alpha q s end.
Definition build (rnd : Q -> Q) (p : rgba) (dark : bool) (l : list call) : system := fold_left run_call l (new_system rnd p dark).
(** The colour a system was given for a field. *)
Definition given (f : field) (s : system) : option rgba :=
  match f with
  | FSecondary => s_secondary s | FWarning => s_warning s | FError => s_error s | FSuccess => s_success s | FAccent => s_accent s
  | FForeground => s_foreground s | FBackground => s_background s | FSurface => s_surface s | FPanel => s_panel s | FBoost => s_boost s
  end.
(** The colours given to a system have channels from 0 to 255. *)
Definition sound (s : system) : Prop := bytes (s_primary s) /\ forall f c, given f s = Some c -> bytes c.
(** None of them is itself a reference to a theme. *)
Definition settled (s : system) : Prop := c_theme (s_primary s) = None /\ forall f c, given f s = Some c -> c_theme c = None.

(** The eleven base colours of the documentation. *)
Inductive base := Primary | Secondary | Warning | Error | Success | Accent | Foreground | Background | Surface | Panel | Boost.
Definition field_of (b : base) : option field :=
  match b with
  | Primary => None | Secondary => Some FSecondary | Warning => Some FWarning | Error => Some FError | Success => Some FSuccess
  | Accent => Some FAccent | Foreground => Some FForeground | Background => Some FBackground | Surface => Some FSurface
  | Panel => Some FPanel | Boost => Some FBoost
  end.
Section Bases.
Variable rnd : Q -> Q.
(** What a base colour is: the colour given for it, else derived from others. *)
Inductive stands (s : system) : base -> rgba -> Prop :=
| by_primary : stands s Primary (s_primary s)
| by_field : forall b f c, field_of b = Some f -> given f s = Some c -> stands s b c
| as_primary : forall b f, In b [Secondary; Warning; Accent] -> field_of b = Some f -> given f s = None -> stands s b (s_primary s)
| as_secondary : forall b f c, In b [Error; Success] -> field_of b = Some f -> given f s = None -> stands s Secondary c -> stands s b c
| plain_background : given FBackground s = None -> stands s Background (if s_dark s then rgb_of 0x12 0x12 0x12 else rgb_of 0xef 0xef 0xef)
| plain_surface : given FSurface s = None -> stands s Surface (if s_dark s then rgb_of 0x1e 0x1e 0x1e else rgb_of 0xf5 0xf5 0xf5)
| against_background : forall c, given FForeground s = None -> stands s Background c -> stands s Foreground (inverse c)
| faint_contrast : forall c, given FBoost s = None -> stands s Background c ->
    stands s Boost (contrast_text rnd c (rnd (4 # 100)))
| light_panel : forall c, given FPanel s = None -> s_dark s = false -> stands s Surface c ->
    stands s Panel (blend rnd c (s_primary s) (rnd (1 # 10)) (Some 1%Q))
| dark_panel : forall c d, given FPanel s = None -> s_dark s = true -> stands s Surface c -> stands s Boost d ->
    stands s Panel (tint rnd (blend rnd c (s_primary s) (rnd (1 # 10)) (Some 1%Q)) d).
End Bases.

(** The thirteen names that have shades, and whose shades they are. *)
Definition shaded : list (string * base) :=
  [("primary", Primary); ("secondary", Secondary); ("primary-background", Primary); ("secondary-background", Secondary);
   ("background", Background); ("foreground", Foreground); ("panel", Panel); ("boost", Boost); ("surface", Surface);
   ("warning", Warning); ("error", Error); ("success", Success); ("accent", Accent)]%string.
(** The names of the shades: "-darken-3" ... "", ... "-lighten-3". *)
Definition shade_suffixes : list (Z * string) :=
  [(-3, "-darken-3"); (-2, "-darken-2"); (-1, "-darken-1"); (0, ""); (1, "-lighten-1"); (2, "-lighten-2"); (3, "-lighten-3")]%string.
(** Variables that are a base colour as it is, *)
Definition copies : list (string * base) :=
  [("scrollbar-active", Primary); ("link-background-hover", Primary); ("border", Primary); ("block-cursor-background", Primary);
   ("block-cursor-blurred-foreground", Foreground); ("footer-foreground", Foreground); ("footer-background", Panel);
   ("footer-key-foreground", Accent); ("footer-description-foreground", Foreground); ("input-cursor-background", Foreground);
   ("input-cursor-foreground", Background); ("markdown-h1-color", Primary); ("markdown-h2-color", Primary); ("markdown-h3-color", Primary);
   ("markdown-h4-color", Foreground); ("markdown-h5-color", Foreground); ("button-foreground", Foreground)]%string.
(** with another opacity, *)
Definition faded : list (string * base * Q) :=
  [("foreground-muted", Foreground, 6 # 10); ("foreground-disabled", Foreground, 38 # 100); ("markdown-h6-color", Foreground, 6 # 10);
   ("block-cursor-blurred-background", Primary, 3 # 10); ("block-hover-background", Boost, 1 # 10); ("input-selection-background", Primary, 4 # 10)]%string.
(** or nothing at all, *)
Definition see_through : list string :=
  ["link-background"; "footer-key-background"; "footer-description-background"; "footer-item-background"; "markdown-h1-background";
   "markdown-h2-background"; "markdown-h3-background"; "markdown-h4-background"; "markdown-h5-background"; "markdown-h6-background"]%string.
(** and the text colours, with the contrast they ask for. *)
Definition texts : list (string * Q) :=
  [("text", 87 # 100); ("text-muted", 60 # 100); ("text-disabled", 38 # 100); ("link-color", 87 # 100); ("link-color-hover", 87 # 100);
   ("block-cursor-foreground", 87 # 100); ("button-color-foreground", 87 # 100)]%string.
Definition coloured_texts : list (string * base) :=
  [("text-primary", Primary); ("text-secondary", Secondary); ("text-warning", Warning); ("text-error", Error); ("text-success", Success); ("text-accent", Accent)]%string.
Definition muteds : list (string * base) :=
  [("primary-muted", Primary); ("secondary-muted", Secondary); ("accent-muted", Accent); ("warning-muted", Warning); ("error-muted", Error); ("success-muted", Success)]%string.
Definition tracks : list string :=
  ["scrollbar-background"; "scrollbar-corner-color"; "scrollbar-background-hover"; "scrollbar-background-active"]%string.
Definition documented : list text :=
  flat_map (fun nb => map (fun z => str (fst nb) ++ str (snd z)) shade_suffixes) shaded ++
  map (fun p => str (fst p)) copies ++ map (fun p => str (fst (fst p))) faded ++ map str see_through ++
  map (fun p => str (fst p)) texts ++ map (fun p => str (fst p)) coloured_texts ++ map (fun p => str (fst p)) muteds ++ map str tracks ++
  map str ["scrollbar"; "scrollbar-hover"; "border-blurred"; "surface-active"]%string.
(** The names of the built-in themes and whether they are dark. *)
Definition builtin : list (string * bool) :=
  [("textual-dark", true); ("textual-light", false); ("nord", true); ("gruvbox", true); ("catppuccin-mocha", true); ("catppuccin-latte", false);
   ("dracula", true); ("tokyo-night", true); ("monokai", true); ("flexoki", true); ("solarized-light", false); ("solarized-dark", true);
   ("rose-pine", true); ("rose-pine-moon", true); ("rose-pine-dawn", false); ("textual-ansi", true)]%string.

(** Colours of the terminal's palette, automatic colours and references have no
    channels to work with. *)
Definition no_channels (c : rgba) : Prop := c_ansi c <> None \/ c_auto c = true \/ c_theme c <> None.
(** The text styles of a theme, as the attributes bold, underlined, reversed. *)
Definition style_table : list (string * (bool * bool * bool)) :=
  [("link-style", (false, true, false)); ("link-style-hover", (true, false, false)); ("block-cursor-text-style", (true, false, false));
   ("block-cursor-blurred-text-style", (false, false, false)); ("input-cursor-text-style", (false, false, false));
   ("markdown-h1-text-style", (true, false, false)); ("markdown-h2-text-style", (false, true, false)); ("markdown-h3-text-style", (true, false, false));
   ("markdown-h4-text-style", (true, true, false)); ("markdown-h5-text-style", (true, false, false)); ("markdown-h6-text-style", (true, false, false));
   ("button-focus-text-style", (true, false, true))]%string.
