(** Model of the attributes a program may set on any widget: visible, disabled,
    loading, the titles of the border, the tooltip and the inline style
    (widget.rs:201-217, 250-263, 328-378, 465-481 and what each widget of
    crates/textual/src/widget, containers and containers.rs does about them).

    A widget keeps the fields itself ([Own]) or wraps another one ([Wrap]) and
    forwards some of the methods.  Left out: the children of a container, so that
    [is_dirty] speaks of the widget alone; hover, press and focus.  An inline
    style is the list of its declarations. *)
From Coq Require Import ZArith List Bool.
From Verif Require Import Text_Model.
Import ListNotations.

(** The widgets that keep their own fields; [KBare] is a widget of the program
    that overrides none of these methods. *)
Inductive own :=
  KBare | KStatic | KSwitch | KPlaceholder | KRuler | KLoading | KBar | KCorner | KCenter | KMiddle
| KContainer | KGrid | KItemGrid | KScrollable | KScreen | KApp.
(** The widgets made of another widget: label.rs:85, button.rs:43, input.rs:31,
    tooltip.rs:11, header.rs:24, 192, 351 and command_palette.rs:43 of a Static;
    option_list.rs:70, vertical.rs:13, horizontal.rs:13, header.rs:627 and
    command_palette.rs:799 of a Container; vertical_scroll.rs:31 and
    horizontal_scroll.rs:31 of a ScrollableContainer; command_palette.rs:247 of
    an Input and 469 of an OptionList; [KBox] is the implementation for
    Box<dyn Widget>, widget.rs:576-808. *)
Inductive wrapper :=
  KLabel | KButton | KInput | KTooltip | KHeaderTitle | KHeaderClock | KHeaderIcon | KSearchIcon
| KOptions | KVertical | KHorizontal | KHeader | KPalette | KVScroll | KHScroll
| KCommandInput | KCommandList | KBox.

(** The fields of these names in the structs cited above; a field a struct does
    not have is never read. *)
Record fields := Fields {
  a_visible : bool; a_disabled : bool; a_loading : bool;
  a_title : option text; a_sub : option text; a_tip : option text;
  a_inline : list text; a_dirty : bool }.
Inductive widget := Own (k : own) (f : fields) | Wrap (k : wrapper) (f : fields) (inner : widget).

(** Which widget is inside which (the structs cited at [wrapper]). *)
Fixpoint built (w : widget) : bool :=
  match w with
  | Own _ _ => true
  | Wrap k _ i =>
      match k, i with
      | (KLabel | KButton | KInput | KTooltip | KHeaderTitle | KHeaderClock | KHeaderIcon | KSearchIcon), Own KStatic _ => true
      | (KOptions | KVertical | KHorizontal | KHeader | KPalette), Own KContainer _ => true
      | (KVScroll | KHScroll), Own KScrollable _ => true
      | KCommandInput, Wrap KInput _ (Own KStatic _) => true
      | KCommandList, Wrap KOptions _ (Own KContainer _) => true
      | KBox, _ => built i
      | _, _ => false
      end
  end.

Definition put_visible (b : bool) (f : fields) := Fields b (a_disabled f) (a_loading f) (a_title f) (a_sub f) (a_tip f) (a_inline f) (a_dirty f).
Definition put_disabled (b : bool) (f : fields) := Fields (a_visible f) b (a_loading f) (a_title f) (a_sub f) (a_tip f) (a_inline f) (a_dirty f).
Definition put_loading (b : bool) (f : fields) := Fields (a_visible f) (a_disabled f) b (a_title f) (a_sub f) (a_tip f) (a_inline f) (a_dirty f).
Definition put_title (t : option text) (f : fields) := Fields (a_visible f) (a_disabled f) (a_loading f) t (a_sub f) (a_tip f) (a_inline f) (a_dirty f).
Definition put_sub (t : option text) (f : fields) := Fields (a_visible f) (a_disabled f) (a_loading f) (a_title f) t (a_tip f) (a_inline f) (a_dirty f).
Definition put_tip (t : option text) (f : fields) := Fields (a_visible f) (a_disabled f) (a_loading f) (a_title f) (a_sub f) t (a_inline f) (a_dirty f).
Definition put_inline (s : list text) (f : fields) := Fields (a_visible f) (a_disabled f) (a_loading f) (a_title f) (a_sub f) (a_tip f) s (a_dirty f).
Definition put_dirty (b : bool) (f : fields) := Fields (a_visible f) (a_disabled f) (a_loading f) (a_title f) (a_sub f) (a_tip f) (a_inline f) b.

(** *** The dirty mark *)

(** widget.rs:250, the default is false; static_widget.rs:907, switch.rs:282,
    placeholder.rs:591, ruler.rs:251, loading_indicator.rs:144, scrollbar.rs:390,
    scrollbar_corner.rs:132, containers.rs:160 and 302, container.rs:1398,
    grid.rs:323, item_grid.rs:207, scrollable.rs:830, screen.rs:706,
    app_widget.rs:112; button.rs:435, input.rs:318 and option_list.rs:411 ask
    their own mark and the inner one, the other wrappers the inner one *)
Fixpoint is_dirty (w : widget) : bool :=
  match w with
  | Own KBare _ => false
  | Own _ f => a_dirty f
  | Wrap (KButton | KInput | KOptions) f i => a_dirty f || is_dirty i
  | Wrap _ _ i => is_dirty i
  end.
(** The methods [mark_dirty] next to those *)
Fixpoint mark_dirty (w : widget) : widget :=
  match w with
  | Own KBare _ => w
  | Own k f => Own k (put_dirty true f)
  | Wrap k f i =>
      match k with
      | KButton | KInput | KOptions => Wrap k (put_dirty true f) (mark_dirty i)
      | _ => Wrap k f (mark_dirty i)
      end
  end.
(** The methods [mark_clean] next to those *)
Fixpoint mark_clean (w : widget) : widget :=
  match w with
  | Own KBare _ => w
  | Own k f => Own k (put_dirty false f)
  | Wrap k f i =>
      match k with
      | KButton | KInput | KOptions => Wrap k (put_dirty false f) (mark_clean i)
      | _ => Wrap k f (mark_clean i)
      end
  end.

(** *** Visible *)

(** widget.rs:339 and 670, switch.rs:393, loading_indicator.rs:168,
    command_palette.rs:150, 372, 626, 1838, tooltip.rs:178, label.rs:308,
    input.rs:347, option_list.rs:440, header.rs:118, 277, 553, 837, macros.rs:139,
    vertical_scroll.rs:176, horizontal_scroll.rs:179 *)
Fixpoint is_visible (w : widget) : bool :=
  match w with
  | Own (KSwitch | KLoading) f => a_visible f
  | Own _ _ => true
  | Wrap (KPalette | KTooltip) f _ => a_visible f
  | Wrap KButton _ _ => true
  | Wrap _ _ i => is_visible i
  end.
(** widget.rs:358 and 678, switch.rs:397-402, loading_indicator.rs:172,
    command_palette.rs:154, 376, 630, 1842-1847, label.rs:312, input.rs:351,
    option_list.rs:444, header.rs:122, 281, 557, 841, macros.rs:143,
    vertical_scroll.rs:180, horizontal_scroll.rs:183 *)
Fixpoint set_visible (b : bool) (w : widget) : widget :=
  match w with
  | Own KSwitch f => if eqb (a_visible f) b then w else Own KSwitch (put_dirty true (put_visible b f))
  | Own KLoading f => Own KLoading (put_visible b f)
  | Own _ _ => w
  | Wrap KPalette f i => if eqb (a_visible f) b then w else Wrap KPalette (put_visible b f) (mark_dirty i)
  | Wrap (KButton | KTooltip) _ _ => w
  | Wrap k f i => Wrap k f (set_visible b i)
  end.
(** widget.rs:352-355 [participates_in_layout]; [gone]: the style says
    display: none *)
Definition participates (gone : bool) (w : widget) : bool := is_visible w && negb gone.

(** *** Disabled *)

(** widget.rs:373 and 690, static_widget.rs:941, switch.rs:415,
    loading_indicator.rs:182, button.rs:553, label.rs:324, input.rs:363,
    option_list.rs:456, header.rs:134, 293, 569, 853, command_palette.rs:166, 388,
    642, 1855, macros.rs:155, vertical_scroll.rs:192, horizontal_scroll.rs:195 *)
Fixpoint is_disabled (w : widget) : bool :=
  match w with
  | Own (KStatic | KSwitch) f => a_disabled f
  | Own _ _ => false
  | Wrap (KPalette | KTooltip) _ _ => false
  | Wrap _ _ i => is_disabled i
  end.
(** widget.rs:378 and 694, static_widget.rs:945-948, switch.rs:419-424,
    loading_indicator.rs:186, button.rs:557-560, label.rs:328, input.rs:367,
    option_list.rs:460, header.rs:138, 297, 573, 857, command_palette.rs:170, 392,
    646, 1859, macros.rs:159, vertical_scroll.rs:196, horizontal_scroll.rs:199 *)
Fixpoint set_disabled (b : bool) (w : widget) : widget :=
  match w with
  | Own KStatic f => Own KStatic (put_dirty true (put_disabled b f))
  | Own KSwitch f => if eqb (a_disabled f) b then w else Own KSwitch (put_dirty true (put_disabled b f))
  | Own _ _ => w
  | Wrap (KPalette | KTooltip) _ _ => w
  | Wrap KButton f i => Wrap KButton (put_dirty true f) (set_disabled b i)
  | Wrap k f i => Wrap k f (set_disabled b i)
  end.
(** The DISABLED state a stylesheet sees: widget.rs:96-105, static_widget.rs:859-863,
    switch.rs:265-280, loading_indicator.rs:110-116, container.rs:1364, grid.rs:293,
    item_grid.rs:177, scrollable.rs:857, screen.rs:681, app_widget.rs:88,
    placeholder.rs:561, ruler.rs:217, scrollbar.rs:353-361; button.rs:407-409,
    header.rs:419-421, input.rs:290-292, option_list.rs:382-384,
    command_palette.rs:1684-1690, tooltip.rs:127, and the states of the inner
    widget for the other wrappers *)
Fixpoint looks_disabled (w : widget) : bool :=
  match w with
  | Own (KStatic | KSwitch) f => a_disabled f
  | Own _ _ => false
  | Wrap (KPalette | KTooltip) _ _ => false
  | Wrap (KButton | KHeaderIcon | KInput | KOptions) _ i => is_disabled i
  | Wrap _ _ i => looks_disabled i
  end.

(** *** Loading *)

(** widget.rs:363 and 682, switch.rs:404, loading_indicator.rs:176, label.rs:316,
    input.rs:355, option_list.rs:448, header.rs:126, 285, 561, 845,
    command_palette.rs:158, 380, 634, 1849, macros.rs:147, vertical_scroll.rs:184,
    horizontal_scroll.rs:187 *)
Fixpoint is_loading (w : widget) : bool :=
  match w with
  | Own KSwitch f => a_loading f
  | Own _ _ => false
  | Wrap (KPalette | KTooltip | KButton) _ _ => false
  | Wrap _ _ i => is_loading i
  end.
(** widget.rs:368 and 686, switch.rs:408-413, and the methods [set_loading] next
    to those *)
Fixpoint set_loading (b : bool) (w : widget) : widget :=
  match w with
  | Own KSwitch f => if eqb (a_loading f) b then w else Own KSwitch (put_dirty true (put_loading b f))
  | Own _ _ => w
  | Wrap (KPalette | KTooltip | KButton) _ _ => w
  | Wrap k f i => Wrap k f (set_loading b i)
  end.

(** widget.rs:328 and 666, switch.rs:294-297, button.rs:529, input.rs:332,
    option_list.rs:425, command_palette.rs:138, 360, 613, 1820, label.rs:304,
    header.rs:114, 273, 549, 833, loading_indicator.rs:164, macros.rs:135,
    vertical_scroll.rs:172, horizontal_scroll.rs:175 *)
Fixpoint is_focusable (w : widget) : bool :=
  match w with
  | Own KSwitch f => a_visible f && negb (a_disabled f) && negb (a_loading f)
  | Own _ _ => false
  | Wrap KButton _ i => negb (is_disabled i)
  | Wrap (KInput | KOptions) _ i => is_visible i && negb (is_disabled i)
  | Wrap KPalette f _ => a_visible f
  | Wrap (KTooltip | KHeaderTitle | KHeaderClock | KHeaderIcon) _ _ => false
  | Wrap _ _ i => is_focusable i
  end.

(** *** The titles of the border *)

(** widget.rs:474 and 752, static_widget.rs:933, container.rs:1621, label.rs:380 *)
Fixpoint border_title (w : widget) : option text :=
  match w with
  | Own (KStatic | KContainer) f => a_title f
  | Wrap (KLabel | KBox) _ i => border_title i
  | _ => None
  end.
(** widget.rs:479 and 756, static_widget.rs:937, container.rs:1625, label.rs:384 *)
Fixpoint border_subtitle (w : widget) : option text :=
  match w with
  | Own (KStatic | KContainer) f => a_sub f
  | Wrap (KLabel | KBox) _ i => border_subtitle i
  | _ => None
  end.
(** widget.rs:465 and 744, static_widget.rs:923-926, container.rs:1629-1632, label.rs:372 *)
Fixpoint set_border_title (t : text) (w : widget) : widget :=
  match w with
  | Own KStatic f => Own KStatic (put_dirty true (put_title (Some t) f))
  | Own KContainer f => Own KContainer (put_dirty true (put_title (Some t) f))
  | Wrap KLabel f i => Wrap KLabel f (set_border_title t i)
  | Wrap KBox f i => Wrap KBox f (set_border_title t i)
  | _ => w
  end.
(** widget.rs:471 and 748, static_widget.rs:928-931, container.rs:1634-1637, label.rs:376 *)
Fixpoint set_border_subtitle (t : text) (w : widget) : widget :=
  match w with
  | Own KStatic f => Own KStatic (put_dirty true (put_sub (Some t) f))
  | Own KContainer f => Own KContainer (put_dirty true (put_sub (Some t) f))
  | Wrap KLabel f i => Wrap KLabel f (set_border_subtitle t i)
  | Wrap KBox f i => Wrap KBox f (set_border_subtitle t i)
  | _ => w
  end.

(** *** The tooltip *)

(** widget.rs:204, static_widget.rs:1039, header.rs:514; no wrapper forwards it,
    nor does Box *)
Definition tooltip (w : widget) : option text :=
  match w with Own KStatic f | Wrap KHeaderIcon f _ => a_tip f | _ => None end.
(** widget.rs:209, static_widget.rs:1043-1046, header.rs:518 *)
Definition set_tooltip (t : option text) (w : widget) : widget :=
  match w with
  | Own KStatic f => Own KStatic (put_dirty true (put_tip t f))
  | Wrap KHeaderIcon f i => Wrap KHeaderIcon (put_tip t f) i
  | _ => w
  end.

(** *** The inline style *)

(** widget.rs:212: Center, Middle and Box have none; static_widget.rs:894-900 and
    the like at the other widgets, the wrappers ask the inner widget; tcss
    types/mod.rs:214 [is_empty] *)
Fixpoint inline_style (w : widget) : option (list text) :=
  match w with
  | Own (KBare | KCenter | KMiddle) _ => None
  | Own _ f => match a_inline f with [] => None | s => Some s end
  | Wrap KBox _ _ => None
  | Wrap _ _ i => inline_style i
  end.
(** widget.rs:201, static_widget.rs:889-892 and the like; button.rs:421,
    input.rs:304 and option_list.rs:397 set their own mark too *)
Fixpoint set_inline_style (s : list text) (w : widget) : widget :=
  match w with
  | Own (KBare | KCenter | KMiddle) _ => w
  | Own k f => Own k (put_dirty true (put_inline s f))
  | Wrap KBox _ _ => w
  | Wrap k f i =>
      match k with
      | KButton | KInput | KOptions => Wrap k (put_dirty true f) (set_inline_style s i)
      | _ => Wrap k f (set_inline_style s i)
      end
  end.
(** widget.rs:217, static_widget.rs:902-905 and the like *)
Definition clear_inline_style (w : widget) : widget := set_inline_style [] w.

(** *** Blocking the mouse *)

(** widget.rs:294 [blocks_mouse_events], command_palette.rs:1812; the
    implementation for Box does not forward it *)
Definition blocks_mouse (w : widget) : bool :=
  match w with Wrap KPalette f _ => a_visible f | _ => false end.
(** app_widget.rs:167-195: the children are boxes and [child.blocks_mouse_events()]
    is called on the box, not on what it holds *)
Definition blocks_of (children : list widget) (i : nat) : bool :=
  match nth_error children i with
  | Some c => blocks_mouse (Wrap KBox (Fields true false false None None None [] false) c)
  | None => false
  end.

(** *** A history of calls *)

Inductive call :=
  SetVisible (b : bool) | SetDisabled (b : bool) | SetLoading (b : bool)
| SetTitle (t : text) | SetSubtitle (t : text) | SetTooltip (t : option text)
| SetInline (s : list text) | ClearInline | MarkDirty | MarkClean.
Definition step (c : call) (w : widget) : widget :=
  match c with
  | SetVisible b => set_visible b w
  | SetDisabled b => set_disabled b w
  | SetLoading b => set_loading b w
  | SetTitle t => set_border_title t w
  | SetSubtitle t => set_border_subtitle t w
  | SetTooltip t => set_tooltip t w
  | SetInline s => set_inline_style s w
  | ClearInline => clear_inline_style w
  | MarkDirty => mark_dirty w
  | MarkClean => mark_clean w
  end.
Fixpoint run (cs : list call) (w : widget) : widget :=
  match cs with [] => w | c :: r => run r (step c w) end.
