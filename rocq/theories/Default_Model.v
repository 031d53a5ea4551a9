(** Model of the stylesheet a program runs with: the default styles of its widgets
    put before its own.  The widgets are those of [Name_Model]; [own] gives the
    default styles of the program's widgets by their type. *)
From Coq Require Import String ZArith List Bool Permutation.
From Verif Require Import Text_Model Name_Model.
Import ListNotations.
Open Scope list_scope.

(** *** The texts *)
(** widget.rs:167-189 [base_widget_css] *)
Definition base_widget_css : text := str "
        * {
            scrollbar-background: $scrollbar-background;
            scrollbar-background-hover: $scrollbar-background-hover;
            scrollbar-background-active: $scrollbar-background-active;
            scrollbar-color: $scrollbar;
            scrollbar-color-hover: $scrollbar-hover;
            scrollbar-color-active: $scrollbar-active;
            scrollbar-corner-color: $scrollbar-corner-color;
            scrollbar-size-vertical: 2;
            scrollbar-size-horizontal: 1;
            link-background: $link-background;
            link-background-hover: $link-background-hover;
            link-color: $link-color;
            link-color-hover: $link-color-hover;
            link-style: $link-style;
            link-style-hover: $link-style-hover;
        }
        ".
(** widget/static_widget.rs:451-456 *)
Definition css_static : text := str "
Static {
    height: auto;
}
".
(** widget/label.rs:216-222 *)
Definition css_label : text := str "
Label {
    width: auto;
    height: auto;
}
".
(** widget/button.rs:196-373 *)
Definition css_button : text := str "
Button {
    width: auto;
    min-width: 16;
    height: auto;
    line-pad: 1;
    text-align: center;
    content-align: center middle;

    &.-style-flat {
        text-style: bold;
        color: auto 90%;
        background: $surface;
        border: block $surface;
        &:hover {
            background: $primary;
            border: block $primary;
        }
        &:focus {
            text-style: $button-focus-text-style;
        }
        &.-active {
            background: $surface;
            border: block $surface;
            tint: $background 30%;
        }
        &:disabled {
            color: auto 50%;
        }

        &.-primary {
            background: $primary-muted;
            border: block $primary-muted;
            color: $text-primary;
            &:hover {
                color: $text;
                background: $primary;
                border: block $primary;
            }
        }
        &.-success {
            background: $success-muted;
            border: block $success-muted;
            color: $text-success;
            &:hover {
                color: $text;
                background: $success;
                border: block $success;
            }
        }
        &.-warning {
            background: $warning-muted;
            border: block $warning-muted;
            color: $text-warning;
            &:hover {
                color: $text;
                background: $warning;
                border: block $warning;
            }
        }
        &.-error {
            background: $error-muted;
            border: block $error-muted;
            color: $text-error;
            &:hover {
                color: $text;
                background: $error;
                border: block $error;
            }
        }
    }
    &.-style-default {
        text-style: bold;
        color: $button-foreground;
        background: $surface;
        border: none;
        border-top: tall $surface-lighten-1;
        border-bottom: tall $surface-darken-1;

        &.-textual-compact {
            border: none !important;
        }

        &:disabled {
            text-opacity: 0.6;
        }

        &:focus {
            text-style: $button-focus-text-style;
            background-tint: $foreground 5%;
        }
        &:hover {
            border-top: tall $surface;
            background: $surface-darken-1;
        }

        &.-active {
            background: $surface;
            border-bottom: tall $surface-lighten-1;
            border-top: tall $surface-darken-1;
            tint: $background 30%;
        }

        &.-primary {
            color: $button-color-foreground;
            background: $primary;
            border-top: tall $primary-lighten-3;
            border-bottom: tall $primary-darken-3;

            &:hover {
                background: $primary-darken-2;
                border-top: tall $primary;
            }

            &.-active {
                background: $primary;
                border-bottom: tall $primary-lighten-3;
                border-top: tall $primary-darken-3;
            }
        }

        &.-success {
            color: $button-color-foreground;
            background: $success;
            border-top: tall $success-lighten-2;
            border-bottom: tall $success-darken-3;

            &:hover {
                background: $success-darken-2;
                border-top: tall $success;
            }

            &.-active {
                background: $success;
                border-bottom: tall $success-lighten-2;
                border-top: tall $success-darken-2;
            }
        }

        &.-warning{
            color: $button-color-foreground;
            background: $warning;
            border-top: tall $warning-lighten-2;
            border-bottom: tall $warning-darken-3;

            &:hover {
                background: $warning-darken-2;
                border-top: tall $warning;
            }

            &.-active {
                background: $warning;
                border-bottom: tall $warning-lighten-2;
                border-top: tall $warning-darken-2;
            }
        }

        &.-error {
            color: $button-color-foreground;
            background: $error;
            border-top: tall $error-lighten-2;
            border-bottom: tall $error-darken-3;

            &:hover {
                background: $error-darken-1;
                border-top: tall $error;
            }

            &.-active {
                background: $error;
                border-bottom: tall $error-lighten-2;
                border-top: tall $error-darken-2;
            }
        }
    }
}
".
(** widget/input.rs:206-215 *)
Definition css_input : text := str "
Input {
    width: 1fr;
    height: auto;
    border: blank;
    background: transparent;
    padding-left: 0;
}
".
(** widget/placeholder.rs:318-331 *)
Definition css_placeholder : text := str "
Placeholder {
    content-align: center middle;
    overflow: hidden;
    color: $text;
    width: 1fr;

    &:disabled {
        opacity: 0.7;
    }
}
".
(** widget/ruler.rs:152-168 *)
Definition css_ruler : text := str "
Ruler {
    width: 1;
    height: 1fr;
}
Ruler.-vertical {
    dock: right;
    width: 1;
    height: 1fr;
}
Ruler.-horizontal {
    dock: bottom;
    width: 1fr;
    height: 1;
}
".
(** widget/loading_indicator.rs:73-78 *)
Definition css_loading : text := str "
LoadingIndicator {
    height: auto;
}
".
(** widget/tooltip.rs:55-65 *)
Definition css_tooltip : text := str "
Tooltip {
    position: absolute;
    padding: 1 2;
    background: $panel;
    width: auto;
    height: auto;
    max-width: 40;
}
".
(** widget/option_list.rs:295-304 *)
Definition css_options : text := str "
OptionList {
    height: auto;
}

OptionList > .option-list--option {
    text-wrap: nowrap;
}
".
(** widget/header.rs:748-762 *)
Definition css_header : text := str "
Header {
    dock: top;
    width: 100%;
    background: $panel;
    color: $foreground;
    height: 1;
    layout: horizontal;
}

Header.-tall {
    height: 3;
}
".
(** widget/header.rs:40-48 *)
Definition css_headertitle : text := str "
HeaderTitle {
    text-wrap: nowrap;
    text-overflow: ellipsis;
    content-align: center middle;
    width: 100%;
}
".
(** widget/header.rs:204-211 *)
Definition css_headerclock : text := str "
HeaderClockSpace {
    dock: right;
    width: 10;
    padding: 0 1;
}
".
(** widget/header.rs:377-389 *)
Definition css_headericon : text := str "
HeaderIcon {
    dock: left;
    padding: 0 1;
    width: 8;
    content-align: left middle;
}

HeaderIcon:hover {
    background: $foreground 10%;
}
".
(** widget/command_palette.rs:1577-1662 *)
Definition css_palette : text := str "
CommandPalette:inline {
    min-height: 20;
}

CommandPalette {
    color: $foreground;
    background: $background 60%;
    align-horizontal: center;
}

CommandPalette #--container {
    display: none;
}

CommandPalette:ansi {
    background: transparent;
}

CommandPalette.-ready #--container {
    display: block;
}

CommandPalette > .command-palette--help-text {
    color: $text-muted;
    background: transparent;
    text-style: none;
}

CommandPalette > .command-palette--highlight {
    text-style: bold underline;
}

CommandPalette:nocolor > .command-palette--highlight {
    text-style: underline;
}

CommandPalette > Vertical {
    margin-top: 3;
    height: 100%;
    visibility: hidden;
    background: $surface;
}

CommandPalette > Vertical:dark {
    background: $panel-darken-1;
}

CommandPalette #--input {
    height: auto;
    visibility: visible;
    border: hkey black 50%;
}

CommandPalette #--input.--list-visible {
    border-bottom: none;
}

CommandPalette #--input Label {
    margin-top: 1;
    margin-left: 1;
}

CommandPalette #--input Button {
    min-width: 7;
    margin-right: 1;
}

CommandPalette #--results {
    overlay: screen;
    height: auto;
}

CommandPalette LoadingIndicator {
    height: auto;
    visibility: hidden;
    border-bottom: hkey $border;
}

CommandPalette LoadingIndicator.--visible {
    visibility: visible;
}
".
(** widget/command_palette.rs:55-64 *)
Definition css_searchicon : text := str "
    SearchIcon {
        color: #000;  /* required for snapshot tests */
        margin-left: 1;
        margin-top: 1;
        width: 2;
    }
    ".
(** widget/command_palette.rs:275-286 *)
Definition css_commandinput : text := str "
    CommandInput, CommandInput:focus {
        border: blank;
        width: 1fr;
        padding-left: 0;
        background: transparent;
        background-tint: transparent 0%;
    }
    ".
(** widget/command_palette.rs:493-539 *)
Definition css_commandlist : text := str "
    CommandList {
        visibility: hidden;
        border-top: blank;
        border-bottom: hkey black;
        border-left: none;
        border-right: none;
        height: auto;
        max-height: 70vh;
        background: $surface;
        padding: 0;
    }

    CommandList:dark {
        background: $panel-darken-1;
    }

    CommandList:focus {
        border: blank;
    }

    CommandList.--visible {
        visibility: visible;
    }

    CommandList.--populating {
        border-bottom: none;
    }

    CommandList > .option-list--option-highlighted {
        color: $block-cursor-blurred-foreground;
        background: $block-cursor-blurred-background;
        text-style: $block-cursor-blurred-text-style;
    }

    CommandList:nocolor > .option-list--option-highlighted {
        text-style: reverse;
    }

    CommandList > .option-list--option {
        padding: 0 2;
        color: $foreground;
        text-style: bold;
    }
    ".
(** containers/container.rs:664-672 *)
Definition css_container : text := str "
Container {
    width: 1fr;
    height: 1fr;
    layout: vertical;
}
".
(** containers/vertical.rs:53-59 *)
Definition css_vertical : text := str "
Vertical {
    width: 1fr;
    height: 1fr;
    layout: vertical;
}
".
(** containers/horizontal.rs:53-59 *)
Definition css_horizontal : text := str "
Horizontal {
    width: 1fr;
    height: 1fr;
    layout: horizontal;
}
".
(** containers/grid.rs:218-226 *)
Definition css_grid : text := str "
Grid {
    width: 1fr;
    height: 1fr;
    layout: grid;
}
".
(** containers/scrollable.rs:614-623 *)
Definition css_scrollable : text := str "
ScrollableContainer {
    width: 1fr;
    height: 1fr;
    layout: vertical;
    overflow: auto auto;
}
".
(** containers/vertical_scroll.rs:78-87 *)
Definition css_vscroll : text := str "
VerticalScroll {
    width: 1fr;
    height: 1fr;
    layout: vertical;
    overflow-x: hidden;
    overflow-y: auto;
}
".
(** containers/horizontal_scroll.rs:76-85 *)
Definition css_hscroll : text := str "
HorizontalScroll {
    width: 1fr;
    height: 1fr;
    layout: horizontal;
    overflow-y: hidden;
    overflow-x: auto;
}
".
(** widget/screen.rs:486-494 *)
Definition css_screen : text := str "
Screen {
    layout: vertical;
    overflow-y: auto;
    background: $background;
}
".
(** widget/app_widget.rs:52-59 *)
Definition css_app : text := str "
App {
    background: $background;
    color: $foreground;
}
".

Section Own.
Variable own : text -> text.
(** [default_css] of every widget; widget.rs:156 is empty, kept by switch.rs,
    scrollbar.rs, scrollbar_corner.rs, item_grid.rs and containers.rs *)
Definition kind_css (k : kind) : text :=
  match k with
  | KUser p _ => own p
  | KStatic => css_static
  | KLabel => css_label
  | KButton => css_button
  | KInput => css_input
  | KPlaceholder => css_placeholder
  | KRuler => css_ruler
  | KLoading => css_loading
  | KTooltip => css_tooltip
  | KOptions => css_options
  | KHeader => css_header
  | KHeaderTitle => css_headertitle
  | KHeaderClock => css_headerclock
  | KHeaderIcon => css_headericon
  | KPalette => css_palette
  | KSearchIcon => css_searchicon
  | KCommandInput => css_commandinput
  | KCommandList => css_commandlist
  | KContainer => css_container
  | KVertical => css_vertical
  | KHorizontal => css_horizontal
  | KGrid => css_grid
  | KScrollable => css_scrollable
  | KVScroll => css_vscroll
  | KHScroll => css_hscroll
  | KScreen => css_screen
  | KApp => css_app
  | KSwitch | KBar | KCorner | KItemGrid | KCenter | KMiddle => []
  end.
(** widget.rs:610-612 for boxes *)
Fixpoint default_css (w : widget) : text :=
  match w with W k _ _ _ => kind_css k | Boxed v => default_css v end.

(** *** The set *)
(** HashSet::insert: the set as a list without repetitions, newest first; in which
    order it is gone through later is left open, see [combination] *)
Definition insert (t : text) (l : list text) : list text := if existsb (text_eqb t) l then l else t :: l.
(** [for_each_child] goes through the children, see [styled_children] *)
Definition shows (k : kind) : bool :=
  match k with
  | KStatic | KLabel | KButton | KInput | KSwitch | KPlaceholder | KRuler | KLoading | KBar | KCorner | KTooltip
  | KHeaderTitle | KHeaderClock | KHeaderIcon | KSearchIcon | KCommandInput => false
  | _ => true
  end.
(** lib.rs:120-128 and testing.rs:17-25 [collect_default_css] *)
Fixpoint collect (w : widget) (acc : list text) : list text :=
  match w with
  | W k _ _ ks =>
      let acc := if is_nil (kind_css k) then acc else insert (kind_css k) acc in
      if shows k then fold_left (fun a c => collect c a) ks acc else acc
  | Boxed v => collect v acc
  end.
Definition collected (root : widget) : list text := collect root [].

(** *** The text *)
(** lib.rs:133-151 [build_combined_css] with [before] the base styles, testing.rs:28-39
    with none: every text on lines of its own, then the program's *)
Definition combined (before order : list text) (css : text) : text :=
  flat_map (fun d => d ++ [10%Z]) (before ++ order) ++ css.
(** any order in which the set may be gone through *)
Definition combination (before : list text) (root : widget) (css src : text) : Prop :=
  exists order, Permutation order (collected root) /\ src = combined before order css.
End Own.

(** lib.rs:691-700 and 754-764: the tree of a program, from what [compose] answers *)
Definition composed (palette : option widget) (ks : list widget) : widget :=
  W KApp None DOther ([W KScreen None DOther ks; W KTooltip None DOther []] ++ match palette with Some p => [p] | None => [] end).
(** lib.rs:707 and 773: the text is made from the first tree only; a tree composed
    later is styled by the same stylesheet *)
Definition sheet_text_of_run (own : text -> text) (palette : option widget) (first : list widget) (css src : text) : Prop :=
  combination own [base_widget_css] (composed palette first) css src.
