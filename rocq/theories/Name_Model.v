(** Model of how widgets are named and reached: the type name and the id asked for
    by queries (tree.rs) and by stylesheets (get_meta), the children seen by
    queries and by the style resolver, and typed queries.

    Left out of a widget: everything but its kind, its id, the layout of a
    container and its children.  The parts of [Header], [OptionList] and
    [CommandPalette] are their children here.  The type arguments of a widget are one text. *)
From Coq Require Import String ZArith List Bool Arith.
From Verif Require Import Text_Model Tree_Model Css_Model.
Import ListNotations.
Open Scope nat_scope.
Open Scope list_scope.

(** The widgets of crates/textual; [KUser] is a widget of the program, with the text
    of [std::any::type_name] and whether it answers [as_any_mut]. *)
Inductive kind :=
| KUser (path : text) (any : bool)
| KStatic | KLabel | KButton | KInput | KSwitch | KPlaceholder | KRuler | KLoading | KBar | KCorner | KTooltip
| KOptions | KHeader | KHeaderTitle | KHeaderClock | KHeaderIcon
| KPalette | KSearchIcon | KCommandInput | KCommandList
| KContainer | KVertical | KHorizontal | KGrid | KItemGrid | KScrollable | KVScroll | KHScroll | KCenter | KMiddle
| KScreen | KApp.
Inductive direction := DVertical | DHorizontal | DOther.
(** [Boxed] is a [Box<dyn Widget<M>>] used as a widget (widget.rs:576-808) *)
Inductive widget := W (k : kind) (id : option text) (layout : direction) (kids : list widget) | Boxed (w : widget).

(** *** Names *)
(** str::split('<').next() *)
Fixpoint before_args (t : text) : text :=
  match t with
  | [] => []
  | c :: r => if (c =? 60)%Z then [] else c :: before_args r
  end.
(** str::split("::").last(): [seg] is the segment read so far *)
Fixpoint last_segment (seg t : text) : text :=
  match t with
  | [] => seg
  | c :: r =>
      match r with
      | d :: r' => if ((c =? 58) && (d =? 58))%Z then last_segment [] r' else last_segment (seg ++ [c]) r
      | [] => seg ++ [c]
      end
  end.
(** widget.rs:438-447 [type_name] and 109-118 (in [get_meta]) on the full name *)
Definition short_name (full : text) : text := last_segment [] (before_args full).

(** [std::any::type_name] of the widgets that keep the default names, with the
    text [m] of the type arguments: the structs at static_widget.rs:75, switch.rs:14,
    placeholder.rs:100, ruler.rs:54, scrollbar.rs:31, scrollbar_corner.rs:15,
    tooltip.rs:11, container.rs:49, grid.rs:43, item_grid.rs:32, scrollable.rs:38,
    containers.rs:83 and 225, screen.rs:50, app_widget.rs:27 *)
Definition full_name (m : text) (k : kind) : text :=
  match k with
  | KUser p _ => p
  | KStatic => str "textual::widget::static_widget::Static<" ++ m ++ str ">"
  | KSwitch => str "textual::widget::switch::Switch<" ++ m ++ str ">"
  | KPlaceholder => str "textual::widget::placeholder::Placeholder"
  | KRuler => str "textual::widget::ruler::Ruler<" ++ m ++ str ">"
  | KBar => str "textual::widget::scrollbar::ScrollBar<" ++ m ++ str ">"
  | KCorner => str "textual::widget::scrollbar_corner::ScrollBarCorner"
  | KTooltip => str "textual::widget::tooltip::Tooltip<" ++ m ++ str ">"
  | KContainer => str "textual::containers::container::Container<" ++ m ++ str ">"
  | KGrid => str "textual::containers::grid::Grid<" ++ m ++ str ">"
  | KItemGrid => str "textual::containers::item_grid::ItemGrid<" ++ m ++ str ">"
  | KScrollable => str "textual::containers::scrollable::ScrollableContainer<" ++ m ++ str ">"
  | KCenter => str "textual::containers::Center<" ++ m ++ str ">"
  | KMiddle => str "textual::containers::Middle<" ++ m ++ str ">"
  | KScreen => str "textual::widget::screen::Screen<" ++ m ++ str ">"
  | KApp => str "textual::widget::app_widget::AppWidget<" ++ m ++ str ">"
  | _ => []
  end.
(** [type_name]: label.rs:368, button.rs:453, input.rs:379, loading_indicator.rs:192,
    option_list.rs:472, header.rs:150, 309, 585, 869, command_palette.rs:202, 424, 678,
    1897, vertical_scroll.rs:236, horizontal_scroll.rs:239, macros.rs:199 with
    vertical.rs:52 and horizontal.rs:52; the rest is the default of widget.rs:438 *)
Definition kind_name (m : text) (k : kind) : text :=
  match k with
  | KLabel => str "Label" | KButton => str "Button" | KInput => str "Input" | KLoading => str "LoadingIndicator"
  | KOptions => str "OptionList"
  | KHeader => str "Header" | KHeaderTitle => str "HeaderTitle" | KHeaderClock => str "HeaderClockSpace" | KHeaderIcon => str "HeaderIcon"
  | KPalette => str "CommandPalette" | KSearchIcon => str "SearchIcon" | KCommandInput => str "CommandInput" | KCommandList => str "CommandList"
  | KVertical => str "Vertical" | KHorizontal => str "Horizontal" | KVScroll => str "VerticalScroll" | KHScroll => str "HorizontalScroll"
  | _ => short_name (full_name m k)
  end.
(** widget.rs:726-730 for boxes *)
Definition type_name (m : text) (w : widget) : text :=
  match w with W k _ _ _ => kind_name m k | Boxed _ => str "Widget" end.

(** [id]: widget.rs:430 is the default, kept by tooltip.rs, scrollbar_corner.rs,
    containers.rs, screen.rs and app_widget.rs; a program's widget answers its own;
    widget.rs:722 for boxes *)
Fixpoint id_of (w : widget) : option text :=
  match w with
  | W (KTooltip | KCorner | KCenter | KMiddle | KScreen | KApp) _ _ _ => None
  | W _ id _ _ => id
  | Boxed w => id_of w
  end.

(** [get_meta]: the names in it.  app_widget.rs:83, button.rs:388, command_palette.rs:75,
    297, 550, 1676, header.rs:63, 222, 403, 773, input.rs:277, label.rs:237,
    loading_indicator.rs:100, option_list.rs:369, placeholder.rs:555, ruler.rs:211,
    screen.rs:671, static_widget.rs:859, tooltip.rs:123, container.rs:1345-1366,
    grid.rs:287, item_grid.rs:171, scrollable.rs:851, vertical_scroll.rs:98,
    horizontal_scroll.rs:96, macros.rs:59-64; widget.rs:108-127 for the others *)
Definition meta_name (m : text) (k : kind) : text :=
  match k with
  | KStatic => str "Static" | KPlaceholder => str "Placeholder" | KRuler => str "Ruler" | KTooltip => str "Tooltip"
  | KContainer => str "Container" | KGrid => str "Grid" | KItemGrid => str "ItemGrid" | KScrollable => str "ScrollableContainer"
  | KScreen => str "Screen" | KApp => str "App"
  | KLabel | KButton | KInput | KLoading | KOptions | KHeader | KHeaderTitle | KHeaderClock | KHeaderIcon
  | KPalette | KSearchIcon | KCommandInput | KCommandList | KVertical | KHorizontal | KVScroll | KHScroll => kind_name m k
  | KUser _ _ | KSwitch | KBar | KCorner | KCenter | KMiddle => short_name (full_name m k)
  end.
Definition meta_names (m : text) (k : kind) (l : direction) : list text :=
  let w := str "Widget" in let d := str "DOMNode" in let n := meta_name m k in
  match k with
  | KApp => [n; d]
  | KLabel | KInput | KTooltip | KHeaderTitle | KHeaderClock | KHeaderIcon | KSearchIcon => [n; str "Static"; w; d]
  | KOptions | KPalette => [n; str "Container"; w; d]
  | KCommandInput => [n; str "Input"; w; d]
  | KCommandList => [n; str "OptionList"; w; d]
  | KVScroll | KHScroll => [n; str "ScrollableContainer"; w; d]
  | KContainer => match l with DVertical => [str "Vertical"; n; w; d] | DHorizontal => [str "Horizontal"; n; w; d] | DOther => [n; w; d] end
  | _ => [n; w; d]
  end.
(** the id in it: screen.rs:682 and app_widget.rs:89 none; the id of the inner widget for wrappers *)
Definition meta_id (k : kind) (id : option text) : option text :=
  match k with
  | KScreen | KApp | KCorner | KCenter | KMiddle => None
  | _ => id
  end.
(** the classes and states are those given *)
Fixpoint meta_of (m : text) (cs : list text) (st : states) (w : widget) : meta :=
  match w with
  | W k id l _ => Meta (meta_name m k) (meta_names m k l) (meta_id k id) cs st
  | Boxed w => meta_of m cs st w
  end.

(** *** Children *)
(** [child_count] and [get_child_mut]: container.rs:1609-1619, grid.rs:458-468,
    item_grid.rs:339-349, scrollable.rs:1411-1419, vertical_scroll.rs:220-226,
    horizontal_scroll.rs:223-229, containers.rs:213-221 and 355-363, screen.rs:693-703,
    app_widget.rs:100-109, macros.rs:183-189, command_palette.rs:1881-1887; the
    defaults of widget.rs:407-416 for the others, to which label.rs:352-358 and
    command_palette.rs:186-192, 408-414, 662-668 come down too; a program's
    widget shows its children *)
Fixpoint children (w : widget) : list widget :=
  match w with
  | W (KUser _ _ | KContainer | KVertical | KHorizontal | KGrid | KItemGrid | KScrollable | KVScroll | KHScroll | KCenter | KMiddle | KScreen | KApp | KPalette) _ _ ks => ks
  | W _ _ _ _ => []
  | Boxed w => children w
  end.
(** [for_each_child]: the same files at 1416, 339, 223, 845, 244, 247, 154 and 296,
    687, 94, macros.rs:209, command_palette.rs:1905; also option_list.rs:484,
    header.rs:877 and, through OptionList, command_palette.rs:686 *)
Fixpoint styled_children (w : widget) : list widget :=
  match w with
  | W (KOptions | KHeader | KCommandList) _ _ ks => ks
  | W _ _ _ _ => children w
  | Boxed w => styled_children w
  end.

(** *** Queries *)
(** what [selector.matches] asks (tree.rs:651-668) *)
Definition asked (m : text) (w : widget) : wdata := WData (id_of w) (type_name m w) true false false [].
Definition sel_finds (m : text) (s : ssel) (w : widget) : bool := sel_matches s (asked m w).
(** [as_any_mut]: static_widget.rs:1004, label.rs:400, button.rs:590, input.rs:395,
    switch.rs:430, ruler.rs:279, loading_indicator.rs:200, tooltip.rs:135,
    option_list.rs:492, header.rs:166, 325, 601, 885, command_palette.rs:218, 440,
    694, 1913, container.rs:1648, screen.rs:749; widget.rs:515 for the others *)
Definition answers_any (k : kind) : bool :=
  match k with
  | KUser _ any => any
  | KPlaceholder | KBar | KCorner | KVertical | KHorizontal | KGrid | KItemGrid | KScrollable | KVScroll | KHScroll | KCenter | KMiddle | KApp => false
  | _ => true
  end.
Definition kind_eq_dec : forall a b : kind, {a = b} + {a <> b}.
Proof. repeat decide equality. Defined.
(** tree.rs:766-770: [downcast_mut::<W>] of [as_any_mut], widget.rs:764 for boxes,
    and the closure [f] on the widget *)
Fixpoint cast (K : kind) (f : widget -> widget) (w : widget) : option widget :=
  match w with
  | W k _ _ _ => if answers_any k then if kind_eq_dec k K then Some (f w) else None else None
  | Boxed v => option_map Boxed (cast K f v)
  end.
(** writing the children back *)
Fixpoint with_children (w : widget) (ks : list widget) : widget :=
  match w with
  | W k id l _ => W k id l ks
  | Boxed v => Boxed (with_children v ks)
  end.
Section Typed.
Variables (m : text) (s : ssel) (K : kind) (f : widget -> widget).
(** tree.rs:757-786 [find_and_apply_by_selector_typed]: the children one after the
    other until one of them answers; [n] bounds the depth (see [height]) *)
Fixpoint first_child (g : widget -> option widget) (ks : list widget) : option (list widget) :=
  match ks with
  | [] => None
  | k :: r => match g k with
              | Some k' => Some (k' :: r)
              | None => option_map (cons k) (first_child g r)
              end
  end.
Fixpoint find_typed (n : nat) (w : widget) : option widget :=
  match n with
  | O => None
  | S n' =>
      match (if sel_finds m s w then cast K f w else None) with
      | Some w' => Some w'
      | None => option_map (with_children w) (first_child (find_typed n') (children w))
      end
  end.
End Typed.
Fixpoint height (w : widget) : nat :=
  match w with
  | W _ _ _ ks => S (fold_right (fun k n => Nat.max (height k) n) 0 ks)
  | Boxed v => S (height v)
  end.
(** tree.rs:333-354 [query_one_as]; the result is whether the closure was called *)
Definition query_one_as (m sel : text) (K : kind) (f : widget -> widget) (root : widget) : widget * bool :=
  match find_typed m (parse_selector sel) K f (height root) root with
  | Some r => (r, true)
  | None => (root, false)
  end.
