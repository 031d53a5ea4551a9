# Formal model of textual-rs: design

Source modelled: `/repo/crates/{textual,tcss,rich}` at the pinned commit. The code
is read as text; nothing is built or run. The properties are in
`properties.jsonl` (C01...), their status and theorems in `MANIFEST.json`, the
wrong programs the theorems were tested against in `seeded/LOG.jsonl`.

## Layout of the development (`rocq/theories`)

For each area `X`:

* `X_Model.v`  - executable Gallina transcription of the Rust functions; each
  definition cites file and lines and names its simplifications. No proofs.
* `X_Spec.v`   - small independent specification (when the property needs one):
  mathematical notions that do not mention the model's helpers.
* `X_Proofs.v`, `X2_Proofs.v`, ... - lemmas.
* `X_Props.v`  - the property theorems (`Cnn_...`), each followed by `Print
  Assumptions` (for theorems in a section, after the section), and `Example`s
  showing that concrete non-trivial cases meet the hypotheses.

Theorem names: `Cnn_something` is a part of property Cnn; `Cnn_..._refuted`
exhibits an input on which the code does not do what a user would expect, and
marks the boundary of the positive theorems beside it. `_partial` would mark an
incomplete theorem; there is none at present.

## Trusted base

* Coq 8.16.1's kernel (and `coqchk`, which re-checks the compiled files).
* `Print Assumptions` answers "Closed under the global context" for every
  theorem of the manifest: no axiom is used, neither of the standard library nor
  of this development. (`coqchk` lists `Coq.ssr.ssrunder.Under_rel.*`: these are
  the opaque fields of a module of the standard distribution that gets loaded with
  `Lia`/`ssreflect` files; no theorem here depends on them.)
* That the model says what the Rust code does. This is the real assumption: the
  definitions were transcribed by hand, function by function, with line numbers.
* What parameters stand for. Things outside the three crates are universally
  quantified parameters, and what a theorem needs to know of them is one of its
  hypotheses: Unicode tables (`char::is_alphanumeric`, `to_lowercase`, display
  widths, grapheme segmentation), `str::parse` for floats, the rounding of
  floating point operations, the application's own handlers, the scheduler and
  the clock (every schedule is a list of labels), providers of the palette.

## Conventions

* Rust integers are `Z` or `nat`. Overflow is modelled only where said so
  (Region's saturating additions, `u8` channels, `u16` parsing); elsewhere
  numbers are taken to be small enough.
* `f32`: Float32_Model rounds every operation to 24 significant bits, ties to
  even; theorems on colours and scroll bars hold for that rounding and usually
  for any monotone rounding that keeps small integers (`Record rounding`).
  `f64` in layout and scores in fuzzy matching are exact rationals. Infinities,
  NaN, underflow and overflow are outside the model.
* `&mut self` methods return the new state. Panics are explicit error values
  (`Panic`, `None`).
* Text is a list of characters (code points) or of grapheme clusters.
* Loops that are not structurally recursive run on fuel that is proved
  sufficient.
* Concurrency: tasks are values, a schedule is a list of labels; theorems
  quantify over all schedules.
* HashMaps are association lists; where iteration order matters, theorems
  quantify over the order or do not depend on it.

## Per-property plan

| id | modelled | proof idea |
|----|----------|-----------|
| C01-C03 | `fraction.rs` whole; carry loop of `horizontal.rs`/`grid.rs` (Fraction) | rationals in `Z`, gcd lemmas; induction over share list |
| C04 | `scroll.rs` whole (Scroll) | invariant by induction over operation list |
| C05,C06 | `canvas.rs` regions, clip stack, put_* (Canvas) | frame property by induction over graphemes; point-set semantics of regions |
| C07,C08 | `canvas.rs` flush*, with a terminal model (cursor, pen, grid, wide cells) | simulation row by row; history induction |
| C09-C14 | `segment.rs` split_at, `strip.rs` (Strip) | induction over graphemes/segments against "list of styled columns" |
| C15-C17, C75 | `fuzzy.rs` (Fuzzy, Rank) | induction over the query; round trip through the rich lexer/parser; score as a function of the chosen positions |
| C18-C21, C59, C74 | `rich/` lexer, tag, markup, span, style (Markup, Words) | round trip by induction; invariant of the parser stack; grammar of style words |
| C22-C25 | `tcss/parser/{cascade,stylesheet,flatten}.rs` (Css, Cascade) | declarative match relation; stable sort and fold |
| C26,C27 | comments and blocks of `tcss/parser/mod.rs` (Css, Nest) | strings, induction |
| C28-C35, C61, C62, C77 | `layouts/*.rs` (Layout, Sizes, Grid, Arrange, Absolute) | integer/rational arithmetic, loop invariants, independent description of sizes |
| C36-C39 | `tree.rs`, `containers/container.rs` focus functions, `message.rs` (Tree) | rose-tree induction against preorder list |
| C40-C43, C63 | `content.rs` (Wrap) | induction over lines/words/graphemes |
| C44-C46 | `widget/input.rs`, `widget/option_list.rs` (Input, Options) | refinement to abstract buffer / invariant over histories |
| C47, C64-C66 | `scrollbar.rs`, `containers/scrollable.rs` (Bars) | arithmetic with a rounding parameter; invariant over histories |
| C48, C60 | `keyline_canvas.rs`, `box_drawing.rs`, render_keylines of container.rs and grid.rs (Keyline) | each character determined by the lines wanted at its cell |
| C49, C50, C76 | `render_cache.rs`, `border_render.rs`, `border_box.rs`, `border_chars.rs`, styles of segment.rs/strip.rs (Row, Paint) | cell-by-cell description of rows; cache invariant over interleavings; pictures of the glyphs |
| C51, C78 | `style_resolver.rs` (Restyle) | tree induction, cascade abstract |
| C52, C56, C67, C68 | `tcss/types/color.rs` (Colour, Float32) | rational arithmetic with rounding; digit round trip; CSS formulas |
| C53 | key bindings of `lib.rs` (Keys) | grammar of binding strings |
| C54 | `context.rs` (Timers) | transition system over all schedules |
| C55, C69, C70 | event loop of `lib.rs` (Loop) | decision logic; set-up and clean-up with failures; tooltip timer |
| C57, C58 | `containers/*.rs`, `widget/screen.rs`, `widget/app_widget.rs` render and on_mouse (Pointer, Cached) | geometry of drawing against dispatch; cache invariant over histories |
| C71-C73 | `widget/command_palette.rs` (Palette) | transition system over all schedules of tasks and updates |
| C79 | `tcss/parser/variables.rs` (Variables) | text automata against references and definitions |
| C80-C83 | `tcss/parser/{mod,selectors,units,values}.rs` (Sheet) | grammar as inductive relations on texts; completeness of the parser; suffix invariants for panics |
| C84-C86 | `svg.rs` (Svg) | run merging per row against cells; reader of XML text |
| C87, C88 | `widget/{switch,button}.rs` (Press) | state machines over all histories of calls, against predicates on histories |
| C89 | class calls of `widget/{static_widget,label,button}.rs`, `containers/*.rs` (Classes) | invariant over histories; multiset of classes |
| C90 | `widget/placeholder.rs` (Holder) | greedy filling as a relation on items; arithmetic of centring |
| C91 | `widget/screen.rs` breakpoints (Screen) | induction on sorted lists and on histories of calls |
| C92 | `widget/screen.rs` layout, bars, mouse (Screen) | invariant over histories of events; extents by induction on the children |
| C93 | `widget/static_widget.rs` rendering, alignment and sizes (Static) | cells of each row from the strip and row lemmas (C49); relation between lines and rows |
| C94 | `widget/static_widget.rs` links and mouse (Static) | induction on segments and rows; invariant over histories against the rows drawn |
| C95 | `command.rs`, entries of `widget/command_palette.rs` (Command) | parser steps for the generated markup, composing C15, C16 and C18; sorting lemmas |
| C96 | `widget/header.rs` (Header) | induction on calls; parser steps; simulation of the icon by the button of C88 |
| C97 | `widget/tooltip.rs`, tooltip position in `lib.rs`, `find_hovered_tooltip_mut`, `clear_all_hover` in `tree.rs` (Tooltip) | interval arithmetic; induction on trees against their preorder |
| C98 | `collect_pending_actions_mut` in `tree.rs` (Tooltip) | induction on trees |
| C99 | `theme.rs`; `to_lab`, `from_lab`, `lighten`, `darken` in `color.rs` (Theme) | the map is a list of insertions with distinct keys (closed computation); monotonicity of rounding for the order of shades; closed computation over the table of built-in themes |
| C100 | `resolve_theme_color`, `resolve_theme_style` in `cascade.rs` (Theme) | case analysis; the last two dashes of a name by induction |
| C101 | `calculate_intrinsic_size`, `desired_size` in `container.rs` (Measure) | loop invariant: saturating sums of a stack with collapsing margins; the same stack from the gaps of C29 |
| C102 | the same in `scrollable.rs` (Measure) | the same, sums correct unless they overflowed |
| C103 | `to_snapshot`, `to_ansi_snapshot`, `get_char`, `has_bg_at` (Snapshot) | a reader of terminal escape codes as specification; induction over the cells with the look selected so far as invariant |
| C104 | `bubble_message` with the `handle_message` of screen and root (Hear) | the record of calls is split into the climb inside the screen and the two rounds; counts |
| C105 | `on_mouse_with_sender`, `focused_sender_info` (Sender) on top of Pointer and Tree | nested induction relating the widgets asked and the widgets named |
| C106 | `effective_background`, `compute_effective_background`, `rendering_style`, placeholders, `resolve_background` (Shown) on top of Colour | induction over the path from its inner end: what is told agrees with what is painted; C67 for the contrast |
| C107 | the same with opacity below 1; border and title colours (Shown) | error bounds for squaring and mixing; equalities at the ends |
| C108 | the key branch of the event loop with `dispatch_action`, default `on_key` (Keypress) | invariant over all histories relating focus mark, focus path and palette; log of who heard what |
| C109 | the same with opening, closing and `take_restore_focus` | the same invariant; a tracked index from opening to closing; a second invariant for screens without focusable widgets |
| C110 | `widget.rs` attribute methods and their overrides in `widget/*.rs`, `containers/*.rs`, `macros.rs` (Attr) | wrappers as nested constructors; the getter after a history of calls equals the last value set, by induction on calls and on boxes |
| C111 | `widget/scrollbar.rs` event by event, the colours of `types/scrollbar.rs`, `handle_scroll` (Slider) | what is shown, held and touched read off the history of events and proved by induction over it; following the pointer by field arithmetic over Q |
| C112 | all of `textual-macros`: parser over token trees, code generator, an evaluator of the generated code (Macro) | grammar as a relation between trees and tokens; parser sound for any input and complete on the grammar, by induction on trees and fuel; code generator by induction on trees |
| C113 | the size a static text asks for, the content it makes of plain text or markup, wrapped and drawn at that size (Autosize over Markup, Wrap, Static) | markup without tags over line ends as an inductive relation; lines of the text are no wider than those of the source; a line that fits goes through wrapping unchanged; placement by C93 |
| C114 | the whole way from source text to computed style: comments, variables, parsing, flattening, matching, cascade (Styled over Sheet, Variables, Css) | the rules of the text as an inductive walk with paths; the flattened list is the walk in order; a choice of one selector per level means the combined selector; priority of flattened rules is the order of paths |
| C115 | type_name, get_meta, id, child access and as_any_mut of every widget; typed queries (Name over Tree, Css) | the short name of a path by induction over its modules; the typed search by induction over the height, against the first path in document order; the two child relations by induction over paths |
| C116 | render of Ruler, LoadingIndicator and ScrollBarCorner (Mark over Canvas) | one relation "exactly these points got these cells", closed under doing one drawing after another; induction over the loops |
| C117 | collect_default_css and build_combined_css of lib.rs and testing.rs, every default_css text (Default over Name, Variables, Sheet, Styled); the order of the hash set is any permutation | concatenation lemmas for comments, lines, variables and rules; places of a sheet among several; two decisions in two orders compared by where they stand; refutations by computation |
| C118 | what sets border titles, the style and strip of a title, the row it is drawn in (Title over Markup, Wrap, Autosize, Row) | induction over calls and over lines; every word fits into usize::MAX cells, so a line is one strip; styles of tags compose with the title style by associativity; composition with C49 |
| C119 | the bulk operations of `DOMQuery` and what each kind of widget does when asked (Bulk over Name, Classes) | induction over the place in the tree; the marks passed on by screens are counted on the way down; a table of kinds by cases |
| C120 | `clear_all_hover`, `clear_hover` and `on_mouse` for moves, per kind of widget (Hover over Name, Pointer) | induction over the place in the tree; clearing several times is clearing once; then over the widgets handed the move and over the history |
| C121 | `collect_pending_actions_mut`, `take_pending_action` per kind of widget, and the step of the loop that collects (Click over Name) | the actions are listed with their places: sorted, and exactly those held; induction over the tree, the widgets handed the event and the history |
| C122 | `apply_link_style` and where it is applied, the styles of segments (Link over Wrap, Colour) | the styled lines with and without link styles are compared character by character; colours by cases and the contrast theorems of C67 |
| C123 | a sequence of drawings of a scrolling container and the drawing of containers and the screen (Stay over Bars, Scroll, Pointer) | the new position is computed in closed form for one drawing; induction over the drawings |

## Not modelled

* `rich` beyond markup and styles; the fixed parts of an SVG file;
  token handling of the proc macros (what they expand to is C112); logging; the test
  harness; `examples/`.
* The contents of Unicode tables, crossterm's byte protocol (the terminal model
  of C07/C08 interprets commands, not escape sequences), tokio itself.
* `luminance` in `color.rs`.
* Widgets whose behaviour is covered by the general ones: label,
  ruler, loading indicator, tabs of rendering details.
* Memory, time and I/O failures other than those of terminal set-up (C69).

## Findings

Behaviour that the theorems (mostly `_refuted` ones) or the modelling brought to
light. They are stated as facts of the model; none was fixed, `/repo` is
unchanged.

*Text and canvas.* Zero-width clusters write a width-0 non-continuation cell. Snapshots write a blank for the second half of a wide symbol, so what follows it is moved to the right.
`Canvas::new` multiplies in u16 (more than 65535 cells overflow). Wrapping drops
zero-width words and lines of blanks; plain wrap removes indentation and double
spaces; styled wrap exceeds the width for long words and indentation; a span
inside a character panics. A wide character can straddle the right end of a row.
Padding that does not fit and labels in boxes under six columns make rows too
wide; a row with a label between side borders is drawn without its outline.
Hatching recolours characters that are not blank; text-opacity 0 keeps underline
and strike. The border box cache ignores transparency and text attributes.

*Markup and search.* The outer colour wins over the inner one. `on RGB(1,2,3)`
and `rgb(1, 2, 3)` are rejected in tags. `Color::parse_hex` panics on texts like
`#abcdé`. Fuzzy search misses "ac" in "a_c", takes the first occurrence rather
than the best, and offsets of case-insensitive matches refer to the lowered
candidate.

*Stylesheets.* The defaults of widgets are put together in the order of a `HashSet` (lib.rs:144), which changes from run to run, although a widget can have two equally specific defaults: an `OptionList` is a `Container` too (height auto or 1fr), `HorizontalScroll` and `VerticalScroll` are `ScrollableContainer`s (layout, overflow), a `Container` laid out horizontally is a `Horizontal` (layout). The text is not made again when the program composes again, so kinds of widgets that appear later have no defaults. A declaration that follows a nested rule is applied before it: in `A { & { width: auto } width: 50% }` the width is auto. `A > B C` misses; sibling combinators never match; a selector list
uses the specificity of its first match; `.x &` never matches; an unclosed block
swallows the rest. A variable definition with a comment on its line is ignored, and
its line is dropped all the same. An unknown last property without `;` swallows the following
rules; three-value spacing is read as two values; a wrong nested rule beginning
with `&`, `.` or `#` is dropped silently, one beginning with a name rejects the
whole sheet; `;;` rejects the sheet; `!important` after text-style rejects, after
layers becomes a layer; a hatch percentage goes into the colour's alpha; `opacity:
auto` is 0; the colour `rgb)(` panics. Variable values are not resolved
recursively; a rule or second definition on a definition's line is lost; lines
beginning with `$` are dropped; definitions are global wherever they stand. Colour
mixtures are truncated; blend and inverse drop flags; hues beyond 600 degrees give
black. An inline colour keeps the automatic-contrast flag.

*Themes.* `$primary` passes through L*ab and is truncated, so it may differ by one
per channel from the colour given, while `$border` does not. `$x-lighten-4` is
full lightness, not the step after `$x-lighten-3`. `$boost 100%` keeps its 4%.
Unknown variables are white without any message.

*Colours on screen.* Automatic text is contrasted with a see-through background
of its own as if that were solid (black text on white at 10% over black), has no
colour on a transparent one, and makes borders and titles without a colour black.
See-through text is mixed with black, not with what is behind it. Opacity is not
passed on to children, and the background of a container of opacity 0 reappears
under children without one. A see-through background of the outermost widget is
laid again by every descendant without one, that of a placeholder twice under its
text. Tints of see-through backgrounds are painted and told in different orders.

*Layout.* Units `w`, `h`, `vw`, `vh` are taken as cells across the layout
direction; margins are taken out of cell heights in rows; min/max width of fr
children is not redistributed; widths go negative when docks exceed the container;
percent heights are counted against the terminal but placed against the
container. Grids drop children when spans are not counted in automatic rows; a
minimum track size of 1 overflows small containers. Docks on one edge or corner
overlap. Layers listed twice place children twice. Containers of automatic size
cut children that wrap, have minimum sizes, exceed 1000 cells or stand in a grid,
and leave room for floating children; scrollable ones count the first margin
twice and stop a debug build with 66 filling children.

*Scrolling.* `Container` records the arrangement without bars first, so that content which is longer beside the bar cannot be scrolled to its end (C123_end_refuted). When content and viewport change together, the position is first clamped with the size the viewport had before (container.rs:851, scrollable.rs:536), so it may jump although it is still valid. The thumb may exceed its track by one cell with f32; long content
cannot be dragged to its end; a drag of zero moves the content; PageDown is stuck
at viewport height 1; a container with only a horizontal bar cannot show its last
row; a bar wider than its area spills out. The stand-alone `ScrollBar` widget ignores a button release that is not over it, so the thumb stays held and the next drag over the bar scrolls (C111_release_refuted); its drag uses the unclamped thumb size, so a thumb that is drawn one cell long because it ought to be shorter cannot be dragged to the end (C111_short_thumb_refuted); content exactly as long as the bar has no thumb, and a press on its first cell scrolls down (C111_equal_refuted); starting a drag rounds the position down to the start of a cell (C111_jump_refuted).

*Focus and mouse.* The title and clock of a header and inputs pass clicks to the static inside but have no `take_pending_action`: a link there is never performed. The non-mutable `collect_pending_actions` ignores children (unused). The title and clock of a header, inputs and the search icon pass mouse moves to the static inside but not `clear_hover`, so that a link once hovered stays so. A move over anything ends the press of a switch (`clear_hover` clears `active` too), but not that of a button or header icon. `query("App")` never finds the application (its name there is AppWidget), a boxed widget is `Widget` in queries, and `query("Static")` does not find the labels a rule for `Static` styles. The parts of headers and lists of options cannot be queried. `query_one_as` can never find grids, scrolling containers, Vertical, Horizontal, Center, Middle, placeholders or scroll bars, as these do not answer `as_any_mut`; contrary to its documentation it goes on behind a widget of the wrong type. The root asks the box around a child whether it blocks the mouse, and `impl Widget for Box` does not forward the question, so an open palette never blocks there (C57_open_palette_refuted; the main loop sends mouse events to an open palette directly, which hides the fault). A click on a widget inside `Center` or `Middle` is reported as coming from that container. The screen and the root hand a message on to all their children, so a child of the screen hears one up to three times, even its own; the answers of the last round are lost. The focus path ignores hidden widgets; a hidden widget keeps
the focus. Screen scrolls docked and absolute children when drawing but not in
mouse look-up. A button released elsewhere stays active. Container mouse handling
ignores border and padding. A centred child may spill beyond its parent.

*Event loop and palette.* In an application without a focusable widget the focus path leads from the start to the input line of the hidden palette, and opening the palette keeps that stale path (`update_focus` returns early when the index is unchanged): Esc, Enter and typing never reach the palette, `on_key` is suppressed, and only the mouse closes it. The default `on_key` quits on `q` even if an input took it. Actions chosen in the palette run before the focus is given back, so a focus change by a command is undone; a command that reopens the palette loses the focus to restore. The commands Keys, Maximize, Screenshot and Theme do nothing by default. Press and release of a key are not told apart. A palette closed by a message handler gives the focus back only at the next key or click. Keys and messages do not redraw unless the focus moved,
a recompose was asked for or the palette changed; a failure while setting up, or a
panic, leaves the terminal raw; an interval may tick after `cancel()`. Bindings
cannot name `,`, `+`, function keys, Delete or Backspace. Enter right after typing
runs a command of the old list; late results shift the highlighted command.

*Widgets.* `ItemGrid`'s `max_column_width`, `stretch_height` and `regular` are stored but no layout reads them. `Label::with_classes` after `with_variant` loses the class of the variant, and `with_variant` twice keeps both. `content_height_for_scroll` and `content_width_for_scroll` are called only by themselves (container.rs:1041-1344), so they have no effect. `link-style` cannot remove the underline of a link that is not hovered, and under the pointer an underline from the markup is dropped; links with the same action are highlighted together; without a `link-color` the colour of the text is replaced by a contrasting one. `ItemGrid::desired_size` multiplies the number of children as u16 without a check. `set_visible` has an effect on three kinds of widgets only (switch, loading indicator, command palette); `set_disabled` and the class methods are silently ignored by many kinds, among them all layout containers but `Container` and `ScrollableContainer`. The trait's `set_visible` of the loading indicator does not ask for a redraw. `VerticalScroll::with_border_title` and `HorizontalScroll::with_border_title` have no effect: they call the empty default of the inner `ScrollableContainer`. `Vertical` and `Horizontal` do not forward `set_border_title` and `border_title`, so queries neither set nor see their titles. The spaces of a title are collapsed only if it has no tags. A loading indicator draws its character even if its region is empty, and `Widget::set_visible` hides it without marking it for a redraw, unlike its own `set_visible`. A static text of automatic width counts the tags of its markup as text (`[b]hi[/]` asks for 8 columns), and a tag with a newline in it makes the room too narrow for the text; a line of 65536 cells asks for a width of 0. `set_visible(false)` does nothing on any widget but a switch, a loading indicator and the palette, also through `query(…).set_visible`; an `OptionList` cannot be disabled; `Vertical`, `Horizontal` and the scrolling containers drop border titles (and classes, tooltips and downcasts, not modelled); hiding a loading indicator does not mark it (C110). In an SVG screenshot plain text at the end of a row (or all of a plain
canvas) is missing, palette colours are black, dim and reverse are ignored, title
and background of the configuration are not used. A button left while pressed
fires at the next release over it, and keys press it without the focus.
Widgets that wrap static text (Label, Button, Input, parts of the header) push a
class again when it is added again and are not marked dirty by it, so the class
has no effect on styles until something else changes; `set_classes` of a button
loses its variant and style classes; `set_variant` panics on unknown names. A
placeholder drops lines of blanks, draws labels with more lines than its height
below itself, and cuts its text variant at the height it asked for. On the
screen, breakpoints not in increasing order give the wrong class, the wheel skips
rows in windows lower than three, a vertical bar can appear over content no room
was made in, and a stable gutter cuts off children that fit. In a static text
text-align acts inside the block of lines only, except with content-align left and
top; a title without a top border takes a row the height does not count and shifts
links by one row; automatic width counts markup tags as text. The palette does not
offer "Quit" for "qt". Brackets in header titles are taken as markup, links in them
do nothing, and replacing the classes of a tall header makes it low for good.
Tooltips are cut off at the right and the bottom (not shown at all for a pointer in
the last row), are beside the pointer when long, and only the icon of the header can
have one: `Static` keeps a tooltip but never reports hover, buttons and switches
report hover but keep no tooltip. In `ui!`, two splats in a row (`..a ..b`) are read as the one range `a..b` (C112_two_splats_refuted); commas between arguments may be forgotten (C112_commas_refuted); named attributes are evaluated after the children written behind them (C112_order_refuted).

*Keylines.* Boxes one cell wide or high leave stubs; container keylines overwrite
the first and last cells of children; half-line glyphs are reversed, two heavy
junctions are exchanged, sixteen mixed glyphs are missing.
