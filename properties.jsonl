{"id": "C01", "title": "Fraction values are canonical", "statement": "Every Fraction obtained from new, +, -, *, mul_ratio or fract has a positive denominator coprime to its numerator, and two of them are structurally equal exactly when they denote the same rational number; arithmetic denotes rational arithmetic.", "quantifier": "all integer numerators and denominators, all expressions built from them (no i64 overflow)", "why_tests_cant": "canonicity and the field laws range over infinitely many rationals", "anchors": ["crates/textual/src/fraction.rs: Fraction::new, from_i64, mul_ratio, Add, Sub, Mul, gcd"]}
{"id": "C02", "title": "Fraction floor and fract split a value exactly", "statement": "floor() is the greatest integer not above the value (negative values included), fract() is in [0,1), and floor + fract equals the value.", "quantifier": "all rationals", "why_tests_cant": "boundary cases of truncating division occur at infinitely many negative numerators", "anchors": ["crates/textual/src/fraction.rs: floor, fract"]}
{"id": "C03", "title": "Remainder-carry space division loses no cell", "statement": "Handing out integer cells by adding each exact share to a carried remainder and keeping the fraction gives after k shares exactly the floor of the sum of the first k exact shares; when the shares sum to an integer total, the cells sum to that total; each share gets its floor or its ceiling.", "quantifier": "all lists of non-negative rational shares, of any length", "why_tests_cant": "rounding drift depends on the whole history of shares", "anchors": ["crates/textual/src/fraction.rs", "crates/textual/src/layouts/horizontal.rs: arrange (remainder carry)", "crates/textual/src/layouts/grid.rs: distribute_space"]}
{"id": "C04", "title": "Scroll offsets always stay in range", "statement": "After any sequence of ScrollState operations with non-negative scroll amounts, both offsets lie between 0 and max(0, virtual - viewport). (A negative scroll amount breaks the range: the code clamps only one side.)", "quantifier": "all operation histories and all sizes", "why_tests_cant": "an invariant over unbounded histories of resize/scroll operations", "anchors": ["crates/textual/src/scroll.rs: ScrollState"]}
{"id": "C05", "title": "Drawing never escapes the clip region or the canvas", "statement": "No drawing operation on a Canvas, whatever its coordinates, text or grapheme widths, changes a cell outside the canvas or outside the intersection of the pushed clip regions.", "quantifier": "all canvases, clip stacks, positions, texts, styles and width assignments", "why_tests_cant": "every coordinate including negative and overflowing ones", "anchors": ["crates/textual/src/canvas.rs: put_char, put_str, put_grapheme, render_strip, push_clip, current_clip"]}
{"id": "C06", "title": "Clips only ever shrink and pop restores", "statement": "Pushing a clip can only reduce the drawable region (to the exact intersection), popping restores the previous one, for any nesting; Region::intersection contains exactly the points contained in both.", "quantifier": "all regions with in-range coordinates, all nestings", "why_tests_cant": "set-theoretic statement over all points and nestings", "anchors": ["crates/textual/src/canvas.rs: Region::intersection, contains_point, push_clip, pop_clip, current_clip"]}
{"id": "C07", "title": "Differential flush shows exactly the new frame", "statement": "If the terminal shows the previous frame, then after flush it shows the current frame - the same screen a full repaint would give - for all well-formed frames (every wide grapheme followed by its continuation cells). For ill-formed frames (a wide cell whose continuation cell was overwritten) the claim is false.", "quantifier": "all pairs of frames of equal size, any cursor/pen state at the start", "why_tests_cant": "the set of changed cells is an arbitrary subset of the grid", "anchors": ["crates/textual/src/canvas.rs: flush, flush_full, flush_diff, emit_cell"]}
{"id": "C08", "title": "Frame history: the terminal always mirrors the canvas", "statement": "After any sequence of draw/clear/invalidate/flush operations starting with a fresh canvas, the terminal shows the frame of the last flush.", "quantifier": "all histories of frames", "why_tests_cant": "an invariant over unbounded histories of frames", "anchors": ["crates/textual/src/canvas.rs: flush, clear, invalidate"]}
{"id": "C09", "title": "Splitting a segment loses nothing", "statement": "split_at(cut) returns two segments whose texts concatenate to the original text, keep its style and metadata, and the left one is exactly cut cells wide unless a wide grapheme straddles the cut (then it keeps the grapheme whole) or the text is shorter.", "quantifier": "all texts, grapheme widths and cut positions", "why_tests_cant": "all positions relative to all width sequences", "anchors": ["crates/textual/src/segment.rs: split_at"]}
{"id": "C10", "title": "Strip crop returns exactly the requested columns", "statement": "For strips whose graphemes are one cell wide, crop(start,end) is exactly the columns [start,end) of the strip with their styles. With wide graphemes the result may be wider than requested (refuted in general).", "quantifier": "all strips, all start/end", "why_tests_cant": "all segmentations of the same line into segments must agree", "anchors": ["crates/textual/src/strip.rs: crop"]}
{"id": "C11", "title": "Strip divide partitions the strip", "statement": "For one-cell graphemes and increasing cuts, the pieces of divide(cuts) concatenate to the strip cut off at the last cut, and each piece is the columns between consecutive cuts. With wide graphemes a column can appear twice (refuted in general).", "quantifier": "all strips and cut lists", "why_tests_cant": "cuts interact with segment boundaries in unboundedly many ways", "anchors": ["crates/textual/src/strip.rs: divide"]}
{"id": "C12", "title": "Strip simplify and join do not change what is shown", "statement": "simplify merges runs without changing the styled text or the cell length; join concatenates; metadata is not kept by a merge (finding).", "quantifier": "all strips", "why_tests_cant": "all segment sequences", "anchors": ["crates/textual/src/strip.rs: simplify, join"]}
{"id": "C13", "title": "Strip adjust_cell_length and text_align give the requested width", "statement": "For one-cell graphemes, adjust_cell_length(n) has exactly n cells and is a prefix of the strip plus padding; text_align(a,w) has exactly w cells and contains the (possibly cropped) content contiguous at the left/centre/right.", "quantifier": "all strips, widths, alignments", "why_tests_cant": "all widths and strips", "anchors": ["crates/textual/src/strip.rs: adjust_cell_length, text_align"]}
{"id": "C14", "title": "Strip justify spreads spaces and nothing else", "statement": "For one-cell graphemes and a strip narrower than the width with at least one space, justify(w) is exactly w cells wide, keeps every non-space grapheme with its style in order, only widens spaces, each by the same amount up to one cell, later gaps receiving the odd cells. Without a space the strip is left-aligned with padding; a longer strip is cropped.", "quantifier": "all strips and widths", "why_tests_cant": "all distributions of spaces", "anchors": ["crates/textual/src/strip.rs: justify"]}
{"id": "C15", "title": "Fuzzy match offsets witness the query", "statement": "When match_candidate reports a match its offsets are strictly increasing positions of the candidate, one per query character, and the characters there are the query in order (case-folded when not case sensitive).", "quantifier": "all queries and candidates", "why_tests_cant": "all pairs of strings", "anchors": ["crates/textual/src/fuzzy.rs: match_candidate"]}
{"id": "C16", "title": "Fuzzy match finds every subsequence (refuted)", "statement": "A query whose characters occur in order in the candidate is matched. The code misses such candidates because it shrinks the scan range; a criterion when a match is reported is proved and a missed candidate exhibited.", "quantifier": "all queries and candidates", "why_tests_cant": "an existential over all positions", "anchors": ["crates/textual/src/fuzzy.rs: match_candidate"]}
{"id": "C17", "title": "Highlighting never alters the candidate text", "statement": "The markup produced by Matcher.highlight parses to exactly the candidate text, with the highlight spans covering exactly the matched characters.", "quantifier": "all candidates and match results, with any brackets or backslashes", "why_tests_cant": "composition of an escaper and a parser over all strings", "anchors": ["crates/textual/src/fuzzy.rs: highlight, escape", "crates/rich/src/parser/markup.rs: parse"]}
{"id": "C18", "title": "Markup escaping round-trips", "statement": "Parsing the escaped form of any string succeeds and yields that string as text with no spans.", "quantifier": "all strings", "why_tests_cant": "all strings including brackets, backslashes and their combinations", "anchors": ["crates/rich/src/parser/lexer.rs: tokenize", "crates/textual/src/command.rs: escape_markup", "crates/textual/src/widget/input.rs: escape_markup"]}
{"id": "C19", "title": "Parsed markup spans are well formed", "statement": "Every span returned by the parser lies inside the text, is non-empty, and the spans of the opened tags nest (end at or before the enclosing close).", "quantifier": "all token streams and so all markup strings", "why_tests_cant": "all nestings of tags", "anchors": ["crates/rich/src/parser/markup.rs: parse", "crates/rich/src/span.rs"]}
{"id": "C20", "title": "Rendered segments are the text, each with the styles of its spans", "statement": "Splitting parsed markup into segments loses no character: segments concatenate to the text and each character carries the fold of exactly the spans covering it.", "quantifier": "all texts and span lists", "why_tests_cant": "all overlap patterns of spans", "anchors": ["crates/rich/src/markup.rs: to_segments", "crates/rich/src/span.rs"]}
{"id": "C21", "title": "Inner tag styling wins over outer (refuted)", "statement": "In nested tags the innermost setting of an attribute applies. The code applies spans in closing order so an outer colour overrides an inner one.", "quantifier": "all nestings", "why_tests_cant": "all nestings", "anchors": ["crates/rich/src/parser/markup.rs: parse", "crates/rich/src/markup.rs: to_segments"]}
{"id": "C22", "title": "A style rule that matches, matches for a reason", "statement": "If selector matching accepts a widget then there is an assignment of the selector compounds to the widget and its ancestors satisfying every combinator (soundness); and every such assignment is found when no child combinator is to the left of a descendant combinator (completeness on that fragment); outside the fragment matches are missed (refuted).", "quantifier": "all selectors, widgets and ancestor chains", "why_tests_cant": "all ancestor chains and all selectors", "anchors": ["crates/tcss/src/parser/cascade.rs: matches_complex, matches_compound"]}
{"id": "C23", "title": "Specificity is a lexicographic total preorder that adds up", "statement": "Specificity comparison is ids, then classes/states, then types, lexicographically; it is total and transitive and the specificity of a complex selector is the sum of those of its parts, so adding a condition never lowers it.", "quantifier": "all selectors", "why_tests_cant": "order laws over all triples", "anchors": ["crates/tcss/src/parser/stylesheet.rs: Specificity, Selector::specificity"]}
{"id": "C24", "title": "Cascade: the last rule of highest priority wins per property", "statement": "For every property, the computed value is that of the matching rule greatest in (specificity, source order); rules that do not match have no effect; with a selector list the code uses the specificity of the first matching selector, not the highest (refuted for lists).", "quantifier": "all stylesheets, widgets, ancestor chains, property assignments", "why_tests_cant": "a statement about all stylesheets (sort stability, fold of overrides)", "anchors": ["crates/tcss/src/parser/cascade.rs: compute_style"]}
{"id": "C25", "title": "Nested rules mean what CSS nesting says", "statement": "A flattened nested rule matches a widget iff the nested selector matches with & standing for an element matched by the parent, for selectors where & appears only in the first compound; an & in a later compound never matches (refuted).", "quantifier": "all parent selectors, nested selectors, element chains", "why_tests_cant": "all nestings of selectors and all ancestor chains", "anchors": ["crates/tcss/src/parser/flatten.rs: flatten_rule, combine_selectors"]}
{"id": "C26", "title": "Comment stripping removes every comment and nothing else", "statement": "strip_comments output contains no comment opener, leaves comment-free input unchanged, is idempotent and keeps everything outside comments.", "quantifier": "all input strings", "why_tests_cant": "all strings, including nested and unterminated openers", "anchors": ["crates/tcss/src/parser/mod.rs: strip_comments"]}
{"id": "C27", "title": "Balanced block extraction", "statement": "The block taken by brace matching is the shortest balanced block: it ends at the brace matching its first open brace, for any nesting depth, and nothing is lost (taken and remaining concatenate to the input); a block that is never closed swallows all the rest of the stylesheet.", "quantifier": "all inputs", "why_tests_cant": "unbounded nesting depth", "anchors": ["crates/tcss/src/parser/mod.rs: take_until_balanced_braces"]}
{"id": "C28", "title": "Horizontal layout hands out every fr cell", "statement": "In a horizontal layout the widths given to fr children sum to exactly the width left by the other children and the margins, and each is within one cell of its exact share, so the row fills its container (unless an fr child has a minimum or maximum width: refuted there).", "quantifier": "all child lists, fr values and widths", "why_tests_cant": "rounding over all lists", "anchors": ["crates/textual/src/layouts/horizontal.rs: arrange"]}
{"id": "C29", "title": "Siblings in a row or column never overlap", "statement": "Children placed by the horizontal (vertical) layout get regions in document order that do not overlap along the main axis, with at least the collapsed margin (max of adjoining margins) between consecutive ones.", "quantifier": "all child lists, margins, sizes", "why_tests_cant": "all child lists", "anchors": ["crates/textual/src/layouts/horizontal.rs", "crates/textual/src/layouts/vertical.rs"]}
{"id": "C30", "title": "Vertical layout accumulates fractional heights without gaps", "statement": "Region heights are differences of floors of consecutive exact positions: without margins children tile [y, floor(sum of heights)) exactly, and the error of each height is less than one row; fr columns fill the container (refuted with margins on fr children and in containers lower than the viewport).", "quantifier": "all lists of fractional heights", "why_tests_cant": "drift over unbounded lists", "anchors": ["crates/textual/src/layouts/vertical.rs: arrange"]}
{"id": "C31", "title": "Grid auto-placement never puts two children in one cell", "statement": "Any list of children with any row/column spans gets cell rectangles that are pairwise disjoint, in bounds of the columns, in document order of placement.", "quantifier": "all child lists and spans", "why_tests_cant": "an invariant of a placement loop over unbounded child lists", "anchors": ["crates/textual/src/layouts/grid.rs: OccupancyGrid, compute_cell_assignments"]}
{"id": "C32", "title": "Grid tracks tile the container", "statement": "Column widths plus gutters sum to the available size when all tracks are fr and space suffices; track positions are consecutive prefix sums so that adjacent tracks neither overlap nor leave gaps other than the gutter.", "quantifier": "all track lists and sizes", "why_tests_cant": "all track lists", "anchors": ["crates/textual/src/layouts/grid.rs: distribute_space, resolve_tracks, child_region"]}
{"id": "C33", "title": "Docked widgets keep inside their edge and the content gets the rest", "statement": "Each docked child is placed at its edge with the full length of that edge; the content region is the container minus the largest docked size on each edge; it is non-negative when docks fit (and can go negative otherwise: refuted).", "quantifier": "all dock lists", "why_tests_cant": "all dock lists", "anchors": ["crates/textual/src/layouts/mod.rs: arrange_docked_widgets"]}
{"id": "C34", "title": "Layered arrangement places every child exactly once", "statement": "arrange_children_with_layers returns exactly one placement for each participating child, grouped by layer in declared order; refuted if the layers list names a layer twice.", "quantifier": "all child lists and layer lists", "why_tests_cant": "permutation statement over all lists", "anchors": ["crates/textual/src/layouts/mod.rs: arrange_children_with_layers, build_layers"]}
{"id": "C35", "title": "Alignment translates children rigidly", "statement": "Alignment moves all flow children by one common offset; bounding box ends up aligned within the region; sizes and relative positions unchanged.", "quantifier": "all placements and regions", "why_tests_cant": "all placement lists", "anchors": ["crates/textual/src/layouts/mod.rs: apply_alignment"]}
{"id": "C36", "title": "Focus traversal visits every focusable widget cyclically", "statement": "In any widget tree focus_next repeated n times (n = number of focusable widgets) focuses each exactly once in document order and returns to the start; focus_previous undoes focus_next.", "quantifier": "all trees, all start positions", "why_tests_cant": "all trees and cycle lengths", "anchors": ["crates/textual/src/tree.rs: focus_next, focus_previous, set_focus_index", "crates/textual/src/containers/container.rs: focus_nth, count_focusable"]}
{"id": "C37", "title": "At most one widget is focused and the focus path leads to it", "statement": "After set_focus_index exactly the widget of that index among the visible ones has focus; in a tree without hidden widgets the stored path leads to it after any history of focus changes; focus_by_id focuses the first visible focusable widget with the id. Refuted with hidden widgets: the stored path may lead to a hidden widget, and a focused widget that was hidden keeps its focus.", "quantifier": "all trees and histories", "why_tests_cant": "global invariant over all trees", "anchors": ["crates/textual/src/tree.rs: set_focus_index, update_focus, find_focus_path_recursive", "crates/textual/src/containers/container.rs: clear_focus"]}
{"id": "C38", "title": "DOM queries return exactly the matching widgets in document order", "statement": "count is the number of matching widgets, for_each visits each exactly once in preorder, first/last are the first/last in that order; a filter narrows the selection (refuted for a second filter, which replaces the first); descendant selectors are refuted.", "quantifier": "all trees and selectors", "why_tests_cant": "all trees", "anchors": ["crates/textual/src/tree.rs: DOMQuery, find_all_and_apply, query_one, parse_simple_selector"]}
{"id": "C39", "title": "Messages bubble to each ancestor once, innermost first, until stopped", "statement": "A message posted by a focused widget is offered to the handlers of its ancestors from the parent to the root, each exactly once, and to none after bubbling was stopped. (What the handlers of the screen and the root do with it is C104.)", "quantifier": "all trees, paths and handlers", "why_tests_cant": "all paths and handler behaviours", "anchors": ["crates/textual/src/tree.rs: bubble_message", "crates/textual/src/message.rs"]}
{"id": "C40", "title": "Line splitting is lossless", "statement": "Content::lines joined by newline gives back the text; no line contains a newline; the spans of each line are the spans of the text restricted and shifted.", "quantifier": "all texts and span lists", "why_tests_cant": "all texts and spans", "anchors": ["crates/textual/src/content.rs: lines, split, lines_with_spans"]}
{"id": "C41", "title": "Wrapping keeps every word and respects the width", "statement": "Lines are filled greedily with the words of the text in order, long words are cut into pieces that fill lines, and no line exceeds the width provided that every grapheme fits; an empty line stays. Words that take up no room and lines of spaces are lost (refuted).", "quantifier": "all texts and widths", "why_tests_cant": "all word-length sequences", "anchors": ["crates/textual/src/content.rs: wrap_line, break_word"]}
{"id": "C42", "title": "Wrapped styled text may exceed the width (refuted)", "statement": "Wrapping styled text keeps every non-blank character with its style, in order, and never panics; its lines are those of the plain text, hence not too wide, when all words fit and are one space apart. Refuted otherwise: long words and indentation exceed the width.", "quantifier": "all texts, spans and widths", "why_tests_cant": "all texts", "anchors": ["crates/textual/src/content.rs: wrap_line_with_spans"]}
{"id": "C43", "title": "Styled lines render every character once with its span styles", "statement": "render_line_with_spans yields segments that concatenate to the line, and the style of each character is the base style overlaid with the spans covering it in order.", "quantifier": "all lines and spans", "why_tests_cant": "all overlap patterns", "anchors": ["crates/textual/src/content.rs: render_line_with_spans"]}
{"id": "C44", "title": "The Input widget is a text buffer", "statement": "No history of keys, values, cursor positions and states makes an Input panic. Over any history in which only characters are used that form grapheme clusters of their own, an enabled Input is exactly a text with a gap at the cursor: typing inserts at the gap, Backspace/Delete remove the neighbour, arrows/Home/End move the gap, and the cursor never leaves the text. With combining characters the cursor can pass the end of the text and a Left key can be lost (refuted).", "quantifier": "all histories of keys, set_value, set_cursor, focus and enable changes", "why_tests_cant": "unbounded histories over arbitrary Unicode strings", "anchors": ["crates/textual/src/widget/input.rs"]}
{"id": "C45", "title": "What an Input shows is its value", "statement": "The markup displayed by an Input parses to its value, character for character, whatever markup characters it contains; when focused the cell at the cursor is reversed, or one extra blank reversed cell follows the text when the cursor is at its end; an empty Input shows its placeholder.", "quantifier": "all values, placeholders, cursor positions and focus states", "why_tests_cant": "all strings including markup characters", "anchors": ["crates/textual/src/widget/input.rs: build_display, escape_markup"]}
{"id": "C46", "title": "OptionList selection is always an available option", "statement": "After any history of set_items / set_selected / arrow keys / clicks / focus changes / resizes the selected index is in range and is an enabled option whenever one exists; Down and Up move to the nearest enabled option in their direction and never wrap; exactly the selected enabled option is highlighted, each option is shown once, in order and literally; releasing the mouse over a row selects and reports the option that owns that row. A report not yet collected when the items change may lie outside the list (refuted).", "quantifier": "all histories of operations, all item lists and states, all rows", "why_tests_cant": "unbounded histories of item changes, keys and clicks", "anchors": ["crates/textual/src/widget/option_list.rs: OptionList"]}
{"id": "C47", "title": "The scroll bar shows where the content is", "statement": "The bar is painted cell by cell: eighth by eighth the thumb shows exactly between its two ends and the track elsewhere, and nothing outside the bar is touched. With exact arithmetic the thumb stays within the track, is at the very start at offset 0, at the very end at the maximal offset, never moves back as the offset grows, and is as long as the visible share of the content but at least one cell. With f32 rounding it may end one cell past the track (refuted), and content exactly as long as the track shows no thumb (refuted).", "quantifier": "all bar regions, content and window sizes and offsets, any monotone rounding that keeps integers below 2^24", "why_tests_cant": "all sizes and rational positions", "anchors": ["crates/textual/src/scrollbar.rs: ScrollBarRender, render_vertical, render_horizontal, thumb_bounds"]}
{"id": "C48", "title": "Keylines show exactly the wanted lines", "statement": "Adding boxes in any order gives the same canvas. For boxes at least two cells wide and high, for grids of lines at increasing positions and for grids with spanning widgets, exactly the cells crossed by a line get one character, nothing is drawn outside the window, and each character shows, by its Unicode name, exactly the lines through its cell, so neighbouring cells agree on their common edge. A row or column container with keylines draws a frame and a line after each child; a grid draws a frame and lines between cells of different children, and with gutters these never cover a child.", "quantifier": "all sets of boxes, line positions, occupancies, canvas sizes, window positions and line styles", "why_tests_cant": "pictures of lines combine at every cell; tests look at a few corners", "anchors": ["crates/textual/src/keyline_canvas.rs: add_widget_box, add_grid, add_grid_with_occupancy, render", "crates/textual/src/box_drawing.rs: get_box_char", "crates/textual/src/containers/container.rs: render_keylines", "crates/textual/src/containers/grid.rs: render_keylines"]}
{"id": "C49", "title": "Every rendered row is exactly as wide as its region", "statement": "render_line returns exactly width cells for every row when borders and padding fit in the width (one-cell text); refuted when they do not.", "quantifier": "all styles, widths, heights, contents", "why_tests_cant": "all combinations of borders, paddings and widths", "anchors": ["crates/textual/src/render_cache.rs: render_line", "crates/textual/src/border_render.rs"]}
{"id": "C50", "title": "Border box cache is transparent (refuted)", "statement": "get_box returns what generate_box would, whatever was requested before. Holds if styles are determined by their cache key; refuted because alpha and text attributes are not in the key.", "quantifier": "all histories of requests", "why_tests_cant": "unbounded histories", "anchors": ["crates/textual/src/border_box.rs: get_box"]}
{"id": "C51", "title": "Incremental restyle equals full restyle", "statement": "After resolve_dirty_styles every visible widget has exactly the style a full restyle would give, provided each changed widget was marked dirty.", "quantifier": "all trees, stylesheets, sets of changed widgets", "why_tests_cant": "all trees and dirty sets", "anchors": ["crates/textual/src/style_resolver.rs"]}
{"id": "C52", "title": "Mixed colours lie between the two colours mixed", "statement": "blend, blend_toward, tint and blend_over give each channel between the channels of the two colours (tint and blend_over for alphas from 0 to 1), are the first and the second colour at the two ends, move monotonically with the factor and are the exact value cut to a whole number up to 1/1000. inverse undoes itself on channels and alpha and exchanges dark and light; opacity never makes a colour more opaque. Refuted: mixtures are cut, not rounded; a palette colour mixed with itself becomes plain black; a tint alpha above one overshoots.", "quantifier": "all colours, factors and roundings of f32 arithmetic", "why_tests_cant": "all byte pairs and factors", "anchors": ["crates/tcss/src/types/color.rs: blend, blend_toward, tint, blend_over, inverse, with_opacity"]}
{"id": "C53", "title": "Key bindings match exactly their keys", "statement": "A binding string matches a key event iff one alternative has that key and its modifiers hold; modifiers other than shift that were not asked for reject.", "quantifier": "all bindings and events", "why_tests_cant": "all strings", "anchors": ["crates/textual/src/lib.rs: matches_binding, match_binding_part, parse_key_token"]}
{"id": "C54", "title": "A cancelled interval delivers no more messages", "statement": "After the cancellation is processed an interval never posts again; each tick posts exactly one message; messages arrive in order.", "quantifier": "all interleavings of ticks, cancellations and receives", "why_tests_cant": "all schedules", "anchors": ["crates/textual/src/context.rs: set_interval, IntervalHandle, set_timer"]}
{"id": "C55", "title": "State changes become visible (refuted)", "statement": "After an event that changes what would be drawn the screen is redrawn before the loop waits again: holds for mouse, resize, tick with changes; refuted for key and async message events that change state without changing the focus.", "quantifier": "all event sequences", "why_tests_cant": "all schedules", "anchors": ["crates/textual/src/lib.rs: event_loop_async"]}
{"id": "C56", "title": "Hexadecimal colours mean their digits", "statement": "#RRGGBB and #RRGGBBAA in either case give the bytes written, #RGB and #RGBA mean each digit twice; after a # exactly 3, 4, 6 or 8 hexadecimal digits are accepted, everything else is an error and never a crash.", "quantifier": "all strings", "why_tests_cant": "all strings", "anchors": ["crates/tcss/src/types/color.rs: parse, parse_hex"]}
{"id": "C57", "title": "Mouse events reach the widget drawn under the pointer", "statement": "In a tree of widgets, the leaf widget seen at a cell is the first to be handed a press, release, drag or move there, with the region it was drawn at; nobody who has not drawn the cell is asked; an answer ends the search; nothing beneath a child that the root sees as blocking hears of it, but the root asks the box around a child, which does not pass the question on, so that an open palette does not block (refuted). The order needs that containers and grids have no border or padding, that sizes do not depend on vw/vh in partial regions, that siblings do not overlap at the point, that a scrolled screen has no docked children, and that centred children fit: each is refuted otherwise.", "quantifier": "all trees, regions, points, scroll states and answers", "why_tests_cant": "all trees and points", "anchors": ["crates/textual/src/containers/container.rs: on_mouse, render", "crates/textual/src/containers/scrollable.rs: on_mouse, render", "crates/textual/src/containers/grid.rs: on_mouse, render", "crates/textual/src/widget/screen.rs: on_mouse, render", "crates/textual/src/widget/app_widget.rs: on_mouse"]}
{"id": "C58", "title": "The layout a container keeps is the one it would compute afresh", "statement": "Whatever the history of changes and drawings, the arrangement a container uses is the fresh one if it was told of every change to a child before it was next drawn, and always when it is drawn at another place or terminal size; a child that changes without the container being told keeps its old place however often it is drawn (refuted).", "quantifier": "all histories of changes and drawings", "why_tests_cant": "unbounded histories", "anchors": ["crates/textual/src/containers/container.rs: compute_child_placements, mark_dirty, set_style"]}
{"id": "C59", "title": "Parsing ASCII markup never panics", "statement": "Parsing any ASCII markup returns Ok or Err, never a panic. For non-ASCII input this is false: a hexadecimal colour whose byte length is 3 or 6 but whose character count is not crashes the parser.", "quantifier": "all ASCII strings", "why_tests_cant": "all strings", "anchors": ["crates/rich/src/parser/markup.rs: parse", "crates/rich/src/color.rs: parse_hex"]}
{"id": "C60", "title": "Grid keylines show the cells children are in", "statement": "The occupancy and the line positions that keylines are drawn from agree with the arrangement: a cell is marked with a child exactly when the arrangement gives that cell to it, and lines run along the track boundaries.", "quantifier": "all child lists, spans and grid sizes", "why_tests_cant": "two independent placement loops must agree on every input", "anchors": ["crates/textual/src/layouts/grid.rs: compute_track_info, compute_cell_assignments, arrange"]}
{"id": "C61", "title": "Offsets and absolute children leave siblings alone", "statement": "An offset moves its own widget by the stated amount and changes nothing else; an absolutely positioned child sits at the top left corner of what docks leave and does not influence where the other children go.", "quantifier": "all child lists, layouts, offsets", "why_tests_cant": "non-interference over all child lists", "anchors": ["crates/textual/src/layouts/mod.rs: apply_offset, resolve_absolute_placement, arrange_children_with_viewport"]}
{"id": "C62", "title": "Every child is given a place exactly once", "statement": "In rows and columns each child, docked, absolute or in the flow, gets exactly one placement; in a grid at most one.", "quantifier": "all child lists", "why_tests_cant": "permutation over all lists", "anchors": ["crates/textual/src/layouts/mod.rs: arrange_children_with_viewport"]}
{"id": "C63", "title": "Overflow modes cut lines where they say", "statement": "Without wrapping, text of one-cell clusters is folded into parts of exactly the width (but the last), clipped to its first cells, or cut with an ellipsis in the last cell; only the last part of a source line is marked as its end.", "quantifier": "all contents, spans, lines and widths", "why_tests_cant": "all texts and widths", "anchors": ["crates/textual/src/content.rs: wrap_with_line_end_overflow, split_strip_by_width, truncate_with_ellipsis"]}
{"id": "C64", "title": "Clicks and drags on a scroll bar move the content where they point", "statement": "A press on the thumb grabs it, a press beside it scrolls towards the press by at most one screenful and changes nothing else; dragging moves the thumb to within one cell of the pointer (exact arithmetic, thumb at least a cell long) and never scrolls back when dragged further. Refuted: holding the thumb still may scroll, and long content cannot be dragged to its end.", "quantifier": "all layouts, positions and drag distances", "why_tests_cant": "all sizes and pointer positions", "anchors": ["crates/textual/src/containers/scrollable.rs: on_mouse, handle_vertical_scrollbar_click, handle_scrollbar_drag"]}
{"id": "C65", "title": "No history of input takes a scrolling container out of range", "statement": "After any sequence of keys, wheel turns, presses, drags and re-layouts, with any contents, sizes and overflow settings at each step, a scrollable container has not panicked and its offsets are within its content; a hidden axis never scrolls; Home and End reach the ends; Page Down/Up skip no row, and pressed often enough reach the ends in windows of at least two rows (with one row they do nothing: refuted).", "quantifier": "all event histories, with settings changing at every step", "why_tests_cant": "unbounded histories of events and layout changes", "anchors": ["crates/textual/src/containers/scrollable.rs: on_event, on_mouse", "crates/textual/src/scroll.rs"]}
{"id": "C66", "title": "Scroll bars and content share the container without overlap", "statement": "If making room for a bar never makes an overflow go away (true for fixed content and for wrapped text), a bar is shown on an automatic axis exactly when the content does not fit the room left, the content was laid out in exactly that room, and content, bars and corner tile the container. Refuted otherwise: the three layout rounds may end with a bar over the content; a bar wider than its container reaches outside.", "quantifier": "all containers, overflow settings and measuring functions", "why_tests_cant": "all measuring behaviours", "anchors": ["crates/textual/src/containers/scrollable.rs: compute_scroll_layout, content_region_with_flags"]}
{"id": "C67", "title": "Automatic text contrasts with every background", "statement": "The contrast colour differs in perceived brightness from the background by at least one half, and when softened to a ratio by at least half the ratio minus 1/500.", "quantifier": "all backgrounds, ratios and roundings of f32 arithmetic", "why_tests_cant": "all 2^24 backgrounds times all ratios", "anchors": ["crates/tcss/src/types/color.rs: contrast_text, get_contrasting_color, perceived_brightness"]}
{"id": "C68", "title": "Colour functions and names mean what CSS says", "statement": "rgb() and rgba() with decimal channels give those channels and alpha for any case and blanks; hsl() gives the nearest bytes to the CSS formula for hues from -240 to 600; every name of the table is read in any case as its colour; reading crashes exactly on texts that begin like a function and close a parenthesis before opening one. Refuted: hsl hues beyond 600 degrees, and rgb)( crashes.", "quantifier": "all numerals, pads, hues, saturations, lightnesses and strings", "why_tests_cant": "all strings and real-valued hues", "anchors": ["crates/tcss/src/types/color.rs: parse, parse_rgb_func, parse_hsl_func, hsl_to_rgb, hue_to_rgb, parse_named"]}
{"id": "C69", "title": "The terminal is given back when the program ends", "statement": "When run returns, whatever the application did, raw mode is off, the alternate screen left, the mouse released and the cursor shown, unless a terminal command of the clean-up itself failed; if raw mode could not be switched on nothing was changed. Refuted: a failure while setting up, or a panic in the application, leaves the terminal raw; a failing clean-up command skips the rest.", "quantifier": "all applications, event histories and points of failure", "why_tests_cant": "all crash points", "anchors": ["crates/textual/src/lib.rs: run, event_loop_async"]}
{"id": "C70", "title": "A tooltip appears after resting on a widget and belongs to it", "statement": "A tooltip is shown only if the pointer has rested for the delay on a widget, with the text of that widget; resting long enough on a widget with a tooltip shows it; moving to another widget or pressing takes it down. Refuted: after the tree is rebuilt a tooltip believed visible is gone and does not come back.", "quantifier": "all sequences of mouse events, ticks and rebuilds", "why_tests_cant": "all schedules", "anchors": ["crates/textual/src/lib.rs: event_loop_async, tooltip timer", "crates/textual/src/widget/tooltip.rs: show, hide"]}
{"id": "C71", "title": "The command palette lists exactly the answers to what was typed", "statement": "Whatever the interleaving of typing, provider tasks, timers and draining, once all providers have answered the current query the list is exactly all their hits, best score first and in order of arrival among equals, or the \"No matches\" line if a query found nothing; that state is always reached when the tasks have run; after typing, the list is the previous one or answers to the new query, never a mixture. Refuted: Enter right after typing runs a command of the previous list; answers that arrive after closing are listed in the closed palette and can be run when it is reopened; a busy timer firing with the last answer leaves it busy for ever.", "quantifier": "all providers and answers, all interleavings of input, tasks and draining", "why_tests_cant": "all schedules", "anchors": ["crates/textual/src/widget/command_palette.rs: start_search, apply_update, refresh_results, drain_updates"]}
{"id": "C72", "title": "The command palette opens, closes and runs what was chosen", "statement": "Openings and closings reported take turns, highlights are reported only while it is open; while open a command is handed to the application exactly when an enabled entry is chosen (the highlighted one by Enter, the clicked one by the mouse), and the palette then closes reporting a selection; it closes otherwise only by Escape, a click outside or close; the focus to restore is the one at the opening until it is taken.", "quantifier": "all interleavings of input, tasks and draining", "why_tests_cant": "all schedules", "anchors": ["crates/textual/src/widget/command_palette.rs: open_with_focus, close_with_selected, activate_selected, submit, take_events, take_restore_focus"]}
{"id": "C73", "title": "The palette highlights an entry that can be chosen", "statement": "The highlighted index is in the list whenever it is not empty and is an enabled entry if there is one; Down and Up move it by one and stop at the ends without changing the list. Refuted: late answers change which command is highlighted.", "quantifier": "all interleavings of input, tasks and draining", "why_tests_cant": "all schedules", "anchors": ["crates/textual/src/widget/command_palette.rs: normalize_selection, move_selection, refresh_results"]}
{"id": "C76", "title": "Styling a line changes only what it says", "statement": "Laying a style over a line makes its colours win and accumulates attributes; tinting moves every colour towards the tint and keeps its alpha; text opacity fades foregrounds towards the background and at zero blanks the text; hatching replaces exactly the blanks. None of them changes text, widths or metadata otherwise. Refuted: hatching recolours other characters of the same segment, a two-cell hatch makes the width wrong, underlines survive opacity 0.", "quantifier": "all lines, segmentations, styles, colours and opacities, and every monotone rounding of the arithmetic", "why_tests_cant": "all lines and all styles", "anchors": ["crates/textual/src/segment.rs: apply_style, apply_tint, apply_hatch", "crates/textual/src/strip.rs: apply_style, apply_tint, apply_hatch, apply_text_opacity"]}
{"id": "C74", "title": "A style tag means its words", "statement": "A style tag of markup is accepted exactly if it is a non-empty sequence of words, each naming an attribute or a colour or being \"on\" before a colour; the style has exactly the attributes named, the last colour as foreground and the last one after an \"on\" as background; a colour is # with three or six hexadecimal digits, rgb(r,g,b) with bytes, or a known name, and means that colour. White space and case do not matter. Refuted: \"on RGB(1,2,3)\" is rejected although \"RGB(1,2,3)\" is accepted, and rgb(1, 2, 3) with spaces is not accepted in a tag.", "quantifier": "all strings, tables of colour names and lower-casings", "why_tests_cant": "all strings", "anchors": ["crates/rich/src/style.rs: parse, parse_modifier", "crates/rich/src/color.rs: parse, parse_hex, parse_rgb_func"]}
{"id": "C75", "title": "Fuzzy search ranks better matches higher", "statement": "An exact substring outranks scattered letters, a candidate equal to the query outranks every other; the score is a fixed increasing function of the letters at word starts and of the compactness of the placement; the placement used is the best of those considered, and of a substring the first occurrence. Refuted: a later occurrence at a word start is ignored, and placements near the end of the candidate are overlooked.", "quantifier": "all queries and candidates", "why_tests_cant": "all pairs of strings", "anchors": ["crates/textual/src/fuzzy.rs: match_candidate, score"]}
{"id": "C77", "title": "Children have the sizes and places their styles say", "statement": "In rows and columns each child is its margin away from the edge across the layout and has the size across it that its style asks for (cells, percent, fr, auto, none), kept between minimum and maximum; along the layout sizes given in cells, percent, w, h, vw, vh or auto add up exactly and are rounded together, fr is an equal part of the rest, limits act on their own child only. Refuted: across the layout w, h, vw, vh are taken for cells; in a row margins are taken out of heights given in cells.", "quantifier": "all child lists, containers and terminals with non-negative lengths", "why_tests_cant": "all styles and sizes", "anchors": ["crates/textual/src/layouts/horizontal.rs: arrange", "crates/textual/src/layouts/vertical.rs: arrange, resolve_child_width", "crates/textual/src/layouts/size_resolver.rs"]}
{"id": "C78", "title": "Inline styles, the stylesheet and inheritance", "statement": "After a restyle every visible widget has: each of color, background, tint and background-tint as set inline, else as the stylesheet says; a color said nowhere is the nearest ancestor's, at last the theme's foreground; visibility likewise from the nearest ancestor for which it is set; the background behind it is that of its ancestors painted one over the other with their tints; everything else as the stylesheet says. An inline color does not end the choice by contrast of an automatic one.", "quantifier": "all widget trees, stylesheets, themes and inline styles", "why_tests_cant": "inheritance passes through any depth", "anchors": ["crates/textual/src/style_resolver.rs:resolve_styles", "crates/textual/src/style_resolver.rs:apply_inheritance", "crates/tcss/src/types/mod.rs:StyleOverride::apply_to"]}
{"id": "C79", "title": "What variables in a stylesheet stand for", "statement": "In a stylesheet whose lines are variable definitions ($name: value;) and ordinary lines, the text that is parsed is the ordinary lines, in order, with every reference $name replaced by the value its last definition in the file gives it (wherever that definition is), undefined references kept, and nothing else changed. A stylesheet without $ and comments is left as it is up to a final line end. Comments make no difference to what is parsed, definitions inside a comment over several lines define nothing, and carriage returns before line ends do not matter. Refuted: a definition with a comment on its line is ignored, although the line disappears; a reference inside a value is not replaced in turn; whatever follows a definition on its line is lost or becomes part of the value.", "quantifier": "all stylesheets made of definition lines and ordinary lines, all names and values, any notion of letter that agrees with ASCII and excludes the punctuation used", "why_tests_cant": "Tests resolve one or two fixed variables; the claim ranges over every source text, every split into pieces and every order of definitions.", "anchors": ["crates/tcss/src/parser/variables.rs: extract_variables, resolve_variables", "crates/tcss/src/parser/mod.rs: parse_stylesheet"]}
{"id": "C80", "title": "Selectors are read as written", "statement": "A selector list in the documented syntax (types, .classes, #ids, :states, *, &, [attributes], joined without spaces into compounds; compounds joined by spaces, >, + or ~; selectors joined by commas; any white space around the combinators, commas and at the ends) is read, before an opening brace, as exactly that list, consuming exactly its text; no text spells two different lists.", "quantifier": "all selector lists of any length and depth, all names over any alphabet of letters that agrees with ASCII, all white space", "why_tests_cant": "Tests try a few selectors; the grammar has unboundedly many texts, and ambiguities between combinators, names and white space only show up in combinations.", "anchors": ["crates/tcss/src/parser/selectors.rs: parse_simple_selector, parse_compound_selector, parse_complex_selector, parse_attribute_selector", "crates/tcss/src/parser/mod.rs: parse_selector_list"]}
{"id": "C81", "title": "Stylesheets are read as written", "statement": "A stylesheet whose text, after cutting comments and replacing variables, spells a list of rules (selectors, a block of declarations in the syntax of their properties, unknown properties ended by a semicolon, rules nested to any depth, any white space) is accepted, and the result is exactly the flattened list of these rules in order; no text spells two different lists. Refuted: an unknown last property without a semicolon swallows later rules; an empty declaration rejects everything; a mistake in a nested rule is silently dropped or rejects everything depending on the first character of its selector.", "quantifier": "all stylesheet texts in the syntax, of any size and nesting depth, with comments and variables", "why_tests_cant": "Tests parse a few sheets; the claim needs every combination of rule, declaration, nesting and spacing, and that declarations are never mistaken for nested rules.", "anchors": ["crates/tcss/src/parser/mod.rs: parse_stylesheet, parse_rule, parse_rule_items, parse_single_declaration, take_until_semicolon_or_brace", "crates/tcss/src/parser/flatten.rs: flatten_stylesheet"]}
{"id": "C82", "title": "Property values are read as written", "statement": "For each of the 90 properties, every value text in the syntax of that property (colours with optional percentage, numbers with units, one, two or four sides, keywords in any case, borders in either order, styles, layers, grids, hatches, keylines, opacities) gives exactly that declaration; one text never means two values; \"!important\" may follow after white space and changes nothing. Refuted: three sides are read as two; !important after text styles and layers is not recognised; the percentage of a hatch goes to its colour; opacity: auto means 0.", "quantifier": "all properties, all values and all their spellings", "why_tests_cant": "Tests check sample values of some properties; numbers, names, colours and their separators range over unbounded texts.", "anchors": ["crates/tcss/src/parser/values.rs: parse_color, parse_border_edge, parse_text_style, parse_hatch, parse_keyline, parse_opacity and the keyword parsers", "crates/tcss/src/parser/units.rs: parse_number, parse_scalar, parse_spacing, parse_grid_size", "crates/tcss/src/parser/mod.rs: parse_single_declaration"]}
{"id": "C83", "title": "Which stylesheets can crash the program", "statement": "Reading a stylesheet panics only if it contains a colour text, starting with rgb or hsl in any case, whose first closing parenthesis comes before its first opening one; a stylesheet without a closing parenthesis never panics. Every such colour text panics (refuting that reading never crashes).", "quantifier": "all stylesheet texts whatsoever, valid or not", "why_tests_cant": "Tests feed a few malformed sheets; the absence of a panic ranges over every text.", "anchors": ["crates/tcss/src/parser/mod.rs: parse_stylesheet", "crates/tcss/src/parser/values.rs: parse_color, find_color_end", "crates/tcss/src/types/color.rs: RgbaColor::parse, parse_rgb_func, parse_hsl_func"]}
{"id": "C84", "title": "An SVG screenshot has the backgrounds of the screen", "statement": "Every cell with a background colour is under a rectangle of that colour, every rectangle over a cell has the colour of that cell, and no rectangle reaches beyond the picture.", "quantifier": "all canvases of any size and content", "why_tests_cant": "Tests look at one picture; run merging depends on every sequence of colours in a row.", "anchors": ["crates/textual/src/svg.rs: render, render_backgrounds"]}
{"id": "C85", "title": "An SVG screenshot has the text of the screen", "statement": "On a canvas of well-formed rows every text element stands for a run of cells of one row with one style: it starts at their column, is as long as they are wide, reads as their symbols and has their colour, weight, slant and decoration; no column is drawn twice. Refuted: text without colour and attributes at the end of a row is missing (a canvas of plain text comes out empty), and text after an overdrawn wide glyph moves left.", "quantifier": "all canvases of any size and content", "why_tests_cant": "Tests look at one picture; run merging depends on every sequence of styles in a row.", "anchors": ["crates/textual/src/svg.rs: render, render_text, collect_styles"]}
{"id": "C86", "title": "Characters and colours survive the export to SVG", "statement": "Whatever a cell contains, an XML reader gets the same characters back (with no-break spaces for blanks); an RGB colour is written in its hexadecimal notation, and different RGB colours differently. Refuted: palette colours all come out black.", "quantifier": "all texts and colours", "why_tests_cant": "all strings and all colours", "anchors": ["crates/textual/src/svg.rs: escape_xml, color_to_hex"]}
{"id": "C87", "title": "A switch and the application agree on its value", "statement": "A switch sends a message exactly when it is toggled: Space or Enter while it has the focus, or a release over it after a press over it that no release and no leaving of the pointer ended, and in each case while it is neither disabled nor loading; the message is the opposite of the value before. An application that applies the messages and its own set_value calls always knows the value. The text is ten characters wide, never missing, and shows value, focus and loading; nothing visible changes without a repaint being asked for.", "quantifier": "all histories of keys, mouse events, setters, ticks and repaints", "why_tests_cant": "unbounded histories of calls in any order", "anchors": ["crates/textual/src/widget/switch.rs: on_event, on_mouse, set_value, set_active, clear_hover, tick_spinner, render, is_focusable"]}
{"id": "C88", "title": "A button fires once per press", "statement": "A button without an action sends its message exactly when it is pressed while enabled: Space or Enter, or a release of the left button over it after a press over it that no release ended. A button with an action never sends a message, and hands the action out exactly when it was pressed since the action was last taken. The states that styles can ask for never change without a repaint being asked for. Refuted: leaving a button does not end the press, so a later release over it fires; keys fire it without the focus.", "quantifier": "all histories of keys, mouse events, setters, repaints and takings of the action", "why_tests_cant": "unbounded histories of calls in any order", "anchors": ["crates/textual/src/widget/button.rs: press, on_event, on_mouse, take_pending_action, set_active, clear_hover, set_disabled"]}
{"id": "C89", "title": "The classes of a widget are those that were asked for", "statement": "Whatever sequence of adding, removing, toggling, setting and listing classes, a widget that keeps its classes itself has a class exactly if the calls ask for it, once, and asks for new styles whenever they change; one that wraps static text likewise as long as no class is added twice. A button always has exactly the class of its variant, of its style and of compactness as last set, if the calls leave these alone; an unknown variant name is the only thing that panics. Refuted: on wrapped widgets a class added twice stays after one removal and adding a class asks for no repaint; setting the classes of a button drops those of its variant and style.", "quantifier": "all histories of class and variant calls", "why_tests_cant": "unbounded histories of calls in any order", "anchors": ["crates/textual/src/widget/static_widget.rs: add_class, remove_class, set_classes", "crates/textual/src/widget/label.rs, crates/textual/src/widget/button.rs: with_classes, set_classes, set_variant, set_compact, set_flat", "crates/textual/src/containers/*.rs: add_class, remove_class, set_classes"]}
{"id": "C90", "title": "A placeholder shows its label, its size or its text", "statement": "Labels are wrapped greedily between words, only words wider than the line are cut, no visible character is lost and no line is too wide; the block is in the middle of the region inside the padding, and a region of the height the placeholder asks for shows all of it inside. Each press inside goes to the next of three variants. Twelve placeholders in a row have different colours. Refuted: a line of blanks disappears, in a low region lines are put below it, the text variant is cut at its own height and put outside regions of one row or column.", "quantifier": "all labels, regions, paddings, widths and cluster measures", "why_tests_cant": "all texts and sizes", "anchors": ["crates/textual/src/widget/placeholder.rs: word_wrap, break_word, render, intrinsic_height_for_width, on_mouse, new"]}
{"id": "C91", "title": "The screen has the classes for its size", "statement": "With breakpoints in increasing order the screen always has, per axis, exactly the class of the greatest threshold its last size reached, and none below all of them; by default -wide from 80 columns on and else -narrow, -tall from 24 rows on and else -short. A clean screen asks for restyling on a resize exactly when its classes changed. Refuted: with breakpoints in another order the last one listed that was reached wins.", "quantifier": "all breakpoint lists, all histories of resizes and restyles", "why_tests_cant": "The class depends on the order of any number of thresholds and on the history of sizes.", "anchors": ["crates/textual/src/widget/screen.rs: Screen::update_breakpoints, on_resize, mark_clean"]}
{"id": "C92", "title": "Scrolling the screen", "statement": "Whatever is drawn, resized, pressed, dragged or wheeled: the screen never panics, its offsets stay within its content, and an axis with hidden overflow never moves. Every cell of every child right of and below the corner can be scrolled into view, and no further than the last child with its margin. If nothing overflows sideways, the bars shown are those room was made for, and content and bars do not overlap. The wheel brings every row into view. Refuted: in a window lower than three rows the wheel skips rows for ever; with both axes automatic a vertical bar can be drawn over the content; with a stable gutter children that fit are cut off at the gutter.", "quantifier": "all arrangements of children, styles, region sizes, and histories of events with style, children and size changing between them", "why_tests_cant": "Offsets depend on the whole history; layout and bars depend on each other.", "anchors": ["crates/textual/src/widget/screen.rs: Screen::render, on_mouse, compute_virtual_size, handle_scrollbar_drag"]}
{"id": "C93", "title": "A static text shows its lines where alignment says", "statement": "A static widget draws exactly its height in rows; those inside border and padding show the lines of the text for that width, in order and as many as fit, moved down as the vertical content-align says, as a block moved across as the horizontal one says, each line set in the block as text-align says (justified lines stretched evenly). The height it asks for has room for all lines, and at automatic width no line of the source is broken. Refuted: text-align has no effect on the place in the widget unless content-align is left and top; a title without a top border to be in takes a row that the height does not count.", "quantifier": "all texts, wrappings, alignments, borders, paddings and sizes", "why_tests_cant": "Alignment, padding, borders and number of lines combine without bound.", "anchors": ["crates/textual/src/widget/static_widget.rs: render, align_content, intrinsic_height_for_width, desired_size"]}
{"id": "C94", "title": "Links in static text are where they are shown", "statement": "For a text without outline whose titles are in borders: a point is a link exactly if the character drawn there belongs to one. Whatever sequence of drawings, mouse events, leaving and taking: the hovered link is the one shown where the mouse last moved, the pending action that of the last click on a link until it is taken, and a change of the hovered link asks for a repaint. Refuted: with a title but no top border links answer one row above where they are shown; links in titles are none; links under an outline are still there.", "quantifier": "all texts, looks and sizes, all histories", "why_tests_cant": "Hit testing must agree with drawing for every layout of the text and every history.", "anchors": ["crates/textual/src/widget/static_widget.rs: extract_link_regions, find_link_at, on_mouse, clear_hover, take_pending_action"]}
{"id": "C95", "title": "The command palette offers the right commands and shows them as they are", "statement": "A query is answered with lines for some of the commands, in their order; each runs its command and shows the title, with letters that spell the query marked, and the help, dim, on the next line, whatever characters are in them. A command is left out only if its title does not contain the query: one that contains it in one piece, or scattered but not reaching into the last letters, is never left out (refuted without that condition: \"Quit\" is not offered for \"qt\"). With nothing typed all discoverable commands are offered, a plain list in its order, system commands alphabetically with equal titles in their own order. Without matches a dim line that cannot be chosen says so.", "quantifier": "all lists of commands, titles, helps and queries", "why_tests_cant": "All titles, with brackets and backslashes, and all queries.", "anchors": ["crates/textual/src/command.rs: SimpleProvider, SystemCommandsProvider, CommandHit, DiscoveryHit, build_prompt", "crates/textual/src/widget/command_palette.rs: CommandEntry"]}
{"id": "C96", "title": "A header shows its title and its icon opens the palette", "statement": "After any calls the header has the title, subtitle and tallness given last; if title and subtitle are markup for some texts, these texts are shown with a dash between them, dash and subtitle dim, and nothing is added for an empty or cleared subtitle. The icon asks for the command palette exactly once after a click and never on keys. While classes are not replaced as a whole the header has the class of the tall style exactly when it is tall. Refuted: brackets in a title are taken as markup and vanish; replacing the classes makes a tall header low, is_tall still says tall and asking again has no effect.", "quantifier": "all histories of calls and events, all titles", "why_tests_cant": "Unbounded histories; all titles.", "anchors": ["crates/textual/src/widget/header.rs: format_title, Header, HeaderTitle, HeaderIcon"]}
{"id": "C97", "title": "A tooltip is drawn on the screen, below the pointer", "statement": "A tooltip is drawn inside the screen whatever its style. With the rules of the library it covers the part on the screen of a rectangle that begins in the row below the pointer, is at most 40 wide and high enough for every line; if the rectangle is on the screen all of it is drawn; texts that want at most 40 columns are centred under the pointer. It is the tooltip of the first widget, outer before inner, that is pointed at and has one. Refuted: what does not fit at the right or below is cut off, so that nothing is shown for a pointer in the last row; texts that want 80 or more columns are shown beside the pointer; a tooltip set on any widget of the library other than the icon of the header is never shown.", "quantifier": "all texts, positions, screen sizes, styles and trees", "why_tests_cant": "Arithmetic at every edge of every screen size.", "anchors": ["crates/textual/src/widget/tooltip.rs: render, resolve_scalar_to_cells", "crates/textual/src/lib.rs: event loop (tooltip position)", "crates/textual/src/tree.rs: find_hovered_tooltip_mut, clear_all_hover"]}
{"id": "C98", "title": "Every action waiting in a widget is handed out once", "statement": "Collecting the pending actions of a tree returns every action that waits in any of its widgets, in the order of the widgets in the tree; afterwards none waits and nothing else has changed, so that no action is run twice.", "quantifier": "all trees", "why_tests_cant": "All shapes of trees.", "anchors": ["crates/textual/src/tree.rs: collect_pending_actions_mut"]}
{"id": "C99", "title": "What the variables of a theme are", "statement": "A theme made from colours has exactly the documented variables, whichever colours were given. The last colour given for a field counts, missing ones are derived from the others as documented. The thirteen shaded names have three darker and three lighter shades that differ from the colour in lightness only, in this order and within black and white; in dark themes the two background tints are mixtures that get lighter channel by channel. Copies, faded, muted and coloured texts, scrollbars and tracks are the base colours, the base colours with another opacity, or between the colours they are mixed from; text asks for contrast unless the foreground is a colour of the terminal. The sixteen built-in themes exist under their names, dark ones with light text on a dark background and light ones the other way round. Refuted: a plain variable such as $primary need not be the colour given, since it passes through lightness and back.", "quantifier": "all colour systems and sequences of builder calls, any rounding of the arithmetic and any power function", "why_tests_cant": "All colours given or not in all combinations; 151 variables.", "anchors": ["crates/tcss/src/types/theme.rs: ColorSystem, generate, generate_styles, Theme, standard_themes", "crates/tcss/src/types/color.rs: to_lab, from_lab, lighten, darken"]}
{"id": "C100", "title": "What a reference to a theme stands for", "statement": "A colour that is no reference does not depend on the theme. A reference to a variable of the theme is that colour, with the opacity of the reference if it is below 1; a documented variable is never missing. A name the theme does not have but that ends in -lighten- or -darken- and a number is the colour before it changed by that fraction; any other name is white. What results is no reference any more. Text style references are the styles of the theme, or none. Refuted: an opacity of 100% does not replace the opacity of the variable; -lighten-4 does not continue -lighten-3 but is full lightness.", "quantifier": "all references, themes and names", "why_tests_cant": "All names, including those the theme does not have.", "anchors": ["crates/tcss/src/parser/cascade.rs: resolve_theme_color, resolve_theme_style", "crates/tcss/src/types/theme.rs: get_color, get_style"]}
{"id": "C101", "title": "A container of automatic size asks for exactly the room its children take", "statement": "A column without a height of its own asks for border, padding and the height of the column its children make when arranged, margins included; so in that room every child and its margins are inside. The same for the width of a row. Across, it asks for its largest child with its margins. Children that do not take part in the layout do not count; if a child fills, the container does; a size of its own is taken as it is and a relative one fills. Refuted: children beyond 1000 cells count 1000; minimum sizes, wrapped lines and the border of a nested content-box container are not counted; a grid counts only its largest child; floating children count as if they were in the column.", "quantifier": "all containers, styles, children and regions", "why_tests_cant": "Children, margins and sizes are unbounded.", "anchors": ["crates/textual/src/containers/container.rs: calculate_intrinsic_size, desired_size", "crates/textual/src/layouts/vertical.rs: VerticalLayout::arrange", "crates/textual/src/layouts/horizontal.rs: HorizontalLayout::arrange"]}
{"id": "C102", "title": "What a scrollable container of automatic size asks for", "statement": "A scrollable column without a height of its own asks for border, padding, the height of the column its children make when arranged, and the first top margin once more; the same for the width of a row and the first left margin. Across, it asks for its largest child with margins; if a child fills it fills. It does not overflow as long as all children and margins take at most 65535 cells, a filling child counting 1000. Refuted: that it asks for the same as a plain container (first margin twice, two cells for a border on one edge); 66 filling children stop a debug build; a grid with a filling child asks for 1000 cells.", "quantifier": "all scrollable containers, styles, children and regions", "why_tests_cant": "Children, margins and sizes are unbounded.", "anchors": ["crates/textual/src/containers/scrollable.rs: calculate_intrinsic_size, desired_size"]}
{"id": "C103", "title": "Snapshots of a canvas say what is on it", "statement": "Read by a terminal, the coloured snapshot of a canvas is the picture on it: row by row every symbol, with the colours and attributes of its cell, the look never leaking from one cell or line to the next. The plain snapshot has one line per row, its symbols up to the blanks at the end. Asking for one cell gives its symbol and whether it has a background, and nothing outside. Whatever was drawn, a canvas has such rows. Refuted: that what follows a wide symbol keeps its column (its second half is written as a blank).", "quantifier": "all canvases, whatever was drawn on them", "why_tests_cant": "Cells, colours, attributes and their changes from cell to cell are unbounded.", "anchors": ["crates/textual/src/canvas.rs: to_snapshot, to_ansi_snapshot, get_char, row_str, has_bg_at"]}
{"id": "C104", "title": "Which widgets hear a message on its way up", "statement": "In the tree of an application, whatever handlers do: a widget below the children of the screen hears a message of the focused widget at most once, and only if it is an ancestor of it; an ancestor inside the screen that stops the message when it first hears it is the last to hear it; what the message says about its sender is kept. If nobody interferes, the ancestors inside the screen hear it, the parent first, then every child of the screen twice, then the overlays. Refuted: that each ancestor hears a message once and nobody else (a child of the screen hears it three times if it is an ancestor and twice otherwise, even if it is the sender); that nobody hears a message once it is stopped; that an answer always replaces the message.", "quantifier": "all applications, focused widgets, messages and handlers", "why_tests_cant": "Trees and the behaviour of handlers are unbounded.", "anchors": ["crates/textual/src/tree.rs: bubble_message", "crates/textual/src/widget/screen.rs: handle_message", "crates/textual/src/widget/app_widget.rs: handle_message", "crates/textual/src/lib.rs: event_loop_async"]}
{"id": "C105", "title": "A message says who sent it", "statement": "The widget that answers a mouse event is the one named in the message given to the application, unless it is inside a container that centres; so where widgets look for the pointer where they are drawn, it is the widget one sees there. A message of the keyboard names the widget the key was given to. Refuted: that a widget inside centring containers is named; the outermost of them is.", "quantifier": "all trees, arrangements, pointer positions and answers", "why_tests_cant": "Trees, arrangements and positions are unbounded.", "anchors": ["crates/textual/src/widget.rs: on_mouse_with_sender, sender_info", "crates/textual/src/containers.rs: Center, Middle", "crates/textual/src/containers/container.rs: on_mouse_with_sender", "crates/textual/src/widget/screen.rs: on_mouse_with_sender", "crates/textual/src/tree.rs: dispatch_key, focused_sender_info"]}
{"id": "C106", "title": "Text is told, and shown on, the background that is painted", "statement": "On a path of nested widgets shown at full opacity in which everything see-through lies on something solid and only solid backgrounds are tinted: the background a widget is told is behind it is the one painted there; each widget covers it not at all without a background, completely with a solid one and otherwise in proportion to its alpha, up to one step per channel. Automatic text in a widget with a solid background or none then differs from the background it is shown on by at least half the brightness, or by the share asked for; also in placeholders. Other text has the colour declared nearest outwards, and a solid colour is shown as it is. Refuted: that automatic text is legible on a see-through background of its own (black on white at 10% over black) or has a colour on a transparent one; tints on see-through backgrounds; see-through backgrounds of the outermost widget, which are laid repeatedly; see-through text, which is mixed with black; placeholders with a see-through background, which lay it twice under text.", "quantifier": "all paths of nested widgets, colours and alphas, any rounding of the arithmetic", "why_tests_cant": "Paths are of any depth and colours of any channels and alpha.", "anchors": ["crates/tcss/src/types/mod.rs: ComputedStyle::effective_background", "crates/textual/src/style_resolver.rs: compute_effective_background, apply_inheritance, build_inherited_context", "crates/textual/src/widget/static_widget.rs: rendering_style", "crates/textual/src/widget/placeholder.rs: effective_background, effective_foreground, render", "crates/textual/src/canvas.rs: resolve_background, to_crossterm_color"]}
{"id": "C107", "title": "Opacity fades a widget into what is behind it", "statement": "A widget of opacity o shows its own solid background and its border in the proportion o squared and its text and titles in the proportion o over what is behind it. At opacity 0 nothing of it is seen: the background stays and text, border and titles have its colour. Every channel lies between what was behind and its own, also for see-through and tinted backgrounds. At full opacity a border has its own colour or that of the text, a title its own, the border's or that of the text. Refuted: that opacity fades what is inside a widget (in a red container of opacity 0 a widget without a background is red); that a placeholder's palette fades; that a border or title next to automatic text is visible (it is black).", "quantifier": "all widgets, colours and opacities on all such paths, any rounding of the arithmetic", "why_tests_cant": "Colours and opacities form a continuum.", "anchors": ["crates/tcss/src/types/mod.rs: ComputedStyle::effective_background", "crates/tcss/src/types/color.rs: blend_toward", "crates/textual/src/render_cache.rs: RenderCache::new", "crates/textual/src/containers/container.rs: render (titles)", "crates/textual/src/widget/static_widget.rs: rendering_style"]}
{"id": "C108", "title": "Who gets a key and what ends the application", "statement": "While the palette is open a key goes to it alone; otherwise to the one widget that has the focus, after Tab or Shift+Tab has moved it to the next or previous one round the screen, then to the application, and then come the actions that were asked for. The palette key reaches neither a widget nor the application. With the default handler an application ends exactly when it was given q or Esc, or a quit action that it did not handle itself. Refuted: that what is typed into a widget stays there (q ends the application); that the standard commands do something (only Quit does).", "quantifier": "all screens with a widget that can have the focus, all handlers that do not move the focus themselves, all histories of keys, clicks, ticks and search results", "why_tests_cant": "Histories, screens and the behaviour of handlers are unbounded.", "anchors": ["crates/textual/src/lib.rs: run_event_loop, dispatch_action, on_key", "crates/textual/src/tree.rs: dispatch_key, focus_next, focus_previous"]}
{"id": "C109", "title": "The command palette borrows the focus and gives it back", "statement": "At every moment either the palette is closed, exactly one widget of the screen has the focus and keys go to it, or it is open, no widget of the screen has the focus and keys go to the palette. The palette key opens it unless the application handles the action. When it is closed again, by whatever means, the focus is exactly where it was, unless an action in between opened it anew. Refuted: on a screen without a widget that can have the focus the open palette never gets a key and can be left only with the mouse; a command cannot move the focus; a command that opens the palette again makes it forget the focus.", "quantifier": "all screens with a widget that can have the focus and nothing hidden, all handlers that do not move the focus themselves, all histories", "why_tests_cant": "Histories, screens and the behaviour of handlers are unbounded.", "anchors": ["crates/textual/src/lib.rs: run_event_loop, dispatch_action", "crates/textual/src/tree.rs: update_focus, set_focus_index, focus_by_id", "crates/textual/src/widget/command_palette.rs: open_with_focus, take_restore_focus, is_focusable"]}
{"id": "C110", "title": "Setting an attribute of a widget has the effect its name promises", "statement": "After any sequence of calls to the setters of a widget, its getters return the value last set, independently of each other, for exactly the widgets that keep the attribute: hiding works for a switch, a loading indicator and the palette; disabling for texts, labels, buttons, inputs, switches and the parts of a header; loading for a switch; titles for texts, labels and plain containers; tooltips for texts and the icon of the header; inline styles for all but centring containers and boxes. A hidden, disabled or loading widget cannot be focused, stylesheets see exactly the disabled ones as disabled, and a call that changes an answer marks the widget for restyling, except hiding a loading indicator and the tooltip of the icon. All other widgets ignore the call without a word (refuted): buttons, inputs, lists of options, texts and all containers cannot be hidden, a list of options cannot be disabled, rows and columns drop titles.", "quantifier": "all widgets of the library, boxed any number of times, all sequences of setter calls", "why_tests_cant": "unbounded histories over every kind of widget", "anchors": ["crates/textual/src/widget.rs: Widget, impl Widget for Box", "crates/textual/src/macros.rs: impl_widget_delegation", "crates/textual/src/widget/static_widget.rs", "crates/textual/src/widget/switch.rs", "crates/textual/src/widget/button.rs", "crates/textual/src/widget/option_list.rs", "crates/textual/src/widget/loading_indicator.rs", "crates/textual/src/widget/command_palette.rs", "crates/textual/src/containers/container.rs"]}
{"id": "C111", "title": "A scroll bar of its own asks for the right scrolling and looks the part", "statement": "A scroll bar widget shows the sizes and the position last reported to it. A press before the thumb asks to scroll back, a press after it asks to scroll forward, a press on it takes hold of the pressed cell; the wheel over the bar asks to scroll; a drag over the bar asks for a position only while the thumb is held; nothing else makes it ask for anything. In exact arithmetic a thumb of at least a cell follows the pointer: scrolled to the place asked for, it has the held cell under the pointer, and the place is in range whenever the thumb fits on the bar. Acting on a message puts the content at the allowed offset nearest to the one wanted. The bar is shown in the colours of its state (held, touched or neither), a colour not given being taken from the plainer state, and the two bars of a scrolling widget are coloured independently. Exceptions, each proved: a release that is not over the bar leaves the thumb held; when the thumb ought to be shorter than a cell no drag reaches the end; when the content is exactly as long as the bar there is no thumb and a press anywhere scrolls forward; dragging without moving along the bar may scroll.", "quantifier": "every history of mouse events, reports and attribute changes, every bar region, every set of colours, every scroll state in range; the arithmetic is any rounding for the messages and exact for the position of a drag", "why_tests_cant": "The state of the bar depends on the whole history of presses, drags and releases, and the arithmetic on all sizes.", "anchors": ["crates/textual/src/widget/scrollbar.rs: ScrollBar::on_mouse, update, current_colors, get_state, set_hover, set_active, clear_hover", "crates/textual/src/containers/scrollable.rs: handle_scroll, vertical_colors, horizontal_colors", "crates/textual/src/scroll.rs: ScrollMessage, scroll_to", "crates/tcss/src/types/scrollbar.rs: effective_color, effective_color_hover, effective_color_active"]}
{"id": "C112", "title": "The ui! and widget! macros build exactly the tree that is written", "statement": "A tree of widgets and splats written in the documented syntax is accepted, and the code it expands to makes exactly that tree: each widget by its constructor from its positional arguments followed by the vector of its children (if it has braces), then one with_ call for each named attribute in order, and each splat replaced by its contents in place. Whatever is accepted, no token is lost, moved or made up, except that commas between arguments may be missing. Every expression written is evaluated exactly once: arguments, then children, then named attributes. Empty input and a positional argument after a named attribute are refused. Exceptions, each proved: two splats in a row are read as one range expression; named attributes, though written before the children, are evaluated after them.", "quantifier": "every tree of any depth and width, every way of writing it, every input token sequence, every parser of expressions that ends an expression before a comma, a name or the end of a group", "why_tests_cant": "The macro is a parser and a code generator: both range over all token sequences.", "anchors": ["crates/textual-macros/src/parse.rs: UiRoot::parse, WidgetNode::parse, parse_args, parse_child_item", "crates/textual-macros/src/codegen.rs: generate_widget, generate_children_vec, generate_attr_calls", "crates/textual-macros/src/lib.rs: ui, widget"]}
{"id": "C113", "title": "A static text at the size it asks for is shown whole", "statement": "A static text whose style gives no size asks for room for the widest line of its source and for all its lines, inside line-pad, padding and border. Given that size, every line of its text is drawn in full, in order, one below the other, each character with the style the markup gives it, whatever the overflow setting and the alignment, with wrapping (if the words of each line are one blank apart) and without. Text without markup whose words are further apart still fits: runs of blanks become one, indentation and lines of blanks go, and nothing is broken over lines. Content that fits the width of any room is put out line by line unchanged. Exceptions, each proved: tags count in the width; a tag over the end of a line makes the room too narrow and the end of the text is cut off; a line of 65536 cells asks for none; a blank narrower than a cell makes a line not fit in its own width.", "quantifier": "every text and markup without carriage returns, combining characters or tags over the end of a line, every style, border, padding and alignment, any width of characters", "why_tests_cant": "Texts, markup nesting and styles are unbounded.", "anchors": ["crates/textual/src/widget/static_widget.rs: desired_size, render, count_lines_preserving_trailing", "crates/textual/src/content.rs: from_markup, wrap", "crates/rich/src/markup.rs: parse"]}
{"id": "C114", "title": "From the text of a stylesheet to the style of a widget", "statement": "A stylesheet text in the syntax, with comments, variables and rules nested to any depth, is accepted. For every widget and every property, among the declarations standing in rules whose selectors, read with the selectors they are nested in, mean the widget, the one with the most ids, then classes, then types in all these selectors together, then the one in the later rule and then the later one in its rule, gives the widget its value; if there is none the default stays. Text styles are all of these merged, the strongest last. Two texts of the same rules give the same styles. Exceptions, each proved: a declaration that follows a nested rule comes before it; a child combinator to the left of a blank is not understood (C22), so selectors without that are assumed.", "quantifier": "every stylesheet text in the syntax, every nesting, every widget with its ancestors, every property, default and theme", "why_tests_cant": "Texts, nesting depth and numbers of rules are unbounded; tests check single sheets.", "anchors": ["crates/tcss/src/parser/mod.rs: parse_stylesheet", "crates/tcss/src/parser/flatten.rs: flatten_stylesheet, combine_selectors", "crates/tcss/src/parser/cascade.rs: compute_style"]}
{"id": "C115", "title": "Names of widgets in queries and in stylesheets, and typed queries", "statement": "A widget of the program is named in queries and in stylesheets by the name of its type, without modules and type arguments; a widget of the library by its own name, and in stylesheets also by the names of the families it belongs to, Widget and DOMNode, and by no other. What a query by type finds is meant by a rule for that type, and ids mean the same in both. All that queries can see is styled, and all that is styled is seen by queries in the same places, except the parts of headers and lists of options. query_one_as calls the closure on the first widget in document order that the selector names and that is of the type asked for, changes nothing else, and says so; if there is none it changes nothing. Exceptions, each proved: the application is App in stylesheets and AppWidget in queries; a boxed widget is named Widget in queries; rules for families apply to widgets that queries by that name do not find; thirteen kinds of widgets of the library are never found by a typed query; a widget of another type does not end the typed search.", "quantifier": "every widget tree, every name and type of a widget, every selector, every closure", "why_tests_cant": "The trees and names are unbounded, and names come from two separate mechanisms; tests look at single widgets.", "anchors": ["crates/textual/src/tree.rs: query_one_as, find_and_apply_by_selector_typed, SimpleSelector", "crates/textual/src/widget.rs: type_name, get_meta, id, as_any_mut, get_child_mut, for_each_child"]}
{"id": "C116", "title": "Rulers, loading indicators and scroll bar corners draw exactly their marks", "statement": "On every canvas, under every clip and in every region: a ruler puts a mark on each place of the first column or row of its region, a bullet on every fifth place and a dot on the others, over the background that was there, and changes nothing else; a hidden ruler or an empty region draws nothing. A loading indicator, after any history of ticks, showing and hiding, draws the frame of the number of its ticks, going round, at the corner of its region, if it was last shown, and drawing it never fails; ticks and changes of visibility ask for a redraw. A scroll bar corner fills the part of its region up to its own size with the colour it was given, else the style's, else the fallback, and a translucent colour keeps the text below. Exceptions, each proved: a loading indicator draws its character even in an empty region, and hiding it through the Widget interface asks for no redraw.", "quantifier": "every canvas, clip stack, region, style, history of ticks and visibility changes", "why_tests_cant": "Regions, clips and histories are unbounded; tests draw a few sizes.", "anchors": ["crates/textual/src/widget/ruler.rs: Ruler::render, char_at", "crates/textual/src/widget/loading_indicator.rs: LoadingIndicator::render, tick, set_visible", "crates/textual/src/widget/scrollbar_corner.rs: ScrollBarCorner::render, effective_color, update_size"]}
{"id": "C117", "title": "The default styles of widgets come before the stylesheet of the program", "statement": "The stylesheet a program runs with is made of the base styles, the default styles of every widget the style resolver reaches (each text once), and the program's own stylesheet, each on lines of its own. If each of these texts is a stylesheet, with the variables defined by the base styles and the program, then so is the whole, whatever the order of the defaults, and its rules are theirs one after the other. What the program's stylesheet decides about a property of a widget is the value the widget gets, unless a default is more specific; where it says nothing, the most specific default decides. The order of the defaults is irrelevant for a property about which no two default texts have equally specific, different declarations. All default texts of the library are accepted. Exceptions, each proved: the defaults come in the order of a hash set, so that the height of an option list, the layout and overflow of scrolling containers and the layout of a container can differ from run to run; a program's declaration loses against a default that also names a class (a tall header keeps its height); and the text is made from the first tree only, so that kinds of widgets that first appear when the program composes again have no defaults.", "quantifier": "every widget tree, default texts of the program own widgets, order of the set, program stylesheet, widget, ancestors and property (text styles, which accumulate, excepted)", "why_tests_cant": "The order of a hash set changes from process to process, trees and stylesheets are unbounded; a test sees one order.", "anchors": ["crates/textual/src/lib.rs: collect_default_css, build_combined_css", "crates/textual/src/testing.rs: build_combined_css", "crates/textual/src/widget.rs: Widget::base_widget_css, Widget::default_css"]}
{"id": "C118", "title": "Titles in borders are the ones last set and show their markup", "statement": "Whatever titles and subtitles are given to a static text, a label or a container, when built or later and in whatever order, the one given last is returned and drawn, and giving one later asks for a redraw. It is drawn if the widget has a border and the title is not empty: of its text (the markup without its tags, or the source itself if it is no markup) the first line with something on it, in the title's style (its own colour, else that of the border line it stands in, else that of the text; faded with the widget), each character changed by the tags around it; a title without tags has single spaces between its words, one with tags keeps its spaces except at the end. Escaped text is shown as it is. In a box of four sides the title stands in the top row and the subtitle in the bottom row, between blanks, aligned as asked, cut with an ellipsis if too long. Exceptions, each proved: vertical and horizontal containers ignore titles set later and never tell theirs; scrolling containers ignore the title they are built with; further lines are not shown; a title of blanks cuts a gap into the border; some markup panics.", "quantifier": "every sequence of calls, title, style, opacity, box and size; titles whose words take up room, no line longer than usize::MAX; for the rows, characters of one cell each", "why_tests_cant": "Titles are any text with any markup, calls come in any order; unit tests look at a few titles in one border.", "anchors": ["crates/textual/src/widget/static_widget.rs: Static::set_border_title, render_styled", "crates/textual/src/containers/container.rs: Container::set_border_title, Container::render", "crates/textual/src/containers/vertical.rs: Vertical::with_border_title", "crates/textual/src/containers/vertical_scroll.rs: VerticalScroll::with_border_title", "crates/textual/src/content.rs: Content::from_markup, Content::wrap", "crates/textual/src/render_cache.rs: RenderCache::render_line"]}
{"id": "C119", "title": "Operations on all matches of a query touch exactly those widgets", "statement": "Adding, removing, toggling or setting a class, hiding or showing, disabling or enabling through a query is done exactly once to every widget that the query reaches, that has the type and id asked for and that passes the filter as it was before; no other widget changes, and none is added, lost, moved or renamed. A widget that keeps classes then has the class or not as asked and its other classes as before; toggling twice restores the classes; giving a class to those that lack it settles it. Switches, loading indicators and the command palette are hidden and shown; statics, labels, buttons, inputs, switches and parts made of them are disabled and enabled; doing it again changes nothing more. Widgets that change are drawn again and none loses its mark. Marking makes dirty exactly the chosen widgets and those below a chosen screen or app through screens and the app only. Exceptions, each proved: all other widgets of the library silently ignore the operation (only three kinds can be hidden; vertical, horizontal and grid containers take no class); widgets around a static (label, button, input, ...) are not drawn again when given a class and can have it twice, so that removing it once leaves it; a loading indicator is not drawn again when hidden.", "quantifier": "every widget tree, place, selector, filter, class and behaviour of the program's own widgets; for classes, lists without repetition; for marking, filters that do not ask what is dirty", "why_tests_cant": "Trees, selectors and filters are arbitrary, and every kind of widget answers in its own way; unit tests query a few labels.", "anchors": ["crates/textual/src/tree.rs: DOMQuery::add_class, remove_class, toggle_class, set_class, set_visible, set_disabled, mark_dirty, find_all_and_apply, find_all_and_apply_filtered", "crates/textual/src/widget.rs: Widget::toggle_class, Widget::set_class, Widget::set_visible, Widget::set_disabled", "crates/textual/src/widget/static_widget.rs: Static::set_disabled", "crates/textual/src/widget/switch.rs: Switch::set_visible", "crates/textual/src/widget/screen.rs: Screen::mark_dirty"]}
{"id": "C120", "title": "What is hovered is what is under the pointer", "statement": "After the pointer has moved, whatever moves came before, a button, switch or header icon is hovered exactly if it was handed this move, and a text shows the link under the pointer if it was handed the move and none otherwise; so does a scroll bar that is not being dragged, and one that is stays as it is. Where widgets look for the pointer where they draw (C57), the widget seen under it is hovered and nothing is that did not draw the cell. This holds also for widgets that are hidden, wherever they are in the tree. Whatever looks different is drawn again, no mark is lost, and all other widgets stay as they are. A move ends the press of a switch. Exceptions, proved: a pressed button or header icon looks pressed wherever the pointer goes, until the mouse button is released; titles and clocks of headers, inputs and search icons keep a link they have taken up when the pointer has left.", "quantifier": "every widget tree, place, history of moves, list of widgets handed each move, link found and behaviour of the program's own widgets", "why_tests_cant": "Hover state is left over from any history of moves, in trees of any shape; unit tests move once over one widget.", "anchors": ["crates/textual/src/tree.rs: WidgetTree::clear_all_hover", "crates/textual/src/lib.rs: MouseEventKind::Moved handling", "crates/textual/src/widget/button.rs: Button::clear_hover, Button::on_mouse", "crates/textual/src/widget/switch.rs: Switch::clear_hover", "crates/textual/src/widget/static_widget.rs: Static::clear_hover, Static::on_mouse", "crates/textual/src/widget/header.rs: HeaderIcon::clear_hover", "crates/textual/src/widget/scrollbar.rs: ScrollBar::clear_hover", "crates/textual/src/containers/container.rs: Container::clear_hover"]}
{"id": "C121", "title": "Clicking performs the action of what was clicked, once", "statement": "Over any sequence of events, each event performs exactly the actions it leaves with texts, labels, buttons, header icons, search icons and the command palette (the link clicked, the action of the button that fired, the command chosen), each once and in the order of the tree; nothing of an earlier event is performed again or late, and after each event nothing is waiting. A click that reaches one such widget performs the link or action there and nothing else; an event that gives nothing performs nothing. Exception, proved: a link clicked in the title or clock of a header or in an input is taken up but never performed, by that or any later event.", "quantifier": "every widget tree in which nothing is waiting, every sequence of events, list of widgets handed each event and action given", "why_tests_cant": "The tree is arbitrary and an action left behind by one event would show only in a later one; unit tests click once.", "anchors": ["crates/textual/src/tree.rs: collect_pending_actions_mut", "crates/textual/src/lib.rs: event loop, collection of pending actions", "crates/textual/src/widget.rs: Widget::take_pending_action", "crates/textual/src/widget/static_widget.rs: Static::on_mouse, Static::take_pending_action", "crates/textual/src/widget/label.rs: Label::take_pending_action", "crates/textual/src/widget/button.rs: Button::take_pending_action", "crates/textual/src/widget/header.rs: HeaderTitle::on_mouse, HeaderIcon::take_pending_action", "crates/textual/src/widget/command_palette.rs: CommandPalette::take_pending_action"]}
{"id": "C122", "title": "Links look as the stylesheet says", "statement": "A text with link styles has the characters and metadata it has without them. Only the characters of links with an action look different: those of the hovered action as hovered links, the others as links; web links and plain text stay as they are. Where links are nested the inner one's action counts. Opaque link colours of the stylesheet are used as they are, those for hovering first; translucent ones are blended, the background over the text's own and the colour over the background that results; without a link background the text's own stays. On an opaque background all of a link is opaque. Where no link colour is given, or an automatic one, the brightness differs from the background enough to be read. Attributes of the text, of links and, under the pointer, of hovered links come together. A link is underlined, and under the pointer only if the stylesheet asks for it for links or hovered links; with nothing given for hovering and the underline asked for, it looks the same under the pointer. Exception, proved: a stylesheet cannot take the underline from a link that is not hovered, and underlined text of a link loses its underline under the pointer.", "quantifier": "every text with spans, metadata and styles, every set of link colours (any transparency) and attributes, hovered action, and accurate f32 arithmetic", "why_tests_cant": "Colours, transparency and overlapping spans combine without limit; unit tests look at one link with one set of colours.", "anchors": ["crates/textual/src/content.rs: Content::apply_link_style, render_line_with_spans, with_link_style, with_hovered_action", "crates/textual/src/segment.rs: Style::apply, Style::is_empty", "crates/tcss/src/types/link.rs: LinkStyle"]}
{"id": "C123", "title": "Content stays where it was scrolled to when a container is drawn again", "statement": "However content, area, style and scroll bars of a scrolling container change from one drawing to the next: the new scroll position is the one nearest to the old at which the larger of the old and the new view lies inside the new content. So if the view did not become smaller it is the nearest position that shows nothing beyond the end of the content, and in any case nothing beyond the end is shown. A position that fits in all of a series of drawings is kept in all of them; in particular any resizing that leaves it valid keeps it while the content keeps its length. Drawing never scrolls forward, and drawing the same again changes nothing. Once a container has been drawn, and while its size, style and content stay the same, only keys, wheel turns, presses and drags say where it is scrolled to, what is held and what is hovered: when and how often it is drawn between them does not matter. The screen keeps its position in the same way. A plain container that scrolls keeps a position that fits both in the arrangement of its children without bars and in the one drawn. Exceptions, proved: keys before the first drawing do nothing; the end of a plain container whose content is longer beside its scroll bar than without it (as text wraps earlier) is never seen; if content and view become smaller together a position that is still valid may be left, and a window made larger and small again may have moved the content.", "quantifier": "every scroll state with positions that are not negative, every sequence of drawings with any styles, areas and children, every arrangement of children", "why_tests_cant": "A position depends on all the drawings before; unit tests look at one change of size of a scroll state outside any container.", "anchors": ["crates/textual/src/containers/scrollable.rs: compute_scroll_layout, render", "crates/textual/src/containers/container.rs: Container::render", "crates/textual/src/widget/screen.rs: Screen::render", "crates/textual/src/scroll.rs: ScrollState::set_virtual_size, set_viewport"]}
