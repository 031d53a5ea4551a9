{
 "claims": [
  {
   "property": "C01",
   "status": "proved",
   "theorems": [
    "C01_api_canonical_and_exact",
    "C01_eq_is_rational_eq",
    "C01_zero_denominator"
   ],
   "note": "fraction.rs; i64 overflow is not modelled (numbers are integers without bound), zero denominators are: they panic"
  },
  {
   "property": "C02",
   "status": "proved",
   "theorems": [
    "C02_floor_fract"
   ],
   "note": ""
  },
  {
   "property": "C03",
   "status": "proved",
   "theorems": [
    "C03_carry_prefix_exact",
    "C03_carry_total_exact",
    "C03_each_share_rounded",
    "C03_one_cell_count_per_share"
   ],
   "note": ""
  },
  {
   "property": "C04",
   "status": "proved",
   "theorems": [
    "C04_offsets_in_range",
    "C04_offsets_in_range_default",
    "C04_scroll_to_nearest",
    "C04_scroll_down_effect",
    "C04_percent_in_unit",
    "C04_can_scroll",
    "C04_negative_amount_refuted"
   ],
   "note": "positive statement for non-negative amounts over all histories; C04_negative_amount_refuted shows why the hypothesis is needed"
  },
  {
   "property": "C05",
   "status": "proved",
   "theorems": [
    "C05_draw_only_inside_clips",
    "C05_history_runs",
    "C05_string_is_drawn",
    "C05_large_canvas_refuted"
   ],
   "note": "all histories of draw/clip/clear/flush; C05_large_canvas_refuted: Canvas::new overflows u16 for more than 65535 cells"
  },
  {
   "property": "C06",
   "status": "proved",
   "theorems": [
    "C06_clip_is_intersection",
    "C06_pop_restores",
    "C06_intersection_contains",
    "C06_contains_point_set"
   ],
   "note": ""
  },
  {
   "property": "C07",
   "status": "proved",
   "theorems": [
    "C07_diff_flush_shows_frame",
    "C07_full_flush_shows_frame",
    "C07_diff_equals_full",
    "C07_overdrawn_wide_glyph_refuted"
   ],
   "note": "for well-formed frames, any terminal cursor/pen; C07_overdrawn_wide_glyph_refuted shows the hypothesis is needed"
  },
  {
   "property": "C08",
   "status": "proved",
   "theorems": [
    "C08_history_shows_last_frame",
    "C08_narrow_history_shows_last_frame",
    "C08_aligned_glyph_keeps_wf",
    "C08_strips_keep_wf"
   ],
   "note": "all histories with foreign writes repaired by invalidate; well-formedness of frames discharged for narrow glyphs, aligned wide glyphs, and strips on free rows"
  },
  {
   "property": "C09",
   "status": "proved",
   "theorems": [
    "C09_split_lossless",
    "C09_split_lengths",
    "C09_split_left_minimal",
    "C09_split_exact_narrow",
    "C09_split_ends"
   ],
   "note": "cluster widths abstract; any grapheme width"
  },
  {
   "property": "C10",
   "status": "proved",
   "theorems": [
    "C10_crop_between_boundaries",
    "C10_crop_narrow",
    "C10_crop_length_consistent",
    "C10_crop_wide_refuted"
   ],
   "note": "exact for cuts at cluster boundaries; C10_crop_wide_refuted outside"
  },
  {
   "property": "C11",
   "status": "proved",
   "theorems": [
    "C11_divide_partition",
    "C11_divide_widths",
    "C11_divide_wide_refuted"
   ],
   "note": "exact for cuts at cluster boundaries; C11_divide_wide_refuted outside"
  },
  {
   "property": "C12",
   "status": "proved",
   "theorems": [
    "C12_simplify_invisible",
    "C12_simplify_merges",
    "C12_join",
    "C12_simplify_meta_refuted"
   ],
   "note": "metadata loss shown by C12_simplify_meta_refuted"
  },
  {
   "property": "C13",
   "status": "proved",
   "theorems": [
    "C13_adjust_pads",
    "C13_adjust_cuts",
    "C13_text_align_pads",
    "C13_text_align_width"
   ],
   "note": ""
  },
  {
   "property": "C14",
   "status": "proved",
   "theorems": [
    "C14_justify",
    "C14_gaps_even_words_kept",
    "C14_justify_otherwise",
    "C14_double_space_refuted"
   ],
   "note": "gaps are single spaces; C14_double_space_refuted shows what happens to double spaces"
  },
  {
   "property": "C15",
   "status": "proved",
   "theorems": [
    "C15_match_is_witnessed"
   ],
   "note": "scores are exact rationals instead of f32; lowercasing and is_alphanumeric are arbitrary functions"
  },
  {
   "property": "C16",
   "status": "proved",
   "theorems": [
    "C16_substring_matches",
    "C16_early_subsequence_matches",
    "C16_subsequence_missed_refuted"
   ],
   "note": "two sufficient conditions proved; C16_subsequence_missed_refuted: being a subsequence is not sufficient"
  },
  {
   "property": "C17",
   "status": "proved",
   "theorems": [
    "C17_highlight_roundtrip",
    "C17_shifted_highlight_refuted"
   ],
   "note": "for every match style that is a plain style tag; C17_shifted_highlight_refuted: case-insensitive offsets index the lowercased candidate"
  },
  {
   "property": "C18",
   "status": "proved",
   "theorems": [
    "C18_escape_roundtrip",
    "C18_escape_inside_tag"
   ],
   "note": "lowercasing and the table of colour names are arbitrary"
  },
  {
   "property": "C19",
   "status": "proved",
   "theorems": [
    "C19_spans_well_formed"
   ],
   "note": ""
  },
  {
   "property": "C20",
   "status": "proved",
   "theorems": [
    "C20_segments_of_parse",
    "C20_segments_of_api_spans",
    "C20_span_inside_char_refuted"
   ],
   "note": "C20_span_inside_char_refuted: API spans off character boundaries panic"
  },
  {
   "property": "C21",
   "status": "proved",
   "theorems": [
    "C21_outer_colour_wins_refuted",
    "C21_outermost_foreground"
   ],
   "note": "the claim as users expect it is refuted for all pairs of colour tags; C21_outermost_foreground is what holds"
  },
  {
   "property": "C22",
   "status": "proved",
   "theorems": [
    "C22_match_is_sound",
    "C22_match_is_complete",
    "C22_sibling_combinators_never_match",
    "C22_child_then_descendant_missed_refuted"
   ],
   "note": "soundness for all selectors; completeness on the stated fragment; C22_child_then_descendant_missed_refuted outside"
  },
  {
   "property": "C23",
   "status": "proved",
   "theorems": [
    "C23_specificity_counts",
    "C23_comparison_is_lexicographic",
    "C23_strict_total_order",
    "C23_adds_up",
    "C23_more_conditions_never_lower",
    "C23_id_outranks"
   ],
   "note": "u32 counters as naturals"
  },
  {
   "property": "C24",
   "status": "proved",
   "theorems": [
    "C24_values",
    "C24_text_style_merges",
    "C24_text_styles_accumulate",
    "C24_declaration_touches_only_its_properties",
    "C24_declaration_fixes_its_properties",
    "C24_highest_priority_wins",
    "C24_untouched_property_keeps_default",
    "C24_non_matching_rule_is_inert",
    "C24_selector_list_specificity_refuted"
   ],
   "note": "property values and theme lookups are arbitrary; selector lists count with their first matching selector (C24_selector_list_specificity_refuted)"
  },
  {
   "property": "C25",
   "status": "proved",
   "theorems": [
    "C25_combined_selector_means_nesting",
    "C25_flattened_stylesheet_means_nesting",
    "C25_later_ampersand_never_matches_refuted"
   ],
   "note": "meaning of whole rule trees; C25_later_ampersand_never_matches_refuted"
  },
  {
   "property": "C26",
   "status": "proved",
   "theorems": [
    "C26_strips_exactly_the_comments",
    "C26_output_has_no_comment",
    "C26_comment_free_unchanged",
    "C26_idempotent"
   ],
   "note": ""
  },
  {
   "property": "C27",
   "status": "proved",
   "theorems": [
    "C27_shortest_balanced_prefix",
    "C27_takes_the_whole_block",
    "C27_unclosed_block_swallows_rest"
   ],
   "note": ""
  },
  {
   "property": "C28",
   "status": "proved",
   "theorems": [
    "C28_fr_widths_sum",
    "C28_fr_width_share",
    "C28_row_fills",
    "C28_last_edge",
    "C28_fixed_widths_sum",
    "C28_no_room",
    "C28_limits_refuted",
    "C28_limits_overflow_refuted"
   ],
   "note": "f64 as exact rationals; fr values count in thousandths as in the code; limits on fr children: C28_limits_refuted"
  },
  {
   "property": "C29",
   "status": "proved",
   "theorems": [
    "C29_row_one_each",
    "C29_row_gap",
    "C29_row_start",
    "C29_row_no_overlap",
    "C29_column_one_each",
    "C29_column_gap",
    "C29_column_gap_whole",
    "C29_column_no_overlap",
    "C29_negative_region_refuted"
   ],
   "note": "non-negative style values and region; C29_negative_region_refuted outside"
  },
  {
   "property": "C30",
   "status": "proved",
   "theorems": [
    "C30_column_tiles",
    "C30_height_error",
    "C30_column_fills",
    "C30_margin_refuted",
    "C30_nested_refuted"
   ],
   "note": "C30_margin_refuted and C30_nested_refuted bound the fill claim"
  },
  {
   "property": "C31",
   "status": "proved",
   "theorems": [
    "C31_cells_in_grid",
    "C31_cells_disjoint_ordered",
    "C31_first_fit",
    "C31_first_at_origin",
    "C31_single_cells",
    "C31_auto_rows_place_all",
    "C31_dropped_refuted",
    "C31_search_terminates",
    "C31_regions_apart",
    "C31_tall_child_refuted",
    "C31_min_column_width",
    "C31_column_count"
   ],
   "note": "C31_dropped_refuted (children vanish), C31_tall_child_refuted"
  },
  {
   "property": "C32",
   "status": "proved",
   "theorems": [
    "C32_tracks_consecutive",
    "C32_child_region",
    "C32_fr_tracks_fill",
    "C32_default_tracks",
    "C32_small_container_refuted",
    "C32_auto_beside_fr_refuted"
   ],
   "note": "C32_small_container_refuted, C32_auto_beside_fr_refuted outside the stated hypotheses"
  },
  {
   "property": "C33",
   "status": "proved",
   "theorems": [
    "C33_dock_at_edge",
    "C33_rest_arranged_inside",
    "C33_docks_clear",
    "C33_inner_inside",
    "C33_inner_nonneg",
    "C33_too_big_refuted",
    "C33_docks_overlap_refuted"
   ],
   "note": "refuted beyond: docks that do not fit leave a negative content size; docks on the same edge or meeting in a corner overlap each other"
  },
  {
   "property": "C34",
   "status": "proved",
   "theorems": [
    "C34_each_child_once",
    "C34_layer_order",
    "C34_layers_independent",
    "C34_duplicate_layer_refuted"
   ],
   "note": "for row and column layouts and layer lists without repetition; grids may drop children (C31); C34_duplicate_layer_refuted otherwise"
  },
  {
   "property": "C35",
   "status": "proved",
   "theorems": [
    "C35_common_shift",
    "C35_aligned"
   ],
   "note": "C35_aligned for rows and columns with non-negative styles; C35_common_shift for every layout"
  },
  {
   "property": "C36",
   "status": "proved",
   "theorems": [
    "C36_next",
    "C36_none",
    "C36_steps",
    "C36_round",
    "C36_inverse"
   ],
   "note": ""
  },
  {
   "property": "C37",
   "status": "proved",
   "theorems": [
    "C37_exactly_one",
    "C37_out_of_range",
    "C37_by_id",
    "C37_path_leads_to_focus",
    "C37_hidden_path_refuted",
    "C37_hidden_keeps_focus_refuted"
   ],
   "note": "histories for trees without hidden widgets; with hidden ones the remembered path and the clearing of old focus fail (two _refuted theorems)"
  },
  {
   "property": "C38",
   "status": "proved",
   "theorems": [
    "C38_each",
    "C38_count",
    "C38_first",
    "C38_last",
    "C38_entries",
    "C38_type_selector",
    "C38_id_selector",
    "C38_type_id_selector",
    "C38_empty_selector",
    "C38_filter",
    "C38_two_filters_refuted",
    "C38_descendant_refuted"
   ],
   "note": "closures that reshape the tree are not modelled; C38_two_filters_refuted, C38_descendant_refuted"
  },
  {
   "property": "C39",
   "status": "proved",
   "theorems": [
    "C39_bubble",
    "C39_all_ancestors",
    "C39_stop"
   ],
   "note": "handlers are arbitrary functions on state and envelope that do not reshape the tree"
  },
  {
   "property": "C40",
   "status": "proved",
   "theorems": [
    "C40_lines",
    "C40_height"
   ],
   "note": "for spans that begin and end between characters; otherwise rendering panics (C43_inside_char_refuted)"
  },
  {
   "property": "C41",
   "status": "proved",
   "theorems": [
    "C41_greedy",
    "C41_keeps_words",
    "C41_width",
    "C41_content",
    "C41_invisible_word_refuted",
    "C41_blank_line_refuted",
    "C41_fitting_changed_refuted",
    "C41_wide_cluster_refuted"
   ],
   "note": "for words that take up room; width additivity of spaces and cluster cuts is a premise on the Unicode tables"
  },
  {
   "property": "C42",
   "status": "proved",
   "theorems": [
    "C42_styled_words",
    "C42_styled_fitting",
    "C42_content",
    "C42_long_word_refuted",
    "C42_spaces_refuted"
   ],
   "note": "exact guarantee; C42_long_word_refuted and C42_spaces_refuted outside it"
  },
  {
   "property": "C43",
   "status": "proved",
   "theorems": [
    "C43_styled_line",
    "C43_inside_char_refuted"
   ],
   "note": "link styling is an opaque function of style and metadata"
  },
  {
   "property": "C44",
   "status": "proved",
   "theorems": [
    "C44_never_panics",
    "C44_key",
    "C44_buffer",
    "C44_cursor_inside",
    "C44_cursor_past_end_refuted",
    "C44_left_lost_refuted"
   ],
   "note": "C44_buffer for characters that are clusters of their own; C44_cursor_past_end_refuted and C44_left_lost_refuted with combining marks"
  },
  {
   "property": "C45",
   "status": "proved",
   "theorems": [
    "C45_unfocused",
    "C45_cursor_inside",
    "C45_cursor_end",
    "C45_placeholder_unfocused",
    "C45_placeholder_focused",
    "C45_empty"
   ],
   "note": "lower-casing of ASCII tag names and non-empty clusters are premises"
  },
  {
   "property": "C46",
   "status": "proved",
   "theorems": [
    "C46_selected",
    "C46_items",
    "C46_down",
    "C46_up",
    "C46_set_selected",
    "C46_shown",
    "C46_click",
    "C46_inert",
    "C46_pending_refuted",
    "C46_pending"
   ],
   "note": "C46_pending_refuted: an uncollected click outlives the items; C46_pending: valid between changes of the items"
  },
  {
   "property": "C47",
   "status": "proved",
   "theorems": [
    "C47_picture",
    "C47_plain_track",
    "C47_thumb_in_track",
    "C47_thumb_cells",
    "C47_thumb_f32",
    "C47_f32_refuted",
    "C47_equal_refuted"
   ],
   "note": "picture and bounds for any f32-like rounding; exact statement in exact arithmetic; C47_f32_refuted, C47_equal_refuted mark the limits"
  },
  {
   "property": "C48",
   "status": "proved",
   "theorems": [
    "C48_order",
    "C48_boxes",
    "C48_grid",
    "C48_partition",
    "C48_too_few",
    "C48_neighbours",
    "C48_container_row",
    "C48_container_column",
    "C48_grid_widget",
    "C48_gutter",
    "C48_no_gutter_refuted",
    "C48_thin_box_refuted",
    "C48_flat_refuted",
    "C48_characters",
    "C48_half_line_refuted"
   ],
   "note": "Proved for boxes of at least 2x2 cells, strictly increasing grid positions and the three line styles; what is drawn is compared with an independent picture of unit strokes and with the Unicode names of the characters. Outside these bounds the code is wrong: C48_thin_box_refuted (boxes one cell wide), C48_flat_refuted (container one row high), C48_no_gutter_refuted (lines over children without gutter), C48_half_line_refuted (half-line glyphs reversed)."
  },
  {
   "property": "C49",
   "status": "proved",
   "theorems": [
    "C49_content_row",
    "C49_border_rows",
    "C49_open_border_rows",
    "C49_label_in_box",
    "C49_outline",
    "C49_width",
    "C49_padding_refuted",
    "C49_narrow_label_refuted",
    "C49_wide_refuted",
    "C49_narrow_outline_refuted",
    "C49_label_hides_outline_refuted",
    "C49_inner_size",
    "C49_edges_shown"
   ],
   "note": "Exact rows for every border, padding, label and outline (one-cell border glyphs), with the exact boundary of validity; padding wider than the box, labels in boxes under 6 columns, wide characters cut by an edge, one-column outlines and labelled rows without outline are refuted."
  },
  {
   "property": "C50",
   "status": "proved",
   "theorems": [
    "C50_look",
    "C50_source",
    "C50_transparent",
    "C50_clear",
    "C50_first",
    "C50_alpha_refuted",
    "C50_attributes_refuted",
    "C50_per_edge",
    "C50_inner",
    "C50_zones",
    "C50_mirrored",
    "C50_joined",
    "C50_side",
    "C50_one_cell"
   ],
   "note": "C50_look/C50_source for every interleaving of look-ups, insertions and clears; C50_transparent under the exact condition; C50_first for one thread; alpha and attributes refuted."
  },
  {
   "property": "C51",
   "status": "proved",
   "theorems": [
    "C51_every_frame",
    "C51_as_full",
    "C51_only_styles",
    "C51_settles",
    "C51_hidden_mark_refuted"
   ],
   "note": "For every history of marked edits and frames; the cascade and colour mixing are parameters. Marks on hidden children of gathering parents are lost (refuted)."
  },
  {
   "property": "C52",
   "status": "proved",
   "theorems": [
    "C52_blend_between",
    "C52_toward_between",
    "C52_tint_between",
    "C52_tint_alpha_refuted",
    "C52_ends",
    "C52_monotone",
    "C52_accuracy",
    "C52_rounding_refuted",
    "C52_palette_refuted",
    "C52_inverse",
    "C52_opacity"
   ],
   "note": "The bounds hold for any monotone rounding that keeps 24-bit integers, f32 in particular. Refuted parts: C52_rounding_refuted, C52_palette_refuted, C52_tint_alpha_refuted."
  },
  {
   "property": "C53",
   "status": "proved",
   "theorems": [
    "C53_matches",
    "C53_every_binding",
    "C53_comma_plus_refuted",
    "C53_unnamed_keys_refuted",
    "C53_capital_refuted",
    "C53_shift_tab_refuted",
    "C53_chord_refuted"
   ],
   "note": "Lower-casing is a parameter. Refuted parts: comma, plus, function keys, non-ASCII capitals and shift+tab cannot be bound; of several keys in one alternative only the last counts."
  },
  {
   "property": "C54",
   "status": "proved",
   "theorems": [
    "C54_order",
    "C54_interval",
    "C54_tick_fires",
    "C54_cancelled",
    "C54_dropped_at_once",
    "C54_ended",
    "C54_timer",
    "C54_timer_fires",
    "C54_cancel_refuted"
   ],
   "note": "Every schedule of the runtime; an interval in time order, once per period, silent once the cancellation was seen. Refuted part: C54_cancel_refuted, a tick already due may still be sent after cancel()."
  },
  {
   "property": "C55",
   "status": "proved",
   "theorems": [
    "C55_redrawn",
    "C55_history",
    "C55_not_redrawn_refuted",
    "C55_quit",
    "C55_typing_refuted"
   ],
   "note": "The event handlers are arbitrary functions. Refuted part: keys and messages that change the picture without moving the focus are not redrawn."
  },
  {
   "property": "C56",
   "status": "proved",
   "theorems": [
    "C56_long",
    "C56_short",
    "C56_accepts"
   ],
   "note": "Lower-casing is a parameter: ASCII as usual, no other letter lowers to hexadecimal digits only."
  },
  {
   "property": "C57",
   "status": "proved",
   "theorems": [
    "C57_root_blocks_refuted",
    "C57_open_palette_refuted",
    "C57_seen_first",
    "C57_only_painters",
    "C57_answer_ends",
    "C57_one_answer",
    "C57_modal",
    "C57_drawn",
    "C57_border_refuted",
    "C57_view_units_refuted",
    "C57_overlap_refuted",
    "C57_docked_refuted",
    "C57_spill_refuted"
   ],
   "note": "Drawing and event delivery of whole widget trees (containers, scrollable containers, screens, grids, centring and the application) for arbitrary arrangements; the conditions are spelled out in Pointer_Spec.fair, and C57_*_refuted show what happens without them. The wheel is covered by C65."
  },
  {
   "property": "C58",
   "status": "proved",
   "theorems": [
    "C58_fresh",
    "C58_resized",
    "C58_child_change_refuted"
   ],
   "note": "All histories; C58_child_change_refuted shows the stale layout in general."
  },
  {
   "property": "C59",
   "status": "proved",
   "theorems": [
    "C59_ascii_markup_never_panics",
    "C59_parse_panics_refuted"
   ],
   "note": "ASCII inputs; C59_parse_panics_refuted outside"
  },
  {
   "property": "C60",
   "status": "proved",
   "theorems": [
    "C60_assignments_agree",
    "C60_owner",
    "C60_positions"
   ],
   "note": ""
  },
  {
   "property": "C61",
   "status": "proved",
   "theorems": [
    "C61_absolute_size",
    "C61_offset_moves_only_itself",
    "C61_absolute_leaves_siblings",
    "C61_absolute_at_corner"
   ],
   "note": ""
  },
  {
   "property": "C62",
   "status": "proved",
   "theorems": [
    "C62_each_child_once",
    "C62_never_twice"
   ],
   "note": ""
  },
  {
   "property": "C63",
   "status": "proved",
   "theorems": [
    "C63_overflow"
   ],
   "note": "for one-cell clusters"
  },
  {
   "property": "C64",
   "status": "proved",
   "theorems": [
    "C64_press",
    "C64_press_horizontal",
    "C64_follows",
    "C64_follows_horizontal",
    "C64_monotone",
    "C64_still_refuted",
    "C64_end_refuted",
    "C64_release"
   ],
   "note": "press for any rounding; following the pointer in exact arithmetic; _refuted theorems mark the limits"
  },
  {
   "property": "C65",
   "status": "proved",
   "theorems": [
    "C65_always_in_range",
    "C65_hidden_axis",
    "C65_arrows",
    "C65_wheel",
    "C65_home_end",
    "C65_page_down",
    "C65_page_up",
    "C65_one_row_refuted"
   ],
   "note": "any history; C65_one_row_refuted for windows of one row"
  },
  {
   "property": "C66",
   "status": "proved",
   "theorems": [
    "C66_consistent",
    "C66_shown",
    "C66_steady_cases",
    "C66_shared",
    "C66_unsteady_refuted",
    "C66_narrow_refuted"
   ],
   "note": "for steady content; C66_unsteady_refuted, C66_narrow_refuted otherwise"
  },
  {
   "property": "C67",
   "status": "proved",
   "theorems": [
    "C67_contrast",
    "C67_soft"
   ],
   "note": "For any accurate rounding, f32 in particular."
  },
  {
   "property": "C68",
   "status": "proved",
   "theorems": [
    "C68_rgb",
    "C68_hsl",
    "C68_hue_refuted",
    "C68_names",
    "C68_css_names",
    "C68_other_names",
    "C68_panics",
    "C68_panics_refuted"
   ],
   "note": "Parsing of floating-point numerals is a parameter; the hsl() formula is proved for exact arithmetic. Refuted parts: C68_hue_refuted, C68_panics_refuted."
  },
  {
   "property": "C69",
   "status": "proved",
   "theorems": [
    "C69_restored",
    "C69_restored_or_failed",
    "C69_untouched",
    "C69_setup_refuted",
    "C69_panic_refuted",
    "C69_cleanup_refuted"
   ],
   "note": "Every crash point of the session. Refuted parts: failure during set-up, panic, failing clean-up command."
  },
  {
   "property": "C70",
   "status": "proved",
   "theorems": [
    "C70_shown",
    "C70_appears",
    "C70_taken_down",
    "C70_rebuilt_refuted"
   ],
   "note": "Every history of pointer positions and ticks. Refuted part: C70_rebuilt_refuted."
  },
  {
   "property": "C71",
   "status": "proved",
   "theorems": [
    "C71_complete",
    "C71_settles",
    "C71_not_mixed",
    "C71_stale_refuted",
    "C71_closed_refuted",
    "C71_busy_refuted"
   ],
   "note": "C71_complete (exact list once answered), C71_settles (that state is reached), C71_not_mixed; stale Enter, results after close and stuck busy flag are refuted with exact schedules. run_on_select = true (the default of CommandPalette::new)."
  },
  {
   "property": "C72",
   "status": "proved",
   "theorems": [
    "C72_turns",
    "C72_chosen",
    "C72_enter",
    "C72_closed_by",
    "C72_two_steps",
    "C72_focus"
   ],
   "note": "Events, chosen commands, ways of closing and focus to restore, for every schedule from CommandPalette::new."
  },
  {
   "property": "C73",
   "status": "proved",
   "theorems": [
    "C73_selected",
    "C73_arrows",
    "C73_shift_refuted"
   ],
   "note": "Index invariant and arrow keys for every schedule; C73_shift_refuted: late answers move the highlight to another command."
  },
  {
   "property": "C76",
   "status": "proved",
   "theorems": [
    "C76_style_on_top",
    "C76_layers",
    "C76_styles_compose",
    "C76_tint",
    "C76_tint_channels",
    "C76_tint_transparent",
    "C76_hatch",
    "C76_hatch_width",
    "C76_opacity_full",
    "C76_opacity",
    "C76_opacity_channels",
    "C76_opacity_zero",
    "C76_hatch_colour_refuted",
    "C76_hatch_width_refuted",
    "C76_hidden_underline_refuted"
   ],
   "note": "Cell by cell statements for apply_style, apply_tint, apply_hatch and apply_text_opacity; three refutations."
  },
  {
   "property": "C74",
   "status": "proved",
   "theorems": [
    "C74_colour",
    "C74_style",
    "C74_unambiguous",
    "C74_spacing",
    "C74_on_case_refuted",
    "C74_rgb_spaces_refuted"
   ],
   "note": "C74_style and C74_colour are equivalences for every text, table of names and lower-casing; two refutations on letter case and spaces."
  },
  {
   "property": "C75",
   "status": "proved",
   "theorems": [
    "C75_exact_first",
    "C75_substring_before_scattered",
    "C75_score",
    "C75_merit_monotone",
    "C75_best_placement",
    "C75_first_occurrence",
    "C75_best_occurrence_refuted",
    "C75_end_overlooked_refuted"
   ],
   "note": "Scores in exact rationals. C75_score/C75_best_placement for every query and candidate; two refutations."
  },
  {
   "property": "C77",
   "status": "proved",
   "theorems": [
    "C77_row_across",
    "C77_row_along",
    "C77_row_width",
    "C77_row_limits",
    "C77_column_across",
    "C77_column_along",
    "C77_view_units_refuted",
    "C77_row_margins_refuted"
   ],
   "note": "Exact values across and along, for rows and columns; f64 arithmetic is exact rationals. Two refutations on units and margins."
  },
  {
   "property": "C78",
   "status": "proved",
   "theorems": [
    "C78_full",
    "C78_unique",
    "C78_inline_auto_refuted"
   ],
   "note": "Path-based specification, for every tree; uniqueness of the specified style. The contrast flag survives an inline colour (refuted)."
  },
  {
   "property": "C79",
   "status": "proved",
   "theorems": [
    "C79_references_become_values",
    "C79_result_is_determined",
    "C79_last_definition",
    "C79_without_variables",
    "C79_nested_values_refuted",
    "C79_rest_of_line_refuted",
    "C79_comments",
    "C79_comments_end",
    "C79_carriage_returns",
    "C79_commented_definitions",
    "C79_comment_after_definition_refuted"
   ],
   "note": "Any source of definition lines and ordinary lines; the result is given by an independent relation (Variables_Spec.means) and shown unique. C79_comments and C79_commented_definitions cover comments, C79_carriage_returns line ends. C79_nested_values_refuted, C79_rest_of_line_refuted and C79_comment_after_definition_refuted delimit it."
  },
  {
   "property": "C80",
   "status": "proved",
   "theorems": [
    "C80_selectors_read",
    "C80_unambiguous"
   ],
   "note": "Independent grammar in Sheet_Spec (selectors_text)."
  },
  {
   "property": "C81",
   "status": "proved",
   "theorems": [
    "C81_rules_read",
    "C81_unambiguous",
    "C81_stylesheet_read",
    "C81_plain_stylesheet_read",
    "C81_any_depth",
    "C81_unknown_without_semicolon_refuted",
    "C81_empty_declaration_refuted",
    "C81_wrong_nested_rule_refuted"
   ],
   "note": "Independent grammar in Sheet_Spec (sheet_text, rule_text, body_text); C81_any_depth shows that the fuel of the model plays no role; the three _refuted theorems show what happens outside the grammar."
  },
  {
   "property": "C82",
   "status": "proved",
   "theorems": [
    "C82_declaration_read",
    "C82_unambiguous",
    "C82_important_ignored",
    "C82_theme_colours",
    "C82_theme_alpha",
    "C82_hatch_pattern_refused",
    "C82_three_sides_refuted",
    "C82_important_refuted",
    "C82_hatch_opacity_refuted",
    "C82_auto_opacity_refuted"
   ],
   "note": "value_text in Sheet_Spec has one clause per kind of property and one table row per property; the colours are those of Colour_Model. The _refuted theorems are concrete texts outside the grammar."
  },
  {
   "property": "C83",
   "status": "proved",
   "theorems": [
    "C83_panics_come_from_colours",
    "C83_colours_that_panic",
    "C83_no_panic_without_parentheses",
    "C83_never_panics_refuted"
   ],
   "note": "For every source text. f32 and f64 number parsing are parameters that do not panic."
  },
  {
   "property": "C84",
   "status": "proved",
   "theorems": [
    "C84_backgrounds",
    "C84_backgrounds_inside"
   ],
   "note": "For every canvas."
  },
  {
   "property": "C85",
   "status": "proved",
   "theorems": [
    "C85_elements",
    "C85_disjoint",
    "C85_coverage",
    "C85_plain_text_refuted",
    "C85_narrow",
    "C85_overdrawn_refuted"
   ],
   "note": "For canvases whose rows are sequences of glyphs followed by their continuation cells (rows_ok); C85_narrow shows that narrow text qualifies, C85_overdrawn_refuted what happens otherwise. C85_coverage says exactly which cells are shown; C85_plain_text_refuted is the part of the property the code violates."
  },
  {
   "property": "C86",
   "status": "proved",
   "theorems": [
    "C86_escape",
    "C86_hex",
    "C86_distinct",
    "C86_palette_refuted"
   ],
   "note": "xml_text in Svg_Spec is an independent reader of XML character data. C86_palette_refuted delimits the claim."
  },
  {
   "property": "C87",
   "status": "proved",
   "theorems": [
    "C87_messages",
    "C87_mirror",
    "C87_text",
    "C87_painted",
    "C87_focusable"
   ],
   "note": "The histories of Press_Spec (held, toggles) mention only the calls made, not the state of the switch."
  },
  {
   "property": "C88",
   "status": "proved",
   "theorems": [
    "C88_messages",
    "C88_actions",
    "C88_actions_only",
    "C88_painted",
    "C88_leaving_refuted",
    "C88_focus_refuted"
   ],
   "note": "As for C87. C88_leaving_refuted and C88_focus_refuted compare a button with a switch."
  },
  {
   "property": "C89",
   "status": "proved",
   "theorems": [
    "C89_own",
    "C89_wrapped",
    "C89_added_twice_refuted",
    "C89_listed_twice_refuted",
    "C89_repaint_own",
    "C89_repaint_wrapped",
    "C89_no_repaint_refuted",
    "C89_variant_names",
    "C89_button",
    "C89_set_classes_refuted",
    "C89_compact_refuted"
   ],
   "note": "wanted and last_variant in Classes_Spec are predicates on the calls made. The _refuted theorems are the exact boundary: second additions and repeated words, and wrapped widgets not being marked dirty."
  },
  {
   "property": "C90",
   "status": "proved",
   "theorems": [
    "C90_wrap",
    "C90_kept",
    "C90_fits",
    "C90_blank_line_refuted",
    "C90_label",
    "C90_height",
    "C90_low_region_refuted",
    "C90_size",
    "C90_text",
    "C90_text_small_refuted",
    "C90_no_room",
    "C90_click",
    "C90_cycle",
    "C90_colours",
    "C90_plain",
    "C90_text_height_refuted"
   ],
   "note": "The clusters of a text and their widths are parameters; C90_plain instantiates them for one-cell characters. Coordinates are unbounded integers. The _refuted theorems delimit the claim."
  },
  {
   "property": "C91",
   "status": "proved",
   "theorems": [
    "C91_classes",
    "C91_one",
    "C91_repaint",
    "C91_default",
    "C91_order_refuted"
   ],
   "note": "The order of the breakpoints is a hypothesis; C91_order_refuted shows it is needed."
  },
  {
   "property": "C92",
   "status": "proved",
   "theorems": [
    "C92_always_in_range",
    "C92_hidden_axis",
    "C92_reach",
    "C92_no_further",
    "C92_bars",
    "C92_apart",
    "C92_press",
    "C92_follows",
    "C92_wheel_reaches",
    "C92_wheel_skips_refuted",
    "C92_overlap_refuted",
    "C92_gutter_refuted",
    "C92_hover",
    "C92_release"
   ],
   "note": "The arrangement of the children is a parameter. f32 arithmetic is exact arithmetic followed by any rounding function as in C47. Coordinates are unbounded integers. The _refuted theorems delimit the claim."
  },
  {
   "property": "C93",
   "status": "proved",
   "theorems": [
    "C93_text_placed",
    "C93_automatic_height_fits",
    "C93_automatic_width_fits",
    "C93_text_align_right_refuted",
    "C93_title_row_refuted"
   ],
   "note": "The wrapping of the text is a parameter (lines for each width), clusters are one cell wide. The _refuted theorems delimit the claim."
  },
  {
   "property": "C94",
   "status": "proved",
   "theorems": [
    "C94_links_where_drawn",
    "C94_pointer_and_clicks",
    "C94_hover_change_redraws",
    "C94_title_row_refuted",
    "C94_title_link_refuted",
    "C94_outlined_link_refuted"
   ],
   "note": "As for C93. clickable in Static_Spec lists the conditions; each _refuted theorem drops one of them."
  },
  {
   "property": "C95",
   "status": "proved",
   "theorems": [
    "C95_search",
    "C95_discover",
    "C95_given_commands",
    "C95_settings",
    "C95_unstyled_help",
    "C95_no_matches",
    "C95_scattered_to_the_end_refuted"
   ],
   "note": "Lower-casing, alphanumerics and colour names are parameters; lower-casing leaves lower-case ASCII letters alone. Scores are exact rationals. C95_scattered_to_the_end_refuted delimits the claim."
  },
  {
   "property": "C96",
   "status": "proved",
   "theorems": [
    "C96_getters",
    "C96_shown",
    "C96_plain_titles",
    "C96_brackets_refuted",
    "C96_tall",
    "C96_tall_refuted",
    "C96_classes",
    "C96_icon",
    "C96_icon_only"
   ],
   "note": "Lower-casing and colour names are parameters. The icon is compared with the button of C88. The _refuted theorems delimit the claim. Not stated: HeaderTitle does not forward take_pending_action, so links in titles do nothing."
  },
  {
   "property": "C97",
   "status": "proved",
   "theorems": [
    "C97_on_screen",
    "C97_rectangle",
    "C97_whole",
    "C97_under_pointer",
    "C97_beside_pointer_refuted",
    "C97_cut_at_the_right_refuted",
    "C97_last_row_refuted",
    "C97_all_lines",
    "C97_other_rules",
    "C97_whose",
    "C97_set_tooltip_refuted",
    "C97_cleared"
   ],
   "note": "The text inside is that of C93; f64 is Q. When a tooltip appears is C70. The _refuted theorems delimit the claim."
  },
  {
   "property": "C98",
   "status": "proved",
   "theorems": [
    "C98_collected_once",
    "C98_each_widget"
   ],
   "note": "Children are those for_each_child visits."
  },
  {
   "property": "C99",
   "status": "proved",
   "theorems": [
    "C99_builder",
    "C99_builder_rest",
    "C99_bases",
    "C99_names",
    "C99_copies",
    "C99_faded",
    "C99_see_through",
    "C99_texts",
    "C99_shades",
    "C99_no_shades",
    "C99_order",
    "C99_dark_backgrounds",
    "C99_mixes",
    "C99_amounts",
    "C99_surfaces",
    "C99_final",
    "C99_styles",
    "C99_builtin",
    "C99_as_given_refuted"
   ],
   "note": "f32 arithmetic is exact arithmetic followed by any monotone rounding; powf is a parameter. Hash maps are association lists. C99_as_given_refuted delimits the claim."
  },
  {
   "property": "C100",
   "status": "proved",
   "theorems": [
    "C100_plain",
    "C100_defined",
    "C100_documented",
    "C100_by_amount",
    "C100_white",
    "C100_opacity",
    "C100_final",
    "C100_amounts",
    "C100_styles",
    "C100_full_opacity_refuted",
    "C100_series_refuted"
   ],
   "note": "Reading a number is a parameter, finite values only. C100_amounts needs powf to be non-negative. The _refuted theorems delimit the claim."
  },
  {
   "property": "C101",
   "status": "proved",
   "theorems": [
    "C101_column_height",
    "C101_row_width",
    "C101_column_width",
    "C101_row_height",
    "C101_column_gets",
    "C101_row_gets",
    "C101_column_inside",
    "C101_row_inside",
    "C101_fill_width",
    "C101_fill_height",
    "C101_own_size",
    "C101_hidden",
    "C101_cap_refuted",
    "C101_minimum_refuted",
    "C101_wrapped_refuted",
    "C101_grid_refuted",
    "C101_floating_refuted",
    "C101_content_box_refuted"
   ],
   "note": "f64 is Q. The size of a tree is the function applied level by level; a child comes with its own desired size. Whole vertical margins. The _refuted theorems delimit the claim."
  },
  {
   "property": "C102",
   "status": "proved",
   "theorems": [
    "C102_column_height",
    "C102_row_width",
    "C102_across",
    "C102_no_overflow",
    "C102_double_margin_refuted",
    "C102_overflow_refuted",
    "C102_grid_fill_refuted",
    "C102_border_refuted"
   ],
   "note": "As C101; an overflow of u16 is an error value. The _refuted theorems delimit the claim."
  },
  {
   "property": "C103",
   "status": "proved",
   "theorems": [
    "C103_ansi",
    "C103_rows",
    "C103_plain",
    "C103_lines",
    "C103_cell",
    "C103_wide_symbols_refuted"
   ],
   "note": "The reader of escape codes is the specification; symbols without escape characters, colours of eight bits. C103_wide_symbols_refuted delimits the claim."
  },
  {
   "property": "C104",
   "status": "proved",
   "theorems": [
    "C104_quiet",
    "C104_once",
    "C104_stopped",
    "C104_sender",
    "C104_each_once_refuted",
    "C104_stop_refuted",
    "C104_answer_refuted"
   ],
   "note": "The tree lib.rs builds: root, screen, overlays; handlers are arbitrary functions on state and envelope. The _refuted theorems delimit the claim and correct the reading of C39 for the screen and the root."
  },
  {
   "property": "C105",
   "status": "proved",
   "theorems": [
    "C105_answered",
    "C105_named",
    "C105_seen",
    "C105_centred_refuted",
    "C105_key",
    "C105_key_alone"
   ],
   "note": "Leaves answer as in C57; a widget may change its own id while it handles a key. C105_centred_refuted delimits the claim."
  },
  {
   "property": "C106",
   "status": "proved",
   "theorems": [
    "C106_told",
    "C106_layers",
    "C106_legible",
    "C106_text",
    "C106_placeholder",
    "C106_see_through_refuted",
    "C106_transparent_refuted",
    "C106_tint_refuted",
    "C106_root_refuted",
    "C106_text_refuted",
    "C106_placeholder_refuted"
   ],
   "note": "Any arithmetic with the rounding of f32 and f64. Widgets are taken to fill their region once. The _refuted theorems delimit the claim."
  },
  {
   "property": "C107",
   "status": "proved",
   "theorems": [
    "C107_proportion",
    "C107_zero",
    "C107_between",
    "C107_full",
    "C107_border_refuted",
    "C107_children_refuted",
    "C107_placeholder_refuted"
   ],
   "note": "Opacity of the widget itself on a path of widgets of full opacity. The _refuted theorems delimit the claim."
  },
  {
   "property": "C108",
   "status": "proved",
   "theorems": [
    "C108_effect",
    "C108_palette_key",
    "C108_palette_history",
    "C108_heard",
    "C108_system",
    "C108_quit",
    "C108_typing_quits_refuted",
    "C108_commands_do_nothing_refuted",
    "C108_quit_command"
   ],
   "note": "Widgets and application are arbitrary functions on a state; they do not reshape the tree. C108_quit holds for every screen and every on_action. The _refuted theorems delimit the claim."
  },
  {
   "property": "C109",
   "status": "proved",
   "theorems": [
    "C109_focus_after",
    "C109_providers",
    "C109_always",
    "C109_opens",
    "C109_round_trip",
    "C109_stuck_refuted",
    "C109_command_focus_refuted",
    "C109_reopen_refuted"
   ],
   "note": "Same model as C108. The _refuted theorems delimit the claim; the focus a command asks for is shown to be lost by a concrete application."
  },
  {
   "property": "C110",
   "status": "proved",
   "theorems": [
    "C110_visible",
    "C110_disabled",
    "C110_loading",
    "C110_titles",
    "C110_tooltip",
    "C110_inline",
    "C110_no_focus",
    "C110_pseudo_class",
    "C110_layout",
    "C110_marked",
    "C110_mark",
    "C110_hide_refuted",
    "C110_hide_wrapped_refuted",
    "C110_disable_options_refuted",
    "C110_title_refuted",
    "C110_box_refuted",
    "C110_loading_mark_refuted"
   ],
   "note": "Every implementation of Widget in the library, with its wrappers as they are nested in the structs; children are left out, so the mark is that of the widget alone. The C110_*_refuted theorems list the widgets that ignore a call."
  },
  {
   "property": "C111",
   "status": "proved",
   "theorems": [
    "C111_reports",
    "C111_shows",
    "C111_held",
    "C111_state",
    "C111_press",
    "C111_drag",
    "C111_wheel",
    "C111_silent",
    "C111_obeyed",
    "C111_follows",
    "C111_colours",
    "C111_two_bars",
    "C111_release_refuted",
    "C111_short_thumb_refuted",
    "C111_equal_refuted",
    "C111_jump_refuted"
   ],
   "note": "The position asked for by a drag is characterised in exact arithmetic only; the release outside the bar, the thumb shorter than a cell, the content as long as the bar and the jump at the start of a drag are proved as exceptions."
  },
  {
   "property": "C112",
   "status": "proved",
   "theorems": [
    "C112_ui_builds",
    "C112_widget_builds",
    "C112_ui_faithful",
    "C112_widget_faithful",
    "C112_once",
    "C112_nothing_written",
    "C112_late_positional",
    "C112_bound",
    "C112_two_splats_refuted",
    "C112_order_refuted",
    "C112_commas_refuted"
   ],
   "note": "Parsing of Rust expressions (syn) and the meaning of Rust expressions are parameters; the generated code is run by a small evaluator of constructor calls, method calls, vec! and push/extend blocks."
  },
  {
   "property": "C113",
   "status": "proved",
   "theorems": [
    "C113_fits_unchanged",
    "C113_blanks_collapse",
    "C113_markup_text",
    "C113_size",
    "C113_automatic_size",
    "C113_drawn",
    "C113_tags_counted_refuted",
    "C113_tag_over_lines_refuted",
    "C113_u16_refuted",
    "C113_tab_refuted"
   ],
   "note": "Sizes as asked for when the style says auto or nothing; grapheme segmentation and widths are parameters, and characters are assumed to stand by themselves. C113_drawn is for one-cell characters, C113_automatic_size for any width."
  },
  {
   "property": "C114",
   "status": "proved",
   "theorems": [
    "C114_winner",
    "C114_every_property",
    "C114_text_styles",
    "C114_sides",
    "C114_spelling_irrelevant",
    "C114_declaration_after_nested_rule_refuted"
   ],
   "note": "Composes reading (C80-C83), variables (C79), comments (C26), nesting (C25) and the cascade (C22-C24) into one statement about the rules as written. Resolution of theme colours and merging of text styles are parameters (see C100, C24). Selectors with > to the left of a blank are excluded by the hypothesis readable, as in C22."
  },
  {
   "property": "C115",
   "status": "proved",
   "theorems": [
    "C115_program_widget",
    "C115_query_names",
    "C115_style_names",
    "C115_query_then_rule",
    "C115_ids",
    "C115_seen_is_styled",
    "C115_children_styled",
    "C115_styled_is_seen",
    "C115_selectors",
    "C115_typed_first",
    "C115_typed_none",
    "C115_application_refuted",
    "C115_boxed_refuted",
    "C115_families_refuted",
    "C115_header_parts_refuted",
    "C115_never_typed_refuted",
    "C115_typed_goes_on_refuted"
   ],
   "note": "All kinds of widgets of the library as a table of names, ids, children and casts, with cited lines; the text of std::any::type_name is taken to be modules, name and type arguments. Types are compared without their type arguments."
  },
  {
   "property": "C116",
   "status": "proved",
   "theorems": [
    "C116_ruler",
    "C116_ruler_in_region",
    "C116_ruler_bullets",
    "C116_loading",
    "C116_loading_redrawn",
    "C116_loading_hidden_quietly_refuted",
    "C116_corner",
    "C116_corner_covers",
    "C116_corner_resized",
    "C116_loading_in_empty_region_refuted"
   ],
   "note": "Over the canvas model of C05. That the characters used are one cell wide and are not blanks is a hypothesis (the width tables are not modelled)."
  },
  {
   "property": "C117",
   "status": "proved",
   "theorems": [
    "C117_collected",
    "C117_accepted",
    "C117_program_decides",
    "C117_default_decides",
    "C117_order_irrelevant",
    "C117_library_accepted",
    "C117_order_matters_refuted",
    "C117_program_overrides_refuted",
    "C117_composed_again_refuted"
   ],
   "note": "Over the stylesheet grammar (C81), variables (C79), the cascade (C114) and the names of widgets (C115). The default texts of the library are quoted in full; that they are accepted is computed with numbers of digits only. Readability (no child combinator to the left of a blank) is inherited from C114."
  },
  {
   "property": "C118",
   "status": "proved",
   "theorems": [
    "C118_kept",
    "C118_builder",
    "C118_set_refuted",
    "C118_scroll_refuted",
    "C118_line",
    "C118_style",
    "C118_none",
    "C118_label",
    "C118_invalid",
    "C118_escaped",
    "C118_on_border",
    "C118_spaces_refuted",
    "C118_second_line_refuted",
    "C118_blank_refuted",
    "C118_panic_refuted"
   ],
   "note": "Over the markup parser (C18-C21), wrapping (C40-C43) and rows (C49). Conversion of a markup colour to a screen colour and fading (C106) are parameters."
  },
  {
   "property": "C119",
   "status": "proved",
   "theorems": [
    "C119_exact",
    "C119_classes",
    "C119_hide",
    "C119_disable",
    "C119_ignored_refuted",
    "C119_still_dirty",
    "C119_redraw",
    "C119_redraw_refuted",
    "C119_mark",
    "C119_toggle_twice",
    "C119_repeat",
    "C119_copies_refuted",
    "C119_settled"
   ],
   "note": "Over the names and selectors of C115 and the class lists of C89. What the widgets of the program do to their own state is a parameter; boxes used as widgets are left out."
  },
  {
   "property": "C120",
   "status": "proved",
   "theorems": [
    "C120_last",
    "C120_link",
    "C120_bar",
    "C120_seen",
    "C120_redraw",
    "C120_rest",
    "C120_switch",
    "C120_stuck_refuted",
    "C120_forgetful_refuted"
   ],
   "note": "Over the kinds of C115 and, for the widget seen, the pointer model of C57. What the widgets of the program do is a parameter; the hover mark scrollable containers keep for their own bars is left out."
  },
  {
   "property": "C121",
   "status": "proved",
   "theorems": [
    "C121_history",
    "C121_settles",
    "C121_alike",
    "C121_click",
    "C121_nothing",
    "C121_dead_refuted"
   ],
   "note": "Over the kinds of C115. Which widgets are handed an event and which action it gives each are parameters (modelled in C57, C88, C94, C72); what is done with an action once dispatched is in C108."
  },
  {
   "property": "C122",
   "status": "proved",
   "theorems": [
    "C122_lines",
    "C122_inner",
    "C122_no_action",
    "C122_metadata",
    "C122_opaque",
    "C122_given",
    "C122_blended",
    "C122_readable",
    "C122_nothing",
    "C122_attributes",
    "C122_underline",
    "C122_underline_refuted",
    "C122_still"
   ],
   "note": "Gives the link styling that the content model of C40-C43 leaves open, with the colours of C52 and C67. Double underline, blinking and overline have no effect in the code and are left out."
  },
  {
   "property": "C123",
   "status": "proved",
   "theorems": [
    "C123_redraws",
    "C123_undrawn_refuted",
    "C123_place",
    "C123_nearest",
    "C123_inside",
    "C123_kept",
    "C123_resized",
    "C123_never_forward",
    "C123_again",
    "C123_screen",
    "C123_container",
    "C123_jump_refuted",
    "C123_forgets_refuted",
    "C123_end_refuted"
   ],
   "note": "Over the layout of scrolling containers of C65 and the scroll state of C04; what the children measure is any function of the region."
  }
 ]
}