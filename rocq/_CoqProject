-Q theories Verif

theories/Absolute_Props.v
theories/Arrange_Model.v
theories/Arrange_Proofs.v
theories/Arrange_Props.v
theories/Arrange_Spec.v
theories/Attr_Model.v
theories/Attr_Proofs.v
theories/Attr_Props.v
theories/Attr_Spec.v
theories/Autosize_Model.v
theories/Autosize_Proofs.v
theories/Autosize_Props.v
theories/Autosize_Spec.v
theories/Bars2_Proofs.v
theories/Bars_Model.v
theories/Bars_Proofs.v
theories/Bars_Props.v
theories/Bars_Spec.v
theories/Bulk_Model.v
theories/Bulk_Proofs.v
theories/Bulk_Props.v
theories/Bulk_Spec.v
theories/Cached_Model.v
theories/Cached_Props.v
theories/Cached_Spec.v
theories/Canvas_Model.v
theories/Canvas_Proofs.v
theories/Canvas_Props.v
theories/Canvas_Spec.v
theories/Cascade_Props.v
theories/Cascade_Spec.v
theories/Classes_Model.v
theories/Classes_Proofs.v
theories/Classes_Props.v
theories/Classes_Spec.v
theories/Click_Model.v
theories/Click_Proofs.v
theories/Click_Props.v
theories/Click_Spec.v
theories/Colour2_Proofs.v
theories/Colour3_Proofs.v
theories/Colour4_Proofs.v
theories/Colour_Model.v
theories/Colour_Proofs.v
theories/Colour_Props.v
theories/Colour_Spec.v
theories/Column_Proofs.v
theories/Command_Model.v
theories/Command_Proofs.v
theories/Command_Props.v
theories/Command_Spec.v
theories/Css_Model.v
theories/Css_Proofs.v
theories/Css_Props.v
theories/Css_Spec.v
theories/Default_Model.v
theories/Default_Proofs.v
theories/Default_Props.v
theories/Default_Spec.v
theories/Float32_Model.v
theories/Float32_Proofs.v
theories/Flush_Proofs.v
theories/Fraction_Model.v
theories/Fraction_Proofs.v
theories/Fraction_Props.v
theories/Fraction_Spec.v
theories/Frames_Proofs.v
theories/Fuzzy_Model.v
theories/Fuzzy_Proofs.v
theories/Fuzzy_Props.v
theories/Fuzzy_Spec.v
theories/GridTracks_Proofs.v
theories/Grid_Model.v
theories/Grid_Proofs.v
theories/Grid_Props.v
theories/Grid_Spec.v
theories/Header_Model.v
theories/Header_Proofs.v
theories/Header_Props.v
theories/Header_Spec.v
theories/Hear_Model.v
theories/Hear_Proofs.v
theories/Hear_Props.v
theories/Hear_Spec.v
theories/Holder_Model.v
theories/Holder_Proofs.v
theories/Holder_Props.v
theories/Holder_Spec.v
theories/Hover_Model.v
theories/Hover_Proofs.v
theories/Hover_Props.v
theories/Hover_Spec.v
theories/Input_Model.v
theories/Input_Proofs.v
theories/Input_Props.v
theories/Input_Spec.v
theories/Keyline_Model.v
theories/Keyline_Proofs.v
theories/Keyline_Proofs2.v
theories/Keyline_Props.v
theories/Keyline_Spec.v
theories/Keypress2_Props.v
theories/Keypress_Model.v
theories/Keypress_Proofs.v
theories/Keypress_Proofs2.v
theories/Keypress_Props.v
theories/Keypress_Spec.v
theories/Keys_Model.v
theories/Keys_Proofs.v
theories/Keys_Props.v
theories/Keys_Spec.v
theories/Layers_Proofs.v
theories/Layout_Model.v
theories/Layout_Proofs.v
theories/Layout_Props.v
theories/Layout_Spec.v
theories/Link_Model.v
theories/Link_Proofs.v
theories/Link_Props.v
theories/Link_Spec.v
theories/Loop_Model.v
theories/Loop_Proofs.v
theories/Loop_Props.v
theories/Loop_Spec.v
theories/Macro_Model.v
theories/Macro_Proofs.v
theories/Macro_Props.v
theories/Macro_Spec.v
theories/Mark_Model.v
theories/Mark_Proofs.v
theories/Mark_Props.v
theories/Mark_Spec.v
theories/Markup_Model.v
theories/Markup_Proofs.v
theories/Markup_Props.v
theories/Markup_Spec.v
theories/Measure_Model.v
theories/Measure_Proofs.v
theories/Measure_Props.v
theories/Measure_Spec.v
theories/Name_Model.v
theories/Name_Proofs.v
theories/Name_Props.v
theories/Name_Spec.v
theories/Nest_Proofs.v
theories/Options_Model.v
theories/Options_Proofs.v
theories/Options_Props.v
theories/Options_Spec.v
theories/Paint_Model.v
theories/Paint_Proofs.v
theories/Paint_Props.v
theories/Paint_Spec.v
theories/Palette_Model.v
theories/Palette_Proofs.v
theories/Palette_Props.v
theories/Palette_Spec.v
theories/Pointer_Model.v
theories/Pointer_Proofs.v
theories/Pointer_Props.v
theories/Pointer_Spec.v
theories/Press_Model.v
theories/Press_Proofs.v
theories/Press_Props.v
theories/Press_Spec.v
theories/Rank_Proofs.v
theories/Rank_Props.v
theories/Rank_Spec.v
theories/Restyle_Model.v
theories/Restyle_Proofs.v
theories/Restyle_Props.v
theories/Restyle_Spec.v
theories/Row_Model.v
theories/Row_Proofs.v
theories/Row_Props.v
theories/Row_Spec.v
theories/Screen_Model.v
theories/Screen_Proofs.v
theories/Screen_Props.v
theories/Screen_Spec.v
theories/Scroll_Model.v
theories/Scroll_Proofs.v
theories/Scroll_Props.v
theories/Scroll_Spec.v
theories/Sender_Model.v
theories/Sender_Proofs.v
theories/Sender_Props.v
theories/Sender_Spec.v
theories/Sheet2_Model.v
theories/Sheet2_Proofs.v
theories/Sheet3_Proofs.v
theories/Sheet4_Proofs.v
theories/Sheet_Model.v
theories/Sheet_Proofs.v
theories/Sheet_Props.v
theories/Sheet_Spec.v
theories/Shown_Model.v
theories/Shown_Proofs.v
theories/Shown_Props.v
theories/Shown_Spec.v
theories/Sizes_Proofs.v
theories/Sizes_Props.v
theories/Sizes_Spec.v
theories/Slider_Model.v
theories/Slider_Proofs.v
theories/Slider_Props.v
theories/Slider_Spec.v
theories/Snapshot_Model.v
theories/Snapshot_Proofs.v
theories/Snapshot_Props.v
theories/Snapshot_Spec.v
theories/Static_Model.v
theories/Static_Proofs.v
theories/Static_Props.v
theories/Static_Spec.v
theories/Stay2_Proofs.v
theories/Stay2_Props.v
theories/Stay_Model.v
theories/Stay_Proofs.v
theories/Stay_Props.v
theories/Stay_Spec.v
theories/Strip_Model.v
theories/Strip_Proofs.v
theories/Strip_Props.v
theories/Strip_Spec.v
theories/Styled_Model.v
theories/Styled_Proofs.v
theories/Styled_Props.v
theories/Styled_Spec.v
theories/Svg2_Proofs.v
theories/Svg_Model.v
theories/Svg_Proofs.v
theories/Svg_Props.v
theories/Svg_Spec.v
theories/Text_Model.v
theories/Theme_Model.v
theories/Theme_Proofs.v
theories/Theme_Props.v
theories/Theme_Spec.v
theories/Timers_Model.v
theories/Timers_Proofs.v
theories/Timers_Props.v
theories/Timers_Spec.v
theories/Title_Model.v
theories/Title_Proofs.v
theories/Title_Props.v
theories/Title_Spec.v
theories/Tooltip_Model.v
theories/Tooltip_Proofs.v
theories/Tooltip_Props.v
theories/Tooltip_Spec.v
theories/Tree_Model.v
theories/Tree_Proofs.v
theories/Tree_Props.v
theories/Tree_Spec.v
theories/Variables_Model.v
theories/Variables_Proofs.v
theories/Variables_Props.v
theories/Variables_Spec.v
theories/Words_Proofs.v
theories/Words_Props.v
theories/Words_Spec.v
theories/Wrap2_Proofs.v
theories/Wrap_Model.v
theories/Wrap_Proofs.v
theories/Wrap_Props.v
theories/Wrap_Spec.v
