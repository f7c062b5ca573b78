{
 "claims": [
  {
   "property": "C01",
   "status": "proved",
   "theorems": [
    "C01_links_consistent",
    "C01_operations_succeed"
   ],
   "note": "over all operation sequences satisfying the html5ever contract (inductive predicate reach)"
  },
  {
   "property": "C02",
   "status": "proved",
   "theorems": [
    "C02_append",
    "C02_insert_before",
    "C02_remove"
   ],
   "note": ""
  },
  {
   "property": "C03",
   "status": "proved",
   "theorems": [
    "C03_traversal_preorder"
   ],
   "note": ""
  },
  {
   "property": "C04",
   "status": "proved",
   "theorems": [
    "C04_append_text",
    "C04_append_text_content",
    "C04_before_text",
    "C04_before_text_content"
   ],
   "note": ""
  },
  {
   "property": "C05",
   "status": "partial",
   "theorems": [
    "C05_reparent_refuted",
    "C05_reparent_partial",
    "C05_reparent_empty_partial"
   ],
   "note": "the full statement is false of the code: only the first child is moved (finding); the exact effect is proved"
  },
  {
   "property": "C06",
   "status": "proved",
   "theorems": [
    "C06_add_attrs"
   ],
   "note": ""
  },
  {
   "property": "C07",
   "status": "proved",
   "theorems": [
    "C07_root_element",
    "C07_root_element_terminates"
   ],
   "note": ""
  },
  {
   "property": "C08",
   "status": "proved",
   "theorems": [
    "C08_stylesheets"
   ],
   "note": ""
  },
  {
   "property": "C25",
   "status": "proved",
   "theorems": [
    "C25_sides_follow_css_table",
    "C25_each_side_once",
    "C25_size_roundtrip"
   ],
   "note": ""
  },
  {
   "property": "C26",
   "status": "proved",
   "theorems": [
    "C26_rects_grow_exactly",
    "C26_grow_twice",
    "C26_containment"
   ],
   "note": ""
  },
  {
   "property": "C27",
   "status": "proved",
   "theorems": [
    "C27_collapsed_margin",
    "C27_order_and_grouping_irrelevant",
    "C27_value_unique"
   ],
   "note": ""
  },
  {
   "property": "C52",
   "status": "proved",
   "theorems": [
    "C52_page",
    "C52_bbox_least",
    "C52_least_box_unique"
   ],
   "note": "for whole pages and for all call sequences of the device; the recorded rectangles include those of line boxes"
  },
  {
   "property": "C53",
   "status": "proved",
   "theorems": [
    "C53_every_object_in_order"
   ],
   "note": ""
  },
  {
   "property": "C54",
   "status": "proved",
   "theorems": [
    "C54_one_flip"
   ],
   "note": ""
  },
  {
   "property": "C55",
   "status": "proved",
   "theorems": [
    "C55_private_values",
    "C55_never_dangling",
    "C55_no_leak",
    "C55_drawing_keeps_contexts"
   ],
   "note": ""
  },
  {
   "property": "C56",
   "status": "proved",
   "theorems": [
    "C56_face_any_order"
   ],
   "note": ""
  },
  {
   "property": "C57",
   "status": "partial",
   "theorems": [
    "C57_any_family_refuted",
    "C57_family_boundary_partial"
   ],
   "note": "the full statement is false of the code: a family name of 201 or more bytes overruns the C buffer (finding); the exact boundary is proved"
  },
  {
   "property": "C58",
   "status": "proved",
   "theorems": [
    "C58_colour_decodes",
    "C58_colour_length"
   ],
   "note": ""
  },
  {
   "property": "C59",
   "status": "partial",
   "theorems": [
    "C59_width_current_refuted",
    "C59_width_current_partial"
   ],
   "note": "false for arbitrary edit sequences: restoring a state whose text was stripped since gives a stale width (finding); proved whenever the restored text is still a prefix of the current text"
  },
  {
   "property": "C60",
   "status": "proved",
   "theorems": [
    "C60_round_trip",
    "C60_nul_is_null",
    "C60_null"
   ],
   "note": ""
  },
  {
   "property": "C09",
   "status": "proved",
   "theorems": [
    "C09_winner_takes_effect",
    "C09_winner_exists_and_is_unique"
   ],
   "note": ""
  },
  {
   "property": "C10",
   "status": "proved",
   "theorems": [
    "C10_inherited_property_without_declaration",
    "C10_other_property_without_declaration",
    "C10_root",
    "C10_wide_keywords",
    "C10_wide_keyword_sets_every_longhand",
    "C10_anonymous_boxes"
   ],
   "note": "css-wide keyword theorem for names excludes border-right-color, which is not a recognised name (C18)"
  },
  {
   "property": "C11",
   "status": "proved",
   "theorems": [
    "C11_font_size_em",
    "C11_other_em",
    "C11_only_winners_matter"
   ],
   "note": ""
  },
  {
   "property": "C12",
   "status": "proved",
   "theorems": [
    "C12_no_border_no_width",
    "C12_border_keeps_its_width"
   ],
   "note": ""
  },
  {
   "property": "C13",
   "status": "proved",
   "theorems": [
    "C13_out_of_flow_is_block_level",
    "C13_specified_display_is_remembered"
   ],
   "note": ""
  },
  {
   "property": "C14",
   "status": "proved",
   "theorems": [
    "C14_four_sides"
   ],
   "note": "relative to colour_contract for the external colour parser"
  },
  {
   "property": "C15",
   "status": "proved",
   "theorems": [
    "C15_border_parts_in_any_order"
   ],
   "note": "relative to colour_contract for the external colour parser"
  },
  {
   "property": "C16",
   "status": "proved",
   "theorems": [
    "C16_flags_never_hide_a_declaration",
    "C16_every_declaration_is_applied"
   ],
   "note": ""
  },
  {
   "property": "C17",
   "status": "partial",
   "theorems": [
    "C17_refuted",
    "C17_invalid_declarations_are_ignored_partial",
    "C17_leftover_aborts",
    "C17_styles_are_always_computed_partial"
   ],
   "note": "False of the code: a value followed by extra tokens trips the assertion in DeclarationBlock::parse. Proved for every block without such a declaration, and proved to abort otherwise."
  },
  {
   "property": "C18",
   "status": "partial",
   "theorems": [
    "C18_refuted",
    "C18_names_partial",
    "C18_property_names_partial"
   ],
   "note": "False of the code for border-right-color (registered as border-color-right); proved for all other names."
  },
  {
   "property": "C19",
   "status": "partial",
   "theorems": [
    "C19_refuted",
    "C19_lower_case_keywords_partial",
    "C19_only_lower_case",
    "C19_generic_families_any_case"
   ],
   "note": "False of the code: keyword parsers compare case-sensitively. Proved for lower-case spelling; property names, units, generic families, !important are case-insensitive."
  },
  {
   "property": "C22",
   "status": "partial",
   "theorems": [
    "C22_refuted",
    "C22_important_partial"
   ],
   "note": "False of the code for font-family; proved for every other property."
  },
  {
   "property": "C23",
   "status": "proved",
   "theorems": [
    "C23_absolute_units",
    "C23_em",
    "C23_unknown_units_rejected",
    "C23_unitless",
    "C23_inch"
   ],
   "note": "exact rationals instead of f32"
  },
  {
   "property": "C24",
   "status": "proved",
   "theorems": [
    "C24_currentcolor_of_color",
    "C24_currentcolor_elsewhere"
   ],
   "note": ""
  },
  {
   "property": "C20",
   "status": "partial",
   "theorems": [
    "C20_refuted",
    "C20_single_word_partial",
    "C20_no_class_attribute"
   ],
   "note": "False of the code: the whole class attribute is compared. Proved: a match is never wrong; exact for one-word attributes."
  },
  {
   "property": "C21",
   "status": "proved",
   "theorems": [
    "C21_navigation",
    "C21_selectors",
    "C21_of_type_panics"
   ],
   "note": "Matching loop is the external selectors crate's published algorithm over the navigation functions of selectors.rs. :nth-of-type family panics (todo!())."
  },
  {
   "property": "C35",
   "status": "partial",
   "theorems": [
    "C35_hyphen_lost_refuted",
    "C35_preserves_partial",
    "C35_no_hyphen_partial",
    "C35_lines_partial"
   ],
   "note": "False of the code: a hyphen behind an overlong word is dropped. Proved: nothing but spaces, newlines and such hyphens is ever dropped, nothing is inserted or moved."
  },
  {
   "property": "C36",
   "status": "proved",
   "theorems": [
    "C36_terminates",
    "C36_no_panic"
   ],
   "note": ""
  },
  {
   "property": "C37",
   "status": "partial",
   "theorems": [
    "C37_needless_overflow_refuted",
    "C37_overflow_partial",
    "C37_no_hyphen_partial",
    "C37_everywhere_partial"
   ],
   "note": "False of the code: a hyphen is appended without checking that it fits. Proved: a line overflows only if it has no break opportunity or by its final hyphen alone."
  },
  {
   "property": "C38",
   "status": "proved",
   "theorems": [
    "C38_run_lines",
    "C38_content_lines",
    "C38_everywhere"
   ],
   "note": ""
  },
  {
   "property": "C41",
   "status": "proved",
   "theorems": [
    "C41_lines_stacked",
    "C41_heights",
    "C41_alignment_moves_lines",
    "C41_everywhere"
   ],
   "note": "exact rationals instead of f32"
  },
  {
   "property": "C42",
   "status": "proved",
   "theorems": [
    "C42_edges_once",
    "C42_edge_sums",
    "C42_everywhere"
   ],
   "note": ""
  },
  {
   "property": "C62",
   "status": "proved",
   "theorems": [
    "C62_greedy"
   ],
   "note": ""
  },
  {
   "property": "C28",
   "status": "proved",
   "theorems": [
    "C28_siblings",
    "C28_everywhere",
    "C28_no_overlap"
   ],
   "note": "exact rationals instead of f32"
  },
  {
   "property": "C29",
   "status": "partial",
   "theorems": [
    "C29_refuted",
    "C29_box_equation_partial",
    "C29_exact",
    "C29_used_values"
   ],
   "note": "False of the code: with a specified width a specified margin is forgotten. Proved when there is no such margin; the exact excess in general."
  },
  {
   "property": "C30",
   "status": "proved",
   "theorems": [
    "C30_centred"
   ],
   "note": ""
  },
  {
   "property": "C31",
   "status": "proved",
   "theorems": [
    "C31_layout_never_fails",
    "C31_container_never_fails"
   ],
   "note": ""
  },
  {
   "property": "C63",
   "status": "proved",
   "theorems": [
    "C63_float_flag_irrelevant",
    "C63_context_irrelevant"
   ],
   "note": ""
  },
  {
   "property": "C32",
   "status": "partial",
   "theorems": [
    "C32_percentage_refuted",
    "C32_later_lines_refuted",
    "C32_moves_only_itself_partial",
    "C32_length_offsets_partial",
    "C32_page_partial",
    "C32_drawing_partial",
    "C32_static_partial"
   ],
   "note": "False of the code for percentages, which are taken of the box's own size, and for the horizontal offset of inline boxes on their later lines. Proved for whole documents, any change of the offsets of any set of boxes: same boxes, same fragments, nothing moves relative to its parent but the relatively positioned boxes and these exactly by the change of their offsets (lengths); the same drawing calls, each at most moved; offsets of boxes that are not positioned change nothing. Position itself may change too in documents without absolutely positioned boxes, and in general, per block container, for boxes whose repositioning does not change the containing block of an absolutely positioned descendant."
  },
  {
   "property": "C33",
   "status": "partial",
   "theorems": [
    "C33_block_refuted",
    "C33_inline_refuted",
    "C33_partial"
   ],
   "note": "False of the code: the block axis is solved against the width, and right with auto left counts from the height. Proved in the remaining cases and for square containing blocks."
  },
  {
   "property": "C34",
   "status": "proved",
   "theorems": [
    "C34_page",
    "C34_container"
   ],
   "note": ""
  },
  {
   "property": "C64",
   "status": "proved",
   "theorems": [
    "C64_containing_block"
   ],
   "note": ""
  },
  {
   "property": "C65",
   "status": "partial",
   "theorems": [
    "C65_refuted",
    "C65_exactly_once_partial",
    "C65_in_order_partial",
    "C65_nothing_else_partial"
   ],
   "note": "False of the code: the text of floats is never drawn (and hyphens can be lost, C35). Proved from document to drawing calls: outside floats every character that is neither white space nor a hyphen is drawn exactly once, in order without absolute positioning, and nothing else is."
  },
  {
   "property": "C39",
   "status": "proved",
   "theorems": [
    "C39_collapsing",
    "C39_idempotent",
    "C45_content"
   ],
   "note": "Text-only elements give one run: the same words, single spaces between them, every other character kept, idempotent. In any preceding context the shown text is `squeeze` of the written text (C45_content, TreeSpec.shown)."
  },
  {
   "property": "C40",
   "status": "partial",
   "theorems": [
    "C40_refuted",
    "C40_partial"
   ],
   "note": "False of the code: white space at the start of an inline element is dropped after text of its parent (foo<em> bar</em>). Proved for inline content whose elements do not start with white space."
  },
  {
   "property": "C43",
   "status": "partial",
   "theorems": [
    "C43_contributes_nothing",
    "C43_unset_with_sibling",
    "C43_next_sibling",
    "C43_unset_never_returns",
    "C43_unset_refuted",
    "C43_refuted"
   ],
   "note": "A display:none element followed by a sibling contributes nothing. Without a next sibling unset_boxes_in_subtree never returns, so such documents are never rendered."
  },
  {
   "property": "C44",
   "status": "partial",
   "theorems": [
    "C44_refuted"
   ],
   "note": "False of the code: a document with a block-level element directly inside an inline element is never rendered."
  },
  {
   "property": "C45",
   "status": "proved",
   "theorems": [
    "C45_content",
    "C45_document",
    "C45_well_formed",
    "C45_then_layout_succeeds",
    "C45_whole_document"
   ],
   "note": ""
  },
  {
   "property": "C46",
   "status": "partial",
   "theorems": [
    "C46_refuted",
    "C46_partial"
   ],
   "note": "False of the code after br and with display:contents; proved for all other documents."
  },
  {
   "property": "C47",
   "status": "partial",
   "theorems": [
    "C47_refuted",
    "C47_partial",
    "C47_text_partial"
   ],
   "note": "False of the code for pre-line and break-spaces. C47_partial says exactly which documents can be rendered."
  },
  {
   "property": "C48",
   "status": "proved",
   "theorems": [
    "C48_contains_floats"
   ],
   "note": ""
  },
  {
   "property": "C61",
   "status": "partial",
   "theorems": [
    "C61_refuted",
    "C61_layout_before_drawing",
    "C61_drawn_so_far",
    "C61_rendering_returns_partial",
    "C61_complete"
   ],
   "note": "False of the code: failing box construction aborts the process (double panic in BoxSlot::drop) or loops; only text directly in the root container gives a catchable panic. Proved: no drawing before layout is complete, what was drawn stays, and rendering returns the objects whenever box construction is not fatal. Parsing is outside the model."
  },
  {
   "property": "C49",
   "status": "proved",
   "theorems": [
    "C49_painting_never_fails",
    "C49_tree_order",
    "C49_translation"
   ],
   "note": ""
  },
  {
   "property": "C50",
   "status": "proved",
   "theorems": [
    "C50_backgrounds",
    "C50_borders",
    "C50_texts",
    "C50_visible"
   ],
   "note": ""
  },
  {
   "property": "C51",
   "status": "proved",
   "theorems": [
    "C51_centre_line",
    "C51_covers"
   ],
   "note": ""
  },
  {
   "property": "C66",
   "status": "partial",
   "theorems": [
    "C66_drawn_partial",
    "C66_seated_partial",
    "C66_middle_refuted",
    "C66_top_refuted"
   ],
   "note": "False of the code for vertical-align middle (put too low) and top, bottom, text-top, text-bottom (treated as baseline). Proved for all other values, every nesting and metric."
  },
  {
   "property": "C67",
   "status": "partial",
   "theorems": [
    "C67_exact_partial",
    "C67_everywhere_partial",
    "C67_strut_refuted"
   ],
   "note": "False of the code: the line height of the block itself (the strut) is ignored. Proved: lines are exactly as high as their texts and newlines need, everywhere on a page."
  },
  {
   "property": "C68",
   "status": "proved",
   "theorems": [
    "C68_render",
    "C68_md_to_html",
    "C68_callbacks"
   ],
   "note": "R's own part (what may be collected when) is assumed as stated in GcModel.v; the device and html strings are blocks."
  },
  {
   "property": "C69",
   "status": "proved",
   "theorems": [
    "C69_render",
    "C69_render_returns",
    "C69_md_to_html",
    "C69_callbacks"
   ],
   "note": "Contents of the single grobs are C50-C52."
  },
  {
   "property": "C70",
   "status": "partial",
   "theorems": [
    "C70_error_leaks_refuted",
    "C70_render_partial",
    "C70_md_to_html_partial"
   ],
   "note": "False of the code: an error after rdev_new leaves the list of grobs preserved and the device allocated. Proved: never more than one object and one block."
  },
  {
   "property": "C71",
   "status": "partial",
   "theorems": [
    "C71_defaults_partial",
    "C71_display_partial",
    "C71_refuted",
    "C71_line_breaks",
    "C71_hidden_fields"
   ],
   "note": "The default sheet of the program is transcribed and its effect proved for every element name; the HTML standard makes headings, lists, sections blocks too, the program does not."
  },
  {
   "property": "C72",
   "status": "partial",
   "theorems": [
    "C72_exactly_partial",
    "C72_refuted"
   ],
   "note": "False of the code: a block right inside an inline element (loose lists) or a hidden element in the last place is not rendered. Proved: exactly these documents fail."
  },
  {
   "property": "C73",
   "status": "partial",
   "theorems": [
    "C73_styles_and_tree_exist",
    "C73_styles",
    "C73_unstyled_text_partial",
    "C73_text_partial"
   ],
   "note": "The styles are proved in full. The text drawn is proved for every document with any style sheets that is drawn to the end, outside floats (C65) and up to hyphens at line ends (C35), and for unstyled documents which ones those are (C72)."
  },
  {
   "property": "C74",
   "status": "proved",
   "theorems": [
    "C74_stack_unchanged"
   ],
   "note": "grid is modelled by its documented behaviour: rectangles without rotation, stack of viewports, popViewport(0) pops all"
  },
  {
   "property": "C75",
   "status": "proved",
   "theorems": [
    "C75_sizes",
    "C75_arguments"
   ],
   "note": "the renderer is arbitrary"
  },
  {
   "property": "C76",
   "status": "partial",
   "theorems": [
    "C76_exactly_partial",
    "C76_default_partial",
    "C76_refuted"
   ],
   "note": "refuted in general; the exact condition is proved, and that the defaults meet it"
  },
  {
   "property": "C77",
   "status": "partial",
   "theorems": [
    "C77_first_only_partial",
    "C77_nothing_partial",
    "C77_refuted"
   ],
   "note": "only the first element of a vector is rendered"
  },
  {
   "property": "C78",
   "status": "proved",
   "theorems": [
    "C78_as_if_private",
    "C78_others_unchanged",
    "C78_no_leak"
   ],
   "note": "refinement: the style model used by all other claims erases the sharing, this justifies it"
  },
  {
   "property": "C79",
   "status": "partial",
   "theorems": [
    "C79_text_arrives_partial",
    "C79_styled_partial"
   ],
   "note": "End to end, for documents that can be rendered by default, and with any style sheets for documents that are drawn to the end. Not covered because false of the code: documents that cannot be rendered (C72_refuted), floated text (C65), other justifications (C76_refuted)."
  },
  {
   "property": "C80",
   "status": "partial",
   "theorems": [
    "C80_exactly_partial",
    "C80_partial",
    "C80_padding_refuted",
    "C80_margin_refuted",
    "C80_alignment_refuted"
   ],
   "note": "Refuted in full: padding of the containing block, a pending bottom margin and the alignment of the line are left out. The exact positions are proved for every page, and that they are right where none of these is present."
  },
  {
   "property": "C81",
   "status": "partial",
   "theorems": [
    "C81_exactly_partial",
    "C81_partial",
    "C81_refuted"
   ],
   "note": "Refuted in full: negative padding is accepted. The accepted values and their meanings are characterised exactly, for one-token values; border-right-color is excluded because of its name (C18)."
  },
  {
   "property": "C82",
   "status": "proved",
   "theorems": [
    "C82_jump_is_match",
    "C82_complete",
    "C82_early_cascade",
    "C82_late_cascade"
   ],
   "note": "Typed memory cells; the layout of #[repr(Int)] enums (RFC 2195) and macro expansion are modelled. Justifies the matches of the style model."
  },
  {
   "property": "C83",
   "status": "partial",
   "theorems": [
    "C83_rendered_f32",
    "C83_layout_f32",
    "C83_lines_f32_partial"
   ],
   "note": "Floats are not rendered (C65), hence partial. Instances of theorems that hold in every arithmetic (C31, C37, C65)."
  },
  {
   "property": "C84",
   "status": "partial",
   "theorems": [
    "C84_inch_f32",
    "C84_units_refuted",
    "C84_box_equation_refuted",
    "C84_whole_pixels_partial",
    "C84_whole_numbers"
   ],
   "note": "Refuted in full: 7in is not 17.78cm, and a padding of 0.1px makes the extents miss the containing block by a rounding error. The inch itself is exact, and boxes with whole-pixel values up to 2^20 add up exactly (not centred ones)."
  },
  {
   "property": "C85",
   "status": "partial",
   "theorems": [
    "C85_comment",
    "C85_white_space",
    "C85_inside",
    "C85_same_drawing_partial",
    "C85_same_outcome",
    "C85_refuted"
   ],
   "note": "Refuted in full: a comment behind a hidden last element decides whether the process aborts (C43). Two documents that differ in formatting only and are both drawn get the same calls; without hidden elements the outcome is the same, failures included."
  },
  {
   "property": "C86",
   "status": "partial",
   "theorems": [
    "C86_same_drawing_partial",
    "C86_same_sources",
    "C86_refuted"
   ],
   "note": "Refuted in full: a <style> element that was taken out of the document still applies. The same tree with the same style sheet texts is drawn the same way; the texts are the same if the <style> elements are all in the tree and were created in tree order."
  },
  {
   "property": "C87",
   "status": "proved",
   "theorems": [
    "C87_drawing",
    "C87_styles"
   ],
   "note": "For exact arithmetic. Two lengths are built in, the initial font size of 16px and the initial border width of 3px; the statement is about documents that do not use them."
  },
  {
   "property": "C88",
   "status": "partial",
   "theorems": [
    "C88_texts_stay_partial",
    "C88_texts_stay_f32_partial",
    "C88_refuted"
   ],
   "note": "Refuted in full: in a box of fixed height, inline content moved by a percentage jumps when a block is appended. Proved for exact arithmetic where the appended-to element has a block already or automatic height, and to the bit in f32 where it has a block already."
  },
  {
   "property": "C89",
   "status": "proved",
   "theorems": [
    "C89_unread_attributes",
    "C89_style_attribute_is_local"
   ],
   "note": ""
  },
  {
   "property": "C90",
   "status": "proved",
   "theorems": [
    "C90_nothing_moves",
    "C90_backgrounds_stay",
    "C90_styles",
    "C90_document"
   ],
   "note": "Drawing and styles in every arithmetic; C90_document for two user sheets of one document (exact arithmetic), given that both are accepted. Font and width lookup are parameters that must not look at colours (font.rs:118-136 reads family, style, weight and size only)."
  },
  {
   "property": "C91",
   "status": "partial",
   "theorems": [
    "C91_wider_partial",
    "C91_one_more_partial",
    "C91_exact_partial",
    "C91_newline_refuted",
    "C91_runs_refuted"
   ],
   "note": "Refuted in full twice: a trailing newline is swallowed behind an overlong word, and a trailing space of a run is dropped although the line goes on. Proved for one run of text that does not end with a newline, and up to one line for any one run; in every arithmetic, for widths in which taking text away at the front does not make it wider."
  },
  {
   "property": "C92",
   "status": "partial",
   "theorems": [
    "C92_apart_partial",
    "C92_refuted"
   ],
   "note": "Refuted in full: a space at the end of a run that does not fit is dropped although the next run follows on the same line. Proved for all content in which no run followed by text ends with a break opportunity."
  },
  {
   "property": "C93",
   "status": "proved",
   "theorems": [
    "C93_styles",
    "C93_drawing",
    "C93_document"
   ],
   "note": "Styles and drawing in every arithmetic; C93_document for two user sheets of one document (exact arithmetic), given that both are accepted. Rewritings that would need to know that a selector is equivalent to another one are not included."
  },
  {
   "property": "C94",
   "status": "proved",
   "theorems": [
    "C94_moves_as_a_whole"
   ],
   "note": "Exact arithmetic. The documents are compared through their styled trees, so selectors such as :first-child may not give the old elements other styles."
  },
  {
   "property": "C95",
   "status": "partial",
   "theorems": [
    "C95_adds_nothing_partial",
    "C95_unstyled",
    "C95_refuted"
   ],
   "note": "Refuted in full: a space at the start of an inline element is dropped even if text stands before the element, so taking away a span can bring back a space. Proved (exact arithmetic) for inline content where the text before and after does not lean on the element: it is first in its container or starts with an inline element with text, and it ends with an inline element or is followed by nothing or by an element with a box of its own. What is drawn is compared without the recorded bounding boxes."
  },
  {
   "property": "C96",
   "status": "partial",
   "theorems": [
    "C96_md_to_html",
    "C96_received",
    "C96_refuted",
    "C96_drawn_partial",
    "C96_latin1"
   ],
   "note": "Refuted for drawn text: rdev_draw_text uses mkString, which marks the UTF-8 bytes as native. Proved for markdown conversion and for what is received, in every locale; for drawn text in UTF-8 locales and for ASCII."
  },
  {
   "property": "C97",
   "status": "proved",
   "theorems": [
    "C97_adds_nothing"
   ],
   "note": "Exact arithmetic. One block at a time; both documents are drawn to the end (C45 says which are). Compared without recorded bounding boxes and without rectangles of height zero and lines of length zero, which boxes that margins collapse through may leave elsewhere."
  },
  {
   "property": "C98",
   "status": "partial",
   "theorems": [
    "C98_contents_partial",
    "C98_refuted"
   ],
   "note": "Refuted in full: an element with display: contents whose last child has display: none stops the construction before it is finished (C43), although the same document without the element is drawn. Proved (exact arithmetic) for any number of such elements at any depth if each of them has a last child that is not hidden. What is drawn is compared without the recorded bounding boxes."
  },
  {
   "property": "C99",
   "status": "proved",
   "theorems": [
    "C99_edges"
   ],
   "note": "Exact arithmetic; no absolutely positioned elements, which are placed on the page and not in the outermost element. What is drawn is compared without the recorded bounding boxes."
  },
  {
   "property": "C100",
   "status": "proved",
   "theorems": [
    "C100_contained"
   ],
   "note": "Exact arithmetic; no absolutely positioned elements, which can be placed on the page. What is drawn is compared without the recorded bounding boxes."
  },
  {
   "property": "C101",
   "status": "proved",
   "theorems": [
    "C101_letters"
   ],
   "note": "For every arithmetic. The style of every element is given: texts of style elements are not looked at here."
  },
  {
   "property": "C102",
   "status": "proved",
   "theorems": [
    "C102_only_sideways",
    "C102_styles",
    "C102_document"
   ],
   "note": "Exact arithmetic, in which the corners of a box move by the same distance. Fonts and measured widths depend on the font properties only."
  },
  {
   "property": "C103",
   "status": "partial",
   "theorems": [
    "C103_nothing_across_partial",
    "C103_ending",
    "C103_styles",
    "C103_document_partial",
    "C103_refuted"
   ],
   "note": "For every arithmetic. Missing, because false: elements absolutely positioned by their distance from the right edge only (C103_refuted: positioned.rs:265 counts from the height of the containing block). The lines of borders are not part of what is compared."
  },
  {
   "property": "C104",
   "status": "partial",
   "theorems": [
    "C104_nothing_down_partial",
    "C104_styles",
    "C104_document_partial",
    "C104_refuted"
   ],
   "note": "For every arithmetic. Missing, because false: elements absolutely positioned with top, bottom or height in percent or from the top and the bottom at once (C104_refuted: positioned.rs:219 solves the block axis against the width). The lines of borders are not part of what is compared."
  },
  {
   "property": "C105",
   "status": "proved",
   "theorems": [
    "C105_unread_names",
    "C105_special"
   ],
   "note": ""
  },
  {
   "property": "C106",
   "status": "proved",
   "theorems": [
    "C106_unseen",
    "C106_unseen_root"
   ],
   "note": "For every arithmetic. A hidden element that is the last child may change but not come or go: rendering hangs on it (C43_refuted, C106_condition_needed)."
  },
  {
   "property": "C107",
   "status": "partial",
   "theorems": [
    "C107_height_of_page_partial",
    "C107_refuted"
   ],
   "note": "For every arithmetic. Missing: elements absolutely positioned by their distance from the right edge only; the code counts that from the height of the page (positioned.rs:265), which C107_refuted shows."
  },
  {
   "property": "C108",
   "status": "proved",
   "theorems": [
    "C108_only_line_types",
    "C108_styles",
    "C108_document"
   ],
   "note": "For every arithmetic (the document level in exact arithmetic)."
  },
  {
   "property": "C109",
   "status": "proved",
   "theorems": [
    "C109_where_it_applies"
   ],
   "note": "For every arithmetic. Stated on computed styles, so a value that children inherit (text-align) must still agree where it applies to them."
  },
  {
   "property": "C110",
   "status": "proved",
   "theorems": [
    "C110_lengths"
   ],
   "note": "In exact arithmetic, for margins, paddings, border widths, width, line-height and vertical-align. Offsets in percent are the subject of C32, where they are refuted."
  },
  {
   "property": "C111",
   "status": "proved",
   "theorems": [
    "C111_rest_stays"
   ],
   "note": "For every arithmetic. The boxes reported for measuring are left out of the comparison."
  },
  {
   "property": "C112",
   "status": "proved",
   "theorems": [
    "C112_floats"
   ],
   "note": "For every arithmetic. A float that is absolutely positioned as well is not a float (C13)."
  }
 ]
}