{"id": "C01", "title": "Document links always form a consistent tree", "statement": "After any sequence of tree-construction calls the HTML parser may make (create element/comment/PI/text, append, insert before a sibling, append doctype, add attributes, remove from parent), every node's parent, first-child, last-child, previous-sibling and next-sibling links agree with one ordered forest: a node is listed exactly once under its parent, the sibling links are inverse of each other, first/last child are the ends of the sibling chain, and no node is its own ancestor.", "quantifier": "every finite sequence of parser operations whose arguments are existing nodes and which never insert a node below itself (the html5ever contract)", "why_tests_cant": "The parser may issue operations in any order; link corruption shows only for particular interleavings of detach/insert/append, which sampling cannot exhaust.", "anchors": ["src/sinab/src/dom/mod.rs: Document::{push_node,detach,append,insert_before}", "src/sinab/src/dom/html.rs: impl TreeSink for Sink"]}
{"id": "C02", "title": "Tree edits have exactly the documented effect on child order", "statement": "append(p,c) makes c the last child of p, insert_before(s,c) puts c immediately before s under s's parent, remove_from_parent(c) removes c; in each case c's own subtree and the relative order of all other nodes' children are unchanged.", "quantifier": "every well-formed document and every admissible pair of nodes", "why_tests_cant": "Frame conditions quantify over all other nodes of all documents.", "anchors": ["src/sinab/src/dom/mod.rs: Document::{detach,append,insert_before}"]}
{"id": "C03", "title": "Document traversal is a complete, duplicate-free, terminating pre-order walk", "statement": "Iterating over the nodes of a document visits exactly the document node and its descendants, each once, parents before children and siblings left to right, and stops.", "quantifier": "every document the parser can build (any depth and width)", "why_tests_cant": "Termination and exact coverage of a pointer-chasing loop is a statement about all trees.", "anchors": ["src/sinab/src/dom/mod.rs: Document::{nodes,next_in_tree_order,node_and_ancestors,node_and_following_siblings}"]}
{"id": "C04", "title": "Parser text is merged, never lost or reordered", "statement": "Appending text to a node (or before a sibling) concatenates it to an adjacent preceding text node if there is one and otherwise creates exactly one new text node; the text content of the parent is the old content with the new text inserted at that place, and no other node's text changes.", "quantifier": "every well-formed document, node and text", "why_tests_cant": "Content preservation is universally quantified over documents and strings.", "anchors": ["src/sinab/src/dom/html.rs: Sink::append_common, append, append_before_sibling"]}
{"id": "C05", "title": "Moving children to another parent moves all of them in order", "statement": "reparent_children(a,b) makes every child of a, in order, the trailing children of b and leaves a empty.", "quantifier": "every well-formed document and pair of distinct nodes, b not below a", "why_tests_cant": "The defect shows only with two or more children; the positive part is universal.", "anchors": ["src/sinab/src/dom/html.rs: reparent_children"]}
{"id": "C06", "title": "Adding missing attributes never changes existing ones", "statement": "add_attrs_if_missing keeps every existing attribute (name, value, order) and afterwards every supplied name is present; looking up any previously present attribute returns the same value.", "quantifier": "every element, every existing and supplied attribute list", "why_tests_cant": "All attribute lists.", "anchors": ["src/sinab/src/dom/html.rs: add_attrs_if_missing", "src/sinab/src/dom/mod.rs: ElementData::get_attr"]}
{"id": "C07", "title": "The root element is found exactly when the document has exactly one element child and no stray text", "statement": "root_element returns the unique element child of the document node; it aborts iff the document node has no children, a text/document child, no element child or two element children.", "quantifier": "every well-formed document", "why_tests_cant": "All shapes of top-level content.", "anchors": ["src/sinab/src/dom/mod.rs: Document::root_element"]}
{"id": "C08", "title": "Author style sheets are exactly the user css followed by the <style> elements with CSS type, in creation order", "statement": "The author rules are those of the user css, then of each style element in creation order whose type attribute is absent or equals text/css ignoring ASCII case, and the text of a style element is the concatenation of its text children.", "quantifier": "every document and user css", "why_tests_cant": "All documents.", "anchors": ["src/sinab/src/dom/mod.rs: parse_stylesheets, child_text_content", "src/sinab/src/dom/html.rs: create_element"]}
{"id": "C09", "title": "Cascade winner", "statement": "For every longhand property of every element the declared value that takes effect is the last one in the order: UA normal, author normal (by specificity then source order, style attribute last), author important, UA important.", "quantifier": "every list of UA and author declaration blocks, every property", "why_tests_cant": "The order relation must hold for arbitrary rule sets and duplicate declarations.", "anchors": ["src/sinab/src/style/cascade.rs: MatchingDeclarations::cascade, StyleSetBuilder::finish", "src/sinab/src/style/declaration_block.rs: DeclarationBlock::cascade", "src/sinab/src/style/properties/macros.rs"]}
{"id": "C10", "title": "Inheritance and initial values", "statement": "With no applicable declaration an inherited property has the parent's computed value and a non-inherited property its initial value; at the root the initial value in both cases. initial, inherit and unset select the initial value, the parent's value, or one of the two by the kind of property, for longhands and for every longhand of a shorthand.", "quantifier": "every property, parent style and rule set", "why_tests_cant": "Thirty-odd properties times all parents.", "anchors": ["src/sinab/src/style/properties/macros.rs: ComputedValues::new, cascade_css_wide_keyword_into", "src/sinab/src/style/declaration_block.rs: parse_value"]}
{"id": "C11", "title": "em lengths do not depend on declaration order", "statement": "A font-size in em is relative to the parent's font size; every other em length is relative to the element's own final font size, no matter where font-size is declared relative to it or in which rule.", "quantifier": "every set of declaration blocks and every order of declarations", "why_tests_cant": "All permutations of declarations and rules.", "anchors": ["src/sinab/src/style/properties/macros.rs: if_early_cascade_into, if_late_cascade_into", "src/sinab/src/style/values/length.rs", "src/sinab/src/style/values/fonts.rs"]}
{"id": "C12", "title": "Border width is zero when the border style is none", "statement": "On every side the computed border width is 0 when that side's computed border style is none and the declared width otherwise.", "quantifier": "every rule set and parent", "why_tests_cant": "All inputs.", "anchors": ["src/sinab/src/style/values/border.rs: fixup", "src/sinab/src/style/values/border.rs: LineWidth::fixup"]}
{"id": "C13", "title": "Out-of-flow boxes are block-level", "statement": "An absolutely positioned or floated element computes to a block-level display (inline becomes block, none/contents stay), its specified display is remembered, and in-flow elements keep their declared display.", "quantifier": "every rule set and parent", "why_tests_cant": "All combinations of position, float, display.", "anchors": ["src/sinab/src/style/values/box_.rs: Display::fixup, blockify"]}
{"id": "C14", "title": "Four-sided shorthands follow the CSS 1-4 value rule", "statement": "margin, padding, border-style, border-color, border-width with one to four values set top, right, bottom, left as CSS prescribes, and set nothing else.", "quantifier": "every list of one to four values of the right kind", "why_tests_cant": "All values.", "anchors": ["src/sinab/src/style/values/generic.rs: FourSides::parse", "src/sinab/src/style/properties/definitions.rs"]}
{"id": "C15", "title": "border shorthands accept their parts in any order and reset omitted parts", "statement": "border, border-top, ... accept any subset (non-empty) of style, colour and width in any order with the same result; parts not mentioned are reset to their initial value.", "quantifier": "every choice and permutation of component values", "why_tests_cant": "All permutations and values.", "anchors": ["src/sinab/src/style/values/border.rs: parse_one_or_more, BorderSide, BorderFourSides"]}
{"id": "C16", "title": "Per-block phase/importance flags never hide a declaration", "statement": "Skipping a declaration block because its any_normal/any_important flag for the phase is false never changes the computed style.", "quantifier": "every declaration block produced by the parser from any declaration list", "why_tests_cant": "All declaration lists.", "anchors": ["src/sinab/src/style/declaration_block.rs: DeclarationBlock::{parse,cascade,parse_value}"]}
{"id": "C17", "title": "An invalid declaration is ignored", "statement": "A declaration that does not parse has no effect on other declarations and never aborts rendering.", "quantifier": "every declaration list", "why_tests_cant": "All token sequences.", "anchors": ["src/sinab/src/style/declaration_block.rs: DeclarationBlock::parse line 30"]}
{"id": "C18", "title": "Every documented property name is recognised", "statement": "Each longhand named in the CSS support document is accepted under its CSS name.", "quantifier": "all property names in the table", "why_tests_cant": "Finite, but the table consistency with CSS naming is a claim over every entry.", "anchors": ["src/sinab/src/style/properties/definitions.rs", "vignettes/supported_CSS.Rmd"]}
{"id": "C19", "title": "CSS keywords are matched ASCII case-insensitively", "statement": "A keyword value is recognised whatever the case of its letters.", "quantifier": "every keyword and every case variant", "why_tests_cant": "All case variants.", "anchors": ["src/sinab/sinab-derive/src/style.rs", "src/sinab/src/style/values/box_.rs: Display::parse"]}
{"id": "C20", "title": "Class selectors match any one of the space-separated classes", "statement": "`.c` matches an element iff c is one of the whitespace-separated words of its class attribute.", "quantifier": "every class attribute and class name", "why_tests_cant": "All attribute strings.", "anchors": ["src/sinab/src/style/selectors.rs: has_class"]}
{"id": "C21", "title": "Selector tree navigation", "statement": "For selector matching, the parent element, previous/next sibling elements, emptiness and root-ness of an element are those of the tree: nearest element sibling skipping text and comments, parent only if an element, :empty iff no element child and no non-empty text child, :root iff no parent element; compound and combinator selectors built on them agree with the declarative meaning.", "quantifier": "every well-formed document and element", "why_tests_cant": "All trees.", "anchors": ["src/sinab/src/style/selectors.rs: find_element, parent_element, next_sibling_element, prev_sibling_element, is_empty, is_root"]}
{"id": "C22", "title": "!important works for every property", "statement": "Any property's valid value followed by !important is accepted as an important declaration of that value.", "quantifier": "every property and valid value", "why_tests_cant": "All properties and values.", "anchors": ["src/sinab/src/style/values/fontfamily.rs", "src/sinab/src/style/declaration_block.rs: parse_value"]}
{"id": "C23", "title": "Absolute units convert consistently", "statement": "1in = 2.54cm = 25.4mm = 6pc = 72pt = 96px, conversions are linear, unit names are case-insensitive, and a unitless number is a length only if it is zero.", "quantifier": "every numeric value", "why_tests_cant": "All numbers.", "anchors": ["src/sinab/src/style/values/length.rs: SpecifiedLength::parse"]}
{"id": "C24", "title": "currentcolor", "statement": "color: currentcolor equals the inherited colour; border and background currentcolor are the element's own computed colour.", "quantifier": "every rule set and parent", "why_tests_cant": "All styles.", "anchors": ["src/sinab/src/style/values/color.rs", "src/sinab/src/style/properties/mod.rs: to_rgba"]}
{"id": "C25", "title": "Logical/physical box conversion is a faithful permutation of sides", "statement": "For every writing mode and direction, converting physical sides to flow-relative sides uses each physical side exactly once, block sides lie on the block axis and inline sides on the inline axis, and converting a size to flow-relative and back is the identity.", "quantifier": "every writing mode, direction and values", "why_tests_cant": "All values and modes.", "anchors": ["src/sinab/src/geom.rs"]}
{"id": "C26", "title": "Padding, border and margin boxes nest exactly", "statement": "The padding/border/margin rectangles of a box fragment are the content rectangle grown by exactly the given sides; growing by two side sets in turn equals growing by their sum, and non-negative sides give containment.", "quantifier": "every box fragment", "why_tests_cant": "All numbers.", "anchors": ["src/sinab/src/geom.rs: Rect::inflate", "src/sinab/src/layout/fragments.rs: padding_rect, border_rect, margin_rect"]}
{"id": "C27", "title": "Collapsed margins are max of positives plus min of negatives", "statement": "Collapsing any set of adjoining margins, in any order and grouping, yields the largest positive margin plus the most negative margin.", "quantifier": "every finite list of margins, every grouping", "why_tests_cant": "All lists and all bracketings.", "anchors": ["src/sinab/src/layout/fragments.rs: CollapsedMargin"]}
{"id": "C28", "title": "In-flow block boxes are stacked", "statement": "In a block formatting context the in-flow boxes are placed top to bottom: the border boxes of successive non-collapsed-through siblings are separated by exactly their collapsed margin, so with non-negative margins they never overlap; the container's content height is the bottom of the last one plus any uncollapsed bottom margin.", "quantifier": "every list of block-level boxes with any margins", "why_tests_cant": "All lists of boxes and margins.", "anchors": ["src/sinab/src/layout/flow/mod.rs: layout_block_level_children, place_block_level_fragment"]}
{"id": "C29", "title": "Horizontal box equation", "statement": "margin-left + border-left + padding-left + width + padding-right + border-right + margin-right equals the containing block width for every in-flow block box.", "quantifier": "every containing block width and box style", "why_tests_cant": "All lengths.", "anchors": ["src/sinab/src/layout/flow/mod.rs:292-333"]}
{"id": "C30", "title": "Auto horizontal margins centre a box", "statement": "A block with a specified width and both horizontal margins auto is centred in its containing block (also when it is too wide: the code then gives equal negative margins).", "quantifier": "all widths", "why_tests_cant": "All lengths.", "anchors": ["src/sinab/src/layout/flow/mod.rs:310-333"]}
{"id": "C31", "title": "Layout's internal assertions and indexings never fail", "statement": "Block layout never trips its margin assertion or unreachable branch, and adjusting the static positions of absolutely positioned descendants never indexes out of range or hits a text fragment.", "quantifier": "every box tree", "why_tests_cant": "All box trees.", "anchors": ["src/sinab/src/layout/flow/mod.rs:112-159", "src/sinab/src/layout/positioned.rs: adjust_static_positions"]}
{"id": "C32", "title": "Relative positioning does not move anything else", "statement": "Giving an in-flow box position: relative and offsets changes only that box's own fragment by exactly the offset; the other fragments, the container's height and collapsed margins are the same.", "quantifier": "every box tree and offset", "why_tests_cant": "Frame condition over all siblings and trees.", "anchors": ["src/sinab/src/layout/mod.rs: relative_adjustement", "src/sinab/src/layout/flow/mod.rs"]}
{"id": "C33", "title": "Absolutely positioned boxes satisfy the CSS constraint equation in each axis of their containing block", "statement": "For every absolutely positioned box: start offset + margins + borders + padding + size + end offset equals the containing block's extent in that axis, with the box placed at that position.", "quantifier": "all containing block sizes and styles", "why_tests_cant": "All lengths.", "anchors": ["src/sinab/src/layout/positioned.rs:114-302"]}
{"id": "C34", "title": "Absolutely positioned boxes take no space", "statement": "Adding or removing absolutely positioned (or floated) boxes changes no other fragment of the container and not its height.", "quantifier": "every box tree", "why_tests_cant": "Frame condition over all trees.", "anchors": ["src/sinab/src/layout/flow/mod.rs: layout_block_level_children"]}
{"id": "C35", "title": "Line breaking preserves text", "statement": "The concatenation of the text fragments produced for a text run is the text of the run in order, with only break opportunities (spaces, newlines) dropped at line ends.", "quantifier": "every text, font metric and available width", "why_tests_cant": "All strings, widths and metrics.", "anchors": ["src/sinab/src/layout/flow/inline.rs: TextRun::layout_wrap, layout_nowrap"]}
{"id": "C36", "title": "Line breaking terminates", "statement": "Laying out any text run and any inline formatting context terminates, whatever the available width (including zero and negative) and font metrics.", "quantifier": "every text, width and metric", "why_tests_cant": "Loop over restored iterators; all widths.", "anchors": ["src/sinab/src/layout/flow/inline.rs: layout_wrap, InlineFormattingContext::layout"]}
{"id": "C37", "title": "A line overflows only without an earlier break opportunity", "statement": "With white-space normal, a line is longer than the available width only if it contains no usable break opportunity before the overflow.", "quantifier": "every text, width and monotone metric", "why_tests_cant": "All strings and widths.", "anchors": ["src/sinab/src/layout/flow/inline.rs: layout_wrap"]}
{"id": "C38", "title": "Unwrapped text breaks exactly at newlines", "statement": "With white-space pre or nowrap the produced lines are exactly the newline-separated segments of the text.", "quantifier": "every text", "why_tests_cant": "All strings.", "anchors": ["src/sinab/src/layout/flow/inline.rs: layout_nowrap"]}
{"id": "C39", "title": "White-space collapsing", "statement": "For white-space normal/nowrap collapsed text contains no newline, tab or two consecutive spaces, keeps every non-white-space character in order, separates exactly the words that were separated, and collapsing is idempotent.", "quantifier": "every sequence of text chunks and every preceding context", "why_tests_cant": "All strings and chunkings.", "anchors": ["src/sinab/src/layout/flow/construct.rs: handle_text_collapse, handle_leading_whitespace"]}
{"id": "C40", "title": "White space between inline siblings is preserved as one space", "statement": "White space between two words that lie in different inline elements renders as one space.", "quantifier": "all inline content", "why_tests_cant": "All trees.", "anchors": ["src/sinab/src/layout/flow/construct.rs: handle_leading_whitespace"]}
{"id": "C41", "title": "Lines are stacked and aligned", "statement": "Line boxes are stacked without gap or overlap, the content height is the sum of the line heights, and text-align shifts each line by the given fraction of its free space without changing relative positions.", "quantifier": "all inline content", "why_tests_cant": "All line contents.", "anchors": ["src/sinab/src/layout/flow/inline.rs: LinesBoxes::finish_line, finish_line"]}
{"id": "C42", "title": "Inline box edges appear once", "statement": "An inline box broken over several lines shows its start padding/border/margin only on its first fragment and its end edges only on its last.", "quantifier": "all inline content and widths", "why_tests_cant": "All breakings.", "anchors": ["src/sinab/src/layout/flow/inline.rs: InlineBox::start_layout, finish_layout"]}
{"id": "C43", "title": "display:none content is skipped and rendering terminates", "statement": "An element with display:none contributes no box and box construction always terminates.", "quantifier": "every document", "why_tests_cant": "All tree shapes.", "anchors": ["src/sinab/src/layout/dom_traversal.rs: unset_boxes_in_subtree, traverse_element"]}
{"id": "C44", "title": "Block inside inline is laid out", "statement": "A block-level element nested in an inline element produces boxes (splitting the inline).", "quantifier": "every document", "why_tests_cant": "All tree shapes.", "anchors": ["src/sinab/src/layout/flow/construct.rs: handle_block_level_element, end_ongoing_inline_formatting_context"]}
{"id": "C45", "title": "Box tree keeps content in document order and is well formed", "statement": "When box construction succeeds, every block container holds either only block-level boxes or one inline formatting context, the sequence of text in the boxes is the document-order sequence of the rendered text after white-space processing, and nothing is duplicated.", "quantifier": "every document and style", "why_tests_cant": "All trees.", "anchors": ["src/sinab/src/layout/flow/construct.rs"]}
{"id": "C46", "title": "Text keeps its own element's style", "statement": "Each piece of text is drawn with the style of its parent element.", "quantifier": "every document", "why_tests_cant": "All trees.", "anchors": ["src/sinab/src/layout/flow/construct.rs: handle_text_collapse, get_last_text", "src/sinab/src/layout/dom_traversal.rs: traverse_element"]}
{"id": "C47", "title": "Every parseable white-space value can be laid out", "statement": "Any accepted white-space value renders.", "quantifier": "all white-space values and texts", "why_tests_cant": "All values and texts.", "anchors": ["src/sinab/src/layout/flow/construct.rs: handle_text", "src/sinab/src/style/values/text.rs"]}
{"id": "C48", "title": "contains_floats is accurate", "statement": "A block formatting context is marked as containing floats iff a float occurs in it outside nested independent formatting contexts.", "quantifier": "all box trees", "why_tests_cant": "All trees.", "anchors": ["src/sinab/src/layout/flow/construct.rs: ContainsFloats"]}
{"id": "C49", "title": "Painting visits fragments in tree order at their absolute position", "statement": "Painting emits each box's background, then its borders (top, right, bottom, left), then its children in order, each at the sum of the offsets of its ancestors' content boxes; translating the page origin translates every emitted primitive by the same vector.", "quantifier": "all fragment trees", "why_tests_cant": "All trees and coordinates.", "anchors": ["src/sinab/src/paint.rs"]}
{"id": "C50", "title": "Nothing invisible is painted", "statement": "No rectangle is drawn for a fully transparent background and no line for a zero-width or style-none border; every visible one is drawn exactly once.", "quantifier": "all fragment trees", "why_tests_cant": "All styles.", "anchors": ["src/sinab/src/paint.rs"]}
{"id": "C51", "title": "Borders lie inside the border box", "statement": "Each border line is the centre line of the strip between border edge and padding edge, with line width equal to the border width.", "quantifier": "all box fragments", "why_tests_cant": "All coordinates.", "anchors": ["src/sinab/src/paint.rs:119-191"]}
{"id": "C52", "title": "The reported bounding box is the least box containing all fragments", "statement": "After rendering, the device's bounding box is exactly the smallest box containing the (y-flipped) margin rectangles of all boxes and the rectangles of all text fragments and line boxes, whatever the order of recording.", "quantifier": "all sequences of recorded rectangles", "why_tests_cant": "All sequences and coordinates.", "anchors": ["src/render_device.c: rdev_record_bbox", "src/sinab/src/graphics_engine/renderer.rs: record_bbox", "src/sinab/src/paint.rs"]}
{"id": "C53", "title": "The device keeps every drawn object in order", "statement": "After any sequence of draw calls the device returns exactly the drawn objects in drawing order, however many there are; the buffer is never overrun and the returned list has exactly that length.", "quantifier": "all sequences of draw calls", "why_tests_cant": "Growth at powers of the capacity; all counts.", "anchors": ["src/render_device.c: rdev_new, rdev_grow, rdev_add_SEXP, rdev_release"]}
{"id": "C54", "title": "Vertical flip is consistent", "statement": "All primitives are flipped about the same horizontal line so that relative positions are preserved: a rectangle covers the same points before and after the flip, and text baseline and line points move accordingly.", "quantifier": "all coordinates", "why_tests_cant": "All coordinates.", "anchors": ["src/render_device.c: rdev_draw_text, rdev_draw_rect, rdev_draw_line, rdev_record_bbox"]}
{"id": "C55", "title": "Graphics contexts are isolated and freed once", "statement": "Changing a graphics context never changes another handle's view; every native context is freed exactly once, never used after being freed, and none is leaked after all handles are dropped.", "quantifier": "all sequences of create, clone, set, drop", "why_tests_cant": "All interleavings of aliasing and mutation.", "anchors": ["src/sinab/src/graphics_engine/renderer.rs: GContext, GContextImpl, Drop", "src/gcontext.c"]}
{"id": "C56", "title": "Font face reflects style and weight", "statement": "The font face is bold iff the weight is bold and italic iff the style is italic or oblique, in whatever order they are set on a fresh context.", "quantifier": "all styles, weights and orders", "why_tests_cant": "All orders.", "anchors": ["src/sinab/src/graphics_engine/renderer.rs: set_fontstyle, set_fontweight"]}
{"id": "C57", "title": "Any font family can be used safely", "statement": "Passing any font-family name to the graphics context stays within its buffers.", "quantifier": "all font-family strings and colours", "why_tests_cant": "All lengths.", "anchors": ["src/gcontext.c: gcontext_set_fontfamily", "src/sinab/src/graphics_engine/renderer.rs: set_fontfamily"]}
{"id": "C58", "title": "Colour strings are faithful", "statement": "The textual colour passed to R identifies the colour: different colours give different strings, the string decodes to the same channels, and it is 7 or 9 characters long.", "quantifier": "all colours", "why_tests_cant": "2^32 colours.", "anchors": ["src/sinab/src/primitives.rs: Display for RGBA"]}
{"id": "C59", "title": "Measured text width is always current", "statement": "After any sequence of edits (append, strip, save/restore) the reported advance width of a text segment is the font's width of its current glyphs, and restoring a saved state yields exactly the segment as saved.", "quantifier": "all edit sequences", "why_tests_cant": "Cache coherence over all histories.", "anchors": ["src/sinab/src/graphics_engine/shaped_segment.rs"]}
{"id": "C60", "title": "Strings crossing the C boundary", "statement": "A string without NUL survives the round trip through the C interface, a string with NUL yields null, and freeing null or a returned string is safe.", "quantifier": "all strings", "why_tests_cant": "All strings.", "anchors": ["src/sinab/src/utils/c_helper.rs"]}
{"id": "C61", "title": "Rendering survives a failure", "statement": "If rendering panics, nothing escapes to the host: what had been drawn before remains and no further drawing happens; all layout happens before any drawing, so a failing layout draws nothing.", "quantifier": "all inputs", "why_tests_cant": "All panicking inputs.", "anchors": ["src/sinab/src/test.rs: sinab_test_renderer", "src/sinab/src/paint.rs: Document::paint_onto"]}
{"id": "C62", "title": "Lines are not broken early", "statement": "Where wrapping text is broken for want of room, the next word would not have fitted on the line, or the line is itself a single word that does not fit.", "quantifier": "every text, font metric and available width", "why_tests_cant": "All strings, widths and metrics.", "anchors": ["src/sinab/src/layout/flow/inline.rs: TextRun::layout_wrap"]}
{"id": "C63", "title": "Float bookkeeping changes nothing", "statement": "Whether a formatting context is marked as containing floats, and which absolutely positioned boxes were met before it, does not change how its in-flow content is laid out.", "quantifier": "every box tree, containing block and layout state", "why_tests_cant": "All trees and states.", "anchors": ["src/sinab/src/layout/flow/mod.rs: BlockFormattingContext::layout, layout_block_level_children"]}
{"id": "C64", "title": "Containing blocks of absolutely positioned boxes", "statement": "Every absolutely positioned box outside floats is laid out exactly once, in tree order, against the padding box of its nearest positioned ancestor (the viewport if there is none); percentages of its padding, borders and margins are of that width, and its specified size is honoured.", "quantifier": "every box tree, style and viewport", "why_tests_cant": "All trees.", "anchors": ["src/sinab/src/layout/positioned.rs: AbsolutelyPositionedFragment::in_positioned_containing_block", "src/sinab/src/layout/flow/root.rs: BoxTreeRoot::layout"]}
{"id": "C65", "title": "All text is drawn", "statement": "Rendering a document draws every character of its text (outside display:none) that is not white space exactly once, in document order unless something is absolutely positioned, and no other text.", "quantifier": "every document, computed style, font metric and page size", "why_tests_cant": "All documents: box construction, line breaking, positioning and painting each have to lose nothing in every nesting.", "anchors": ["src/sinab/src/test.rs: sinab_test_renderer", "src/sinab/src/layout/flow/construct.rs", "src/sinab/src/layout/flow/inline.rs", "src/sinab/src/paint.rs: Document::paint_onto"]}
{"id": "C66", "title": "Baselines", "statement": "All text on a line is drawn with its baseline on the baseline of the line, moved only by the vertical-align values of the inline boxes around it (a length or percentage of the line height raises it, sub and super move it by half the ascent of the parent, middle, top, bottom, text-top and text-bottom as in CSS 2) and by their relative offsets; the baseline is between the top and the bottom of the line.", "quantifier": "every inline content, style, font metric, width and nesting of inline boxes, on every line", "why_tests_cant": "All nestings, metrics and line breaks.", "anchors": ["src/sinab/src/layout/flow/inline.rs: calculate_baseline_shift, PartialInlineBoxFragment::finish_layout, LinesBoxes::finish_line", "src/sinab/src/paint.rs: Fragment::paint_onto"]}
{"id": "C67", "title": "Heights of lines", "statement": "A line is exactly as high as its contents need: each text takes its line height, split evenly around its ascent and descent and moved with its baseline; the line reaches from the highest of these to the lowest. A newline takes the line height of the text it is in, so empty lines have a height, and no line is lower than the line height of its block.", "quantifier": "every inline content, style, font metric, width and nesting of inline boxes, on every line of every page", "why_tests_cant": "All nestings, metrics and line breaks.", "anchors": ["src/sinab/src/layout/flow/inline.rs: calculate_line_ascent_descent, TextRun::layout_wrap, TextRun::layout_nowrap, LinesBoxes::finish_line"]}
{"id": "C68", "title": "No use of collected objects", "statement": "No call into the package uses an R object the garbage collector may have freed, writes outside a vector, uses memory after freeing it or frees it twice, or unprotects more than it protected, whenever the collector runs and whatever the R functions it calls do.", "quantifier": "every sequence of drawing requests, every length of input, every schedule of the garbage collector, every behaviour of the R functions called", "why_tests_cant": "The collector runs at times a test does not control; a missing PROTECT shows only in rare schedules.", "anchors": ["src/render_device.c", "src/r_callbacks.c", "src/render_markdown.c: C_render_markdown", "src/markdown.c: C_md_to_html"]}
{"id": "C69", "title": "Calls return what was drawn and leave nothing behind", "statement": "Rendering returns a list of exactly the graphics objects drawn, in drawing order, with its class and, if one was recorded, the bounding box; afterwards the protection stack, the preserved objects and the allocated memory are as before the call. The same holds for markdown conversion: one string for each input string, in order.", "quantifier": "every sequence of drawing requests (so every number of times the list is enlarged), every schedule of the garbage collector", "why_tests_cant": "All numbers of drawing operations and all schedules.", "anchors": ["src/render_device.c", "src/r_callbacks.c", "src/render_markdown.c: C_render_markdown", "src/markdown.c: C_md_to_html"]}
{"id": "C70", "title": "Errors leave nothing behind", "statement": "When R raises an error or the user interrupts while a document is rendered, everything the package had preserved or allocated is given back.", "quantifier": "every point at which R code or an allocation may fail or be interrupted, in every rendering", "why_tests_cant": "All error points.", "anchors": ["src/render_device.c", "src/r_callbacks.c", "src/render_markdown.c: C_render_markdown", "src/markdown.c: C_md_to_html"]}
{"id": "C71", "title": "Elements have their HTML default style", "statement": "An element the author's style sheets and style attributes say nothing about has the display and the other properties the HTML standard gives it by default; a <br> always keeps its line break and an <input type=hidden> is never shown, whatever the author writes.", "quantifier": "every document, every element of it, every property, every author style sheet that leaves the property alone", "why_tests_cant": "All element names, attributes and style sheets.", "anchors": ["src/sinab/src/style/user_agent.css", "src/sinab/src/style/cascade.rs: style_for_element, USER_AGENT_STYLESHEET", "src/sinab/src/style/rules.rs"]}
{"id": "C72", "title": "Every unstyled document can be rendered", "statement": "A document without styles of its own (what Markdown gives) is rendered, whatever its structure.", "quantifier": "every document the parser can build whose author styles leave display, position, float and white-space alone", "why_tests_cant": "All trees of elements.", "anchors": ["src/sinab/src/layout/mod.rs", "src/sinab/src/layout/flow/root.rs: construct", "src/sinab/src/layout/dom_traversal.rs", "src/sinab/src/style/user_agent.css"]}
{"id": "C73", "title": "A document is styled and drawn as a whole", "statement": "For every document whose style sheets and style attributes can be read, every element's style is the cascade of the default sheet, the user's sheet, the <style> elements and the style attribute, with exactly the rules whose selectors match; if the document is unstyled and renderable, the visible text of the document, and nothing else, is drawn, in order.", "quantifier": "every document, user style sheet, font, text width and page size", "why_tests_cant": "All documents.", "anchors": ["src/sinab/src/dom/mod.rs: parse_stylesheets, root_element", "src/sinab/src/style/cascade.rs", "src/sinab/src/layout/flow/root.rs", "src/sinab/src/lib.rs"]}
{"id": "C74", "title": "Measuring and drawing leave the viewports alone", "statement": "Measuring an HTML grob (makeContext, and so the width and height grid asks for) and drawing it never fail for want of viewports, and afterwards the stack of viewports is exactly what it was, also when the grob has its own viewport or a stack of them and at the top of the viewport tree.", "quantifier": "every stack of viewports, every grob, every viewport or vpStack of its own, every answer of the renderer", "why_tests_cant": "tests use a handful of viewport arrangements; the depth arithmetic around popViewport (where 0 means all) must be right for every depth", "anchors": ["R/grid-utils.R: current_width, current_height", "R/html_grob.R: makeContext.html_grob"]}
{"id": "C75", "title": "The size of an HTML grob", "statement": "The page is laid out in the width and height asked for, measured in the grob's own viewport, or in all of the viewport where none is asked for; the size grid is told afterwards is the one asked for, else that of the bounding box of what was drawn, else that of the viewport; the ascent is the height and the descent zero. Missing positions come from the justification and bare numbers are in the default units.", "quantifier": "every combination of given and missing width, height, x, y, all units that are sums of npc and inches, every viewport and every answer of the renderer", "why_tests_cant": "needs all combinations of NULL, numeric and unit arguments with every viewport", "anchors": ["R/html_grob.R: html_grob, makeContext.html_grob, widthDetails, heightDetails", "R/grid-utils.R: with_unit, current_width, current_height", "src/render_markdown.c: C_render_markdown"]}
{"id": "C76", "title": "Justification", "statement": "A grob drawn with hjust and vjust has the point (hjust, vjust) of its box at (x, y).  False in general (the justification is that of a box of the size of the viewport, and the vertical one has the wrong sign): true exactly if hjust times the difference of the widths and 1-vjust times the sum of the heights vanish, in particular with the default hjust = 0, vjust = 1.", "quantifier": "every position, justification, size, viewport and answer of the renderer", "why_tests_cant": "the deviation depends on the size of the viewport and of the box, and vanishes for the defaults that tests and examples use", "anchors": ["R/html_grob.R: makeContext.html_grob", "src/render_device.c: rdev_new, rdev_draw_text"]}
{"id": "C77", "title": "Vectors of texts", "statement": "Every text of a vector given to html_grob is rendered.  False: only the first text and the first style sheet have an effect; NA is rendered as the empty text, and nothing is drawn if there is no text or no style sheet.", "quantifier": "every vector of texts and style sheets, every renderer", "why_tests_cant": "quantifies over all vectors", "anchors": ["R/html_grob.R: html_grob", "src/render_markdown.c: C_render_markdown"]}
{"id": "C78", "title": "Sharing styles is invisible", "statement": "Styles share their groups of values through reference-counted pointers and copy them before the first write.  For every history of computing styles (inheriting from live styles) and dropping them, every live style has exactly the values it would have as a private copy, computing or dropping one style never changes another, no freed memory is touched, and memory is freed when its last style is dropped.", "quantifier": "every history of style computations and drops, every cascade", "why_tests_cant": "needs all interleavings of inheritance, writes and drops; aliasing bugs show only with particular sharing patterns", "anchors": ["src/sinab/src/style/properties/macros.rs: ComputedValues::new, cascade_css_wide_keyword_into", "src/sinab/src/style/values/border.rs: fixup", "src/sinab/src/style/values/box_.rs: Display::fixup"]}
{"id": "C79", "title": "The text given to html_grob arrives on the device", "statement": "Drawing the grob of a document that can be rendered by default, whose author changes neither display, position, float nor white-space, always succeeds: the objects drawn are exactly those of the drawing calls for the page of the requested size, their texts together are the text of the document in document order up to white space and hyphens, and with the default justification the upper left corner of the page is at the requested position.", "quantifier": "every such document, style sheet, font measurement, viewport stack, requested size and position", "why_tests_cant": "It composes parsing results, cascade, box tree, layout, line breaking, painting, graphics contexts and grid viewports; a test fixes one document, one font and one viewport.", "anchors": ["R/html_grob.R: html_grob, makeContext.html_grob", "src/render_markdown.c: C_render_markdown", "src/sinab/src/test.rs: sinab_test_renderer", "src/sinab/src/layout/flow/root.rs: BoxTreeRoot", "src/render_device.c: rdev_draw_text"]}
{"id": "C80", "title": "Boxes with auto offsets stay where they would be in normal flow", "statement": "An absolutely positioned box whose left and right (or top and bottom) are auto has its margin edge in that axis where it would be in normal flow: below the boxes in front of it and the margins that end there, or behind the content in front of it in its line, however deep it is inside its containing block.", "quantifier": "every box tree, font measurement and viewport; every absolutely positioned box at any depth", "why_tests_cant": "The position is carried up through every ancestor that is not positioned and adjusted at each level; the combinations of nesting, collapsing margins, padding and lines are unbounded.", "anchors": ["src/sinab/src/layout/positioned.rs: adjust_static_positions, absolute_box_offsets, AbsolutelyPositionedFragment", "src/sinab/src/layout/flow/mod.rs: BlockContainer::layout", "src/sinab/src/layout/flow/inline.rs: InlineFormattingContext::layout"]}
{"id": "C81", "title": "Declared values mean what CSS says", "statement": "A declaration of a single value is taken exactly if the value is one the property takes, with the meaning CSS gives it (lengths in all supported units, percentages, numbers, keywords, colours, font names, CSS-wide keywords), and is ignored otherwise; values CSS calls illegal (negative padding, border widths, sizes, line heights) are ignored.", "quantifier": "every longhand, every token, every spelling of the property name, every colour syntax", "why_tests_cant": "The values are unbounded (numbers, units, names) and each of the 39 longhands has its own parser assembled by macros and derives; a wrong table entry or order of alternatives shows only for some of them.", "anchors": ["src/sinab/src/style/values/length.rs", "src/sinab/src/style/values/box_.rs", "src/sinab/src/style/values/fonts.rs", "src/sinab/src/style/values/fontfamily.rs", "src/sinab/src/style/values/border.rs", "src/sinab/src/style/values/text.rs", "src/sinab/src/style/values/line.rs", "src/sinab/src/style/properties/definitions.rs", "src/sinab/src/style/declaration_block.rs: DeclarationBlock::parse"]}
{"id": "C82", "title": "Dispatch on declarations reads memory safely and applies each value to its own property", "statement": "Methods on the enums of properties and declarations are dispatched through tables of functions that reinterpret the memory of the value. For every enum and method that compiles, a call does exactly what matching on the value would do: it never reads a field as another type and never indexes the table out of range. A declared value therefore reaches its own property, in the phase its property belongs to.", "quantifier": "every enum declared this way, every method, every value; every declaration of the style system, every style", "why_tests_cant": "The soundness of the unsafe reinterpretation depends on variants and arms being consumed in step for every enum; a test exercises a few variants of one enum, and undefined behaviour need not be visible.", "anchors": ["src/sinab/src/utils/tagged_union_with_jump_tables.rs: tagged_union_with_jump_tables!", "src/sinab/src/style/properties/macros.rs: LonghandId, LonghandDeclaration, is_early", "src/sinab/src/style/properties/definitions.rs"]}
{"id": "C83", "title": "Rendering succeeds and draws all the text in floating point too", "statement": "The code computes with 32-bit floating point numbers. Whatever numbers the style sheets contain, whatever metrics the fonts report and whatever the size of the page - however large, infinite or not a number, and however sums are rounded - layout of a document ends, it never panics, and the text outside floats is drawn exactly once, in document order where nothing is absolutely positioned; lines are cut only at break opportunities.", "quantifier": "every document, every computed style, every font metric and page size, over all values of f32 including infinities and NaN", "why_tests_cant": "Rounding, overflow and NaN make comparisons behave unlike numbers for a set of inputs no test can enumerate; a loop that ends for every number a test tries may not end for NaN.", "anchors": ["src/sinab/src/style/values/length.rs: Length", "src/sinab/src/layout/flow/mod.rs", "src/sinab/src/layout/flow/inline.rs", "src/sinab/src/layout/fragments.rs"]}
{"id": "C84", "title": "Equal lengths stay equal, and boxes add up, in floating point", "statement": "Although lengths are 32-bit floating point numbers, the same length written in different units gives the same number of pixels, and the margins, borders, paddings and content width of an in-flow box add up to the width of its containing block (where C29 says they do).", "quantifier": "every length and unit; every page and in-flow box on it", "why_tests_cant": "Rounding errors appear for some numbers and not for others; a test with whole pixels never sees them.", "anchors": ["src/sinab/src/style/values/length.rs: SpecifiedLength::parse", "src/sinab/src/layout/flow/mod.rs: layout_in_flow_non_replaced_block_level"]}
{"id": "C85", "title": "Formatting of the source does not show", "statement": "Adding or removing comments, and replacing runs of white space by others where white space collapses, anywhere in the document, changes neither what is drawn nor whether it is drawn.", "quantifier": "every document, every placement of comments, every choice of white space, all styles, fonts and page sizes", "why_tests_cant": "Comments split text nodes and separate siblings at any place; whether the pieces join again depends on the text before them, the style and the open inline boxes.", "anchors": ["src/sinab/src/layout/dom_traversal.rs: traverse_children_of", "src/sinab/src/layout/flow/construct.rs: handle_text, BlockContainerBuilder"]}
{"id": "C86", "title": "Only the document tree matters", "statement": "What is drawn, and whether drawing fails, depends on the document tree alone (and the user's style sheet): two documents with the same tree - kinds of nodes, names, attributes, texts and their order - are drawn in the same way, however the parser built them and whatever other nodes it created on the way.", "quantifier": "every two edit histories that lead to the same tree, every user style sheet, font, text width and page size", "why_tests_cant": "There are infinitely many histories leading to one tree (misnested tags, foster parenting, removed and moved nodes); selectors, styles and boxes are computed by following links in the arena the history left behind.", "anchors": ["src/sinab/src/dom/mod.rs: Document, Node, parse_stylesheets", "src/sinab/src/dom/html.rs: Sink", "src/sinab/src/style/selectors.rs", "src/sinab/src/layout/dom_traversal.rs"]}
{"id": "C87", "title": "Enlarging a document enlarges its drawing", "statement": "Multiply every absolute length in the style sheets and style attributes, the page size and the text measurements by the same positive factor: exactly the same things are drawn in the same order, with the same line breaks, texts and colors, and every position, size and line width is multiplied by that factor. Lengths in em, percentages and plain line heights need no change. This is about lengths without rounding and about documents that do not fall back on the two built-in lengths (the initial font size of 16px, the initial border width of 3px).", "quantifier": "every positive factor, document, style sheet, style attribute, page size and font metrics", "why_tests_cant": "A test compares a few sizes; whether any constant is hidden in the layout (a minimum width, a tolerance, a pixel offset) shows only for the documents that reach it.", "anchors": ["src/sinab/src/layout/flow", "src/sinab/src/layout/positioned.rs", "src/sinab/src/geom.rs", "src/sinab/src/style/values", "src/sinab/src/style/properties", "src/sinab/src/paint.rs"]}
{"id": "C88", "title": "Appending leaves text where it is", "statement": "Append block-level content at the end of a document, or at the end of its last block, or of the last block in that, and so on: every text the document had is drawn at exactly the same place as before, with the same font and color, and before all new text. (Absolutely positioned elements may be anchored to a bottom edge and are left out.)", "quantifier": "every document, every place at the end to append at, every appended content (floats and absolutely positioned elements included), all styles, fonts and page sizes", "why_tests_cant": "Whether an earlier text moves depends on margins collapsing through the last boxes, on anonymous boxes that appear because of the new block, on percentages and relative offsets at any depth.", "anchors": ["src/sinab/src/layout/flow/mod.rs: layout_block_level_children, layout_in_flow_non_replaced_block_level", "src/sinab/src/layout/flow/construct.rs: BlockContainerBuilder", "src/sinab/src/paint.rs"]}
{"id": "C89", "title": "Attributes matter only where they are looked at", "statement": "An attribute other than style, type and hidden that no selector of the style sheets looks at has no effect at all: documents that differ in such attributes only are drawn, or fail, in the same way. The style attribute of an element changes the styles of that element and of the elements below it only, provided no selector looks at style attributes: all other elements have the same style whatever it says.", "quantifier": "every document, every change of attributes, every set of style sheets, selectors and combinators (also inside :not), every style, font and page size", "why_tests_cant": "Selectors reach across the whole document (ancestors, earlier siblings, positions among siblings, negation), so one attribute can influence any element; a test checks a handful of sheets and trees.", "anchors": ["src/sinab/src/style/selectors.rs: attr_matches, has_id, has_class, matches", "src/sinab/src/style/cascade.rs: style_for_element, push_matching", "src/sinab/src/style/user_agent.css", "src/sinab/src/dom/mod.rs: parse_stylesheets, get_attr"]}
{"id": "C90", "title": "Colours never move anything", "statement": "Take a document and change only colours (text, background and border colours) in its styles. Then exactly the same texts, lines and boxes are drawn in the same order, in the same fonts and at the same places, and the rendering succeeds or fails in the same way; only the colours differ. Filled background rectangles appear or vanish only where a background becomes visible or transparent; if visibility is unchanged they are the same rectangles too. Two user style sheets that have the same rules and, leaving out colour declarations, the same valid declarations, give such styles.", "quantifier": "all documents, all pairs of style assignments (or of user style sheets) that differ in colour properties only, all font and text-width measurements that do not look at colours, all page sizes, every arithmetic (exact or rounded)", "why_tests_cant": "Testing compares a few documents in a few colours; the claim is about every document and every recolouring, and a single place in cascade, box construction, layout or painting that looks at a colour would break it.", "anchors": ["src/sinab/src/style/cascade.rs: style_for_element", "src/sinab/src/style/properties/mod.rs: to_rgba", "src/sinab/src/layout/flow/mod.rs: layout", "src/sinab/src/layout/flow/inline.rs: layout", "src/sinab/src/paint.rs: paint_onto", "src/sinab/src/layout/flow/construct.rs"]}
{"id": "C91", "title": "A wider box needs no more lines", "statement": "Laying out the same text in a wider containing block never gives more lines, if no piece of text is wider than a longer text that ends with it.", "quantifier": "every text, style, font metric and pair of containing block widths, one not narrower than the other", "why_tests_cant": "All texts, widths and metrics; the break positions of all lines have to be compared.", "anchors": ["src/sinab/src/layout/flow/inline.rs: TextRun::layout_wrap"]}
{"id": "C92", "title": "Words do not run together", "statement": "Two words with a space or newline between them in the content are shown on different lines, or on one line with the space between them: characters are dropped only where a line ends.", "quantifier": "all inline content (runs in any nesting of inline boxes), every font metric and width", "why_tests_cant": "Whether a space is dropped inside a line depends on the widths of all runs before it.", "anchors": ["src/sinab/src/layout/flow/inline.rs: TextRun::layout_wrap, InlineFormattingContext::layout"]}
{"id": "C93", "title": "Style sheets can be rewritten", "statement": "Rewriting style sheets in ways that do not change what they say changes neither the computed styles nor what is drawn: grouped selectors may be split into several rules and back, blocks may be split and joined, shorthands may be written out, declarations of different properties may be reordered, rules may be swapped if they share no property, no element or no specificity, and rules that are overridden later, match nothing, declare nothing or cannot be read may be left out.", "quantifier": "every document, every pair of author style sheets related by any sequence of such rewritings, every font metric and page", "why_tests_cant": "All style sheets, all sequences of rewritings and all documents.", "anchors": ["src/sinab/src/style/cascade.rs: StyleSetBuilder::add_stylesheet, StyleSetBuilder::finish, StyleSet::push_matching", "src/sinab/src/style/rules.rs: RulesParser", "src/sinab/src/style/declaration_block.rs: DeclarationBlock"]}
{"id": "C94", "title": "What is put in front moves the rest as a whole", "statement": "Put something in front of a document without absolutely positioned elements, or in front of the content of its first block, or of the first block in that, and so on (blocks of automatic height, with a block where new and old meet): every text the document had is drawn after the new ones and in the same order, with the same line breaks, font and colour and at the same distance from the left edge, and all of them are moved down by one and the same distance.", "quantifier": "every document, everything put in front of it, every font metric and page size", "why_tests_cant": "All documents and all new contents, with every combination of margins that collapse.", "anchors": ["src/sinab/src/layout/flow/mod.rs: place_block_level_fragment, layout_block_level_children, layout_in_flow_non_replaced_block_level", "src/sinab/src/layout/flow/construct.rs: BlockContainer::construct"]}
{"id": "C95", "title": "An inline element that adds nothing changes nothing", "statement": "Put an inline element without border, background, margin, padding or position of its own, such as a span that no rule of a style sheet matches, around inline content: everything that was drawn is drawn in the same order and in the same place, with the same line breaks, fonts and colours, and nothing else is drawn.", "quantifier": "every document, every number of such elements at any depth, every font metric and page size", "why_tests_cant": "All documents, all nestings of inline boxes, and all line breaks that fall into or around the element.", "anchors": ["src/sinab/src/layout/flow/inline.rs: InlineFormattingContext::layout, InlineBox::start_layout, PartialInlineBoxFragment::finish_layout", "src/sinab/src/layout/flow/construct.rs: BlockContainerBuilder::handle_inline_level_element, handle_text, handle_leading_whitespace", "src/sinab/src/style/cascade.rs: style_for_element"]}
{"id": "C96", "title": "Characters arrive in every locale", "statement": "Whatever the locale R runs in and whatever encoding the strings are marked with, md_to_html converts each string of a vector on its own and R shows the conversion of the text it shows for the input; rendering is given the text and style sheet R shows for the arguments; and the text that is drawn is shown by R as the text it is.  The last part is false: text grobs are made of strings that are not marked as UTF-8, so in a locale with another encoding everything but ASCII is garbled (the measurements are those of the right text).", "quantifier": "every locale, every vector of strings with any encoding marks, every text, every state of the device and of the C strings", "why_tests_cant": "Tests run in one locale, usually UTF-8; the property is about all locales, marks and texts.", "anchors": ["src/markdown.c: C_md_to_html", "src/render_markdown.c: C_render_markdown", "src/render_device.c: rdev_draw_text", "src/sinab/src/markdown.rs: sinab_md_to_html", "src/sinab/src/utils/c_helper.rs"]}
{"id": "C97", "title": "A block that adds nothing changes nothing", "statement": "In a document without absolutely positioned elements and without percentage or negative padding above and below, put a block without margin, padding, border, background, size or position of its own, such as a plain div, around some blocks (with nothing but white space and comments between them) in a block of automatic height: the same texts, rectangles and lines are drawn, in the same order and in the same places. Margins collapse through the new block as they did without it.", "quantifier": "every document, every place in it at any depth, every combination of margins, every font metric and page size", "why_tests_cant": "All documents and all combinations of margins that collapse between parents, children and neighbours.", "anchors": ["src/sinab/src/layout/flow/mod.rs: place_block_level_fragment, layout_block_level_children, layout_in_flow_non_replaced_block_level", "src/sinab/src/layout/flow/construct.rs: BlockContainer::construct, handle_block_level_element", "src/sinab/src/layout/fragments.rs: CollapsedMargin::adjoin, CollapsedBlockMargins"]}
{"id": "C98", "title": "An element with display: contents that only inherits changes nothing", "statement": "Take away elements with display: contents that change nothing their contents inherit, and leave their contents in their place: the one document is drawn to the end if and only if the other is, and the same texts, rectangles and lines are drawn in the same order and in the same places.", "quantifier": "every document, any number of such elements at any depth, nested or not, every font metric and page size", "why_tests_cant": "All documents and all sets of places in them; white space is collapsed and blocks split lines across the borders of the element that is taken away.", "anchors": ["src/sinab/src/layout/flow/construct.rs: BlockContainerBuilder::handle_element, handle_text, handle_block_level_element, handle_inline_level_element, end_ongoing_inline_formatting_context", "src/sinab/src/layout/dom_traversal.rs: traverse_children_of, traverse_element", "src/sinab/src/style/values/box_.rs: Display::Contents"]}
{"id": "C99", "title": "The edges of the outermost element and the page only move what is in it", "statement": "Draw the same contents in outermost elements with other margins, borders, padding, width, height and background, on pages of other sizes, so that the same width (and height, if one is given) is left for the contents: the one is drawn to the end if and only if the other is, and apart from the backgrounds and borders of the outermost elements the same texts, rectangles and lines are drawn in the same order, each moved by exactly the difference between margin + border + padding at the left and at the top. No element is absolutely positioned.", "quantifier": "every document, every two pages, every combination of lengths and percentages for the edges, every font metric", "why_tests_cant": "All documents, page sizes and edges.", "anchors": ["src/sinab/src/layout/flow/mod.rs: layout_in_flow_non_replaced_block_level, place_block_level_fragment, layout_block_level_children", "src/sinab/src/layout/flow/root.rs: BoxTreeRoot::construct, BoxTreeRoot::layout", "src/sinab/src/paint.rs"]}
{"id": "C100", "title": "A block of fixed height keeps its contents to itself", "statement": "Take a document that is drawn to the end and in which some block, at any depth inside blocks, is empty, has a length as its height and is a flow root or has padding or a border at the top. Put anything into that block: everything drawn before is still drawn, in the same places and the same order, and what is drawn in addition comes all at one point of the drawing, which is the same whatever is put in. No element is absolutely positioned.", "quantifier": "every document, every such block in it, every contents put into it, every page size, every font metric", "why_tests_cant": "All documents and all contents: that nothing leaks out (height, margins, line state) is a statement about every pair of them.", "anchors": ["src/sinab/src/layout/flow/mod.rs: layout_in_flow_non_replaced_block_level, place_block_level_fragment, layout_block_level_children, BlockFormattingContext::layout", "src/sinab/src/layout/flow/construct.rs: BlockContainerBuilder", "src/sinab/src/paint.rs"]}
{"id": "C101", "title": "Letters matter only through their widths", "statement": "Write all texts of a document in other letters, one character for one, keeping white space and hyphens, such that every text stays as wide as it was; the new letters may take another number of bytes. With the same styles the same drawing calls are made in the same order: the same boxes, lines and backgrounds, and the same texts in the new letters, broken at the same places, at the same positions. The rendering ends in the same way.", "quantifier": "every document, every renaming of characters that keeps white space and hyphens, every width function that does not tell the letters apart, every font, every page size, in exact and in single-precision arithmetic", "why_tests_cant": "Quantifies over all texts, all renamings and all widths. Line breaking returns to a break opportunity by a number of bytes, so texts in letters of one byte say nothing about others.", "anchors": ["src/sinab/src/layout/flow/inline.rs: TextRun::layout, TextRun::layout_wrap, TextRun::layout_nowrap", "src/sinab/src/graphics_engine/shaped_segment.rs: ShapedSegment", "src/sinab/src/layout/flow/construct.rs: handle_text", "src/sinab/src/paint.rs"]}
{"id": "C102", "title": "Aligning text moves it only sideways", "statement": "Change declarations of text-align in the user's style sheet, or any alignments in the styles of a document: the same drawing calls are made in the same order, the same texts in the same fonts and colours with the same line breaks, the same lines, rectangles and boxes, all of the same size and at the same height, and each of them at most moved to the left or the right. The rendering ends in the same way.", "quantifier": "every document, every change of alignments anywhere in it, every font metric, every page size", "why_tests_cant": "Ranges over all documents and all pairs of alignments: aligned lines contain boxes and absolutely positioned boxes, whose places, sizes and line breaks could depend on where a line starts.", "anchors": ["src/sinab/src/layout/flow/inline.rs: InlineFormattingContextState::finish_line, LinesBoxes::finish_line", "src/sinab/src/layout/positioned.rs: adjust_static_positions", "src/sinab/src/layout/flow/mod.rs", "src/sinab/src/style/cascade.rs: cascade"]}
{"id": "C103", "title": "Vertical properties change nothing across the page", "statement": "Change heights, line heights, vertical alignments, offsets from the top and the bottom, and margins, borders and paddings at the top and the bottom, in the user's style sheet or anywhere in the styles of a document, and the height of the page: the same texts are drawn in the same order, in the same fonts and colours, with the same line breaks, starting at the same distance from the left edge, and the same backgrounds and boxes are drawn at the same distance from the left edge and equally wide. The rendering ends in the same way.", "quantifier": "every document, every change of vertical properties anywhere in it, every font metric, every page size, in exact and in single-precision arithmetic", "why_tests_cant": "Ranges over all documents and all pairs of values of the vertical properties: sizes and positions in both directions are computed side by side from the same kind of vectors, and percentages, automatic sizes and absolutely positioned boxes look at the size of the containing block.", "anchors": ["src/sinab/src/layout/flow/mod.rs", "src/sinab/src/layout/flow/inline.rs", "src/sinab/src/layout/positioned.rs: 265", "src/sinab/src/paint.rs", "src/sinab/src/style/cascade.rs: cascade"]}
{"id": "C104", "title": "Horizontal properties change nothing down the page where text is not wrapped", "statement": "In a document whose text is not wrapped (white-space nowrap or pre) and whose margins, borders and paddings at the top and the bottom are not in percent, change widths, text alignments, offsets from the left and the right, and margins, borders and paddings at the left and the right, in the user's style sheet or anywhere in the styles of the document, and the width of the page: the same texts are drawn in the same order, in the same fonts and colours, at the same heights, and the same backgrounds and boxes are drawn at the same heights and equally high. The rendering ends in the same way.", "quantifier": "every document with unwrapped text, every change of horizontal properties anywhere in it, every font metric, every page size, in exact and in single-precision arithmetic", "why_tests_cant": "Ranges over all documents and all pairs of values of the horizontal properties: sizes and positions in both directions are computed side by side from the same kind of vectors, and percentages, automatic margins, relatively and absolutely positioned boxes look at the width of the containing block.", "anchors": ["src/sinab/src/layout/flow/mod.rs", "src/sinab/src/layout/flow/inline.rs: TextRun::layout_nowrap", "src/sinab/src/layout/positioned.rs: 219", "src/sinab/src/paint.rs", "src/sinab/src/style/cascade.rs: cascade"]}
{"id": "C105", "title": "Element names matter only where they are looked at", "statement": "Rename elements of a document so that neither the old nor the new name is mentioned in a selector of its style sheets or is one of the elements with a style or behaviour of their own (the ones not displayed, the blocks, embed, input, em, strong, code, br, pre, sub and sup): exactly the same is drawn, and the rendering ends in the same way. In particular headings, lists, tables and unknown elements are no different from span. Each of the elements with a style of their own differs from span.", "quantifier": "every document, every renaming, all style sheets of the supported selectors, all styles, fonts and page sizes", "why_tests_cant": "Ranges over all documents and all pairs of names; selectors can mention names through combinators and :not, on siblings and ancestors of the element that changes.", "anchors": ["src/sinab/src/style/selectors.rs: has_local_name", "src/sinab/src/style/user_agent.css", "src/sinab/src/layout/dom_traversal.rs: traverse_element (br)"]}
{"id": "C106", "title": "What is not displayed does not matter", "statement": "Two documents that differ only in what is not displayed - what is inside elements with display:none, comments, and elements with display:none that are followed by something - are drawn in exactly the same way, and the rendering ends in the same way, whatever the arithmetic. Of a line break only the style counts.", "quantifier": "all pairs of documents whose displayed nodes are the same, at any depth, all styles, fonts and page sizes, in exact and in single-precision arithmetic", "why_tests_cant": "Ranges over all documents and over everything that may be hidden in them, anywhere in the tree.", "anchors": ["src/sinab/src/layout/dom_traversal.rs: traverse_children_of, traverse_element, unset_boxes_in_subtree", "src/sinab/src/layout/flow/root.rs: construct_for_root_element"]}
{"id": "C107", "title": "The height of the page matters only through percentages and distances from the bottom", "statement": "The same document is drawn with exactly the same calls, and ends in the same way, on two pages of the same width and different heights, whatever the arithmetic, unless the height of the root element is a percentage or something is absolutely positioned by its distance from the bottom only. In particular text that does not fit on the page is not cut off or moved.", "quantifier": "all documents, styles, fonts, page widths and pairs of page heights, in exact and in single-precision arithmetic", "why_tests_cant": "Ranges over all documents and all pairs of page heights.", "anchors": ["src/sinab/src/layout/flow/root.rs: BoxTreeRoot::layout", "src/sinab/src/layout/positioned.rs: AbsolutelyPositionedFragment::layout", "src/sinab/src/layout/flow/mod.rs: layout_in_flow_non_replaced_block_level", "src/sinab/src/paint.rs: paint_onto"]}
{"id": "C108", "title": "Line styles of borders change only the lines", "statement": "Drawing borders with other lines - solid, dashed or dotted, but not adding or removing a border - moves nothing: the same calls are made in the same order, and only the line type of the lines drawn differs; they join the same points, in the same color and width. The rendering ends in the same way. This holds for documents whose style sheets, style attributes and user css differ in such declarations.", "quantifier": "all documents, all pairs of style sheets that differ in declared line styles other than none, all fonts and pages, in exact and in single-precision arithmetic", "why_tests_cant": "Ranges over all documents, cascades and pairs of style sheets.", "anchors": ["src/sinab/src/paint.rs: BoxFragment::paint_onto", "src/sinab/src/style/properties/mod.rs: ComputedValues", "src/sinab/src/style/values/border.rs: fixup", "src/sinab/src/layout/flow/mod.rs: layout_in_flow_non_replaced_block_level"]}
{"id": "C109", "title": "Properties change nothing where they do not apply", "statement": "A property that does not apply to an element has no effect on the drawing. Offsets (top, right, bottom, left) count only on positioned elements that have a box; width, height and text-align only on blocks; vertical-align only on inline boxes; margins, paddings, borders and backgrounds not on elements that are display: contents, on line breaks or on elements that are not displayed. Changing only such values leaves all drawing calls, their order and the way rendering ends exactly as they were.", "quantifier": "all pairs of documents with the same nodes whose elements have the same computed values of every property that applies to them (the root counts as a block), all fonts and page sizes, in exact and in single-precision arithmetic", "why_tests_cant": "Ranges over all documents and all values of all properties that do not apply, nested to any depth.", "anchors": ["src/sinab/src/layout/flow/inline.rs: InlineBox::start_layout, InlineFormattingContext::layout", "src/sinab/src/layout/flow/mod.rs: layout_in_flow_non_replaced_block_level", "src/sinab/src/layout/flow/construct.rs: BlockContainerBuilder", "src/sinab/src/layout/mod.rs: relative_adjustement", "src/sinab/src/paint.rs: Fragment::paint_onto"]}
{"id": "C110", "title": "A percentage means the same as the length it stands for", "statement": "Writing a margin, padding, border width or width in percent or as the length that this percentage of the width of the containing block comes to, a line height as a number, in percent or as a length, and a vertical alignment in percent of the line height or as a length, are interchangeable: the same drawing calls are made in the same order and rendering ends in the same way. The containing block of an element is the content box of the block it is in, and the page for the root.", "quantifier": "all pairs of documents with the same nodes whose computed values of these properties come to the same lengths, element by element and at any depth (absolutely positioned elements the same), all fonts and page sizes, exact arithmetic", "why_tests_cant": "Ranges over all documents, values and nestings; the length a percentage stands for depends on all blocks around the element.", "anchors": ["src/sinab/src/style/values/length.rs: percentage_relative_to", "src/sinab/src/layout/flow/mod.rs: layout_in_flow_non_replaced_block_level", "src/sinab/src/layout/flow/inline.rs: InlineBox::start_layout, calculate_baseline_shift", "src/sinab/src/geom.rs: percentages_relative_to"]}
{"id": "C111", "title": "Absolutely positioned elements leave everything else where it is", "statement": "Empty any of the absolutely positioned elements of a document and make them invisible (no background, no borders), with whatever sizes, offsets and margins. What is still drawn - texts, rectangles and lines - was drawn before, at the same places and in the same order, between what the absolutely positioned elements drew: they take no space, and no other element depends on what is in them.", "quantifier": "every document, every choice of absolutely positioned elements at any depth (in blocks, between and inside inline elements), all contents and styles of these elements, all fonts and page sizes, every arithmetic; both documents drawn to the end", "why_tests_cant": "Ranges over all documents and all contents of the absolutely positioned elements; a test can only compare the drawings of a few.", "anchors": ["src/sinab/src/layout/positioned.rs: AbsolutelyPositionedBox::layout, AbsolutelyPositionedFragment::in_positioned_containing_block", "src/sinab/src/layout/flow/construct.rs: handle_absolutely_positioned_element", "src/sinab/src/layout/flow/mod.rs: layout_block_level_children", "src/sinab/src/layout/flow/inline.rs: InlineFormattingContext::layout", "src/sinab/src/paint.rs"]}
{"id": "C112", "title": "What is in a float does not matter", "statement": "Two documents that differ in their floats only - in what is in them, in the side they float to and in all their other styles - are drawn with the same calls in the same order, if both are drawn to the end. Floats are neither drawn (a limitation of the program, see C65) nor do they move, widen or narrow anything else.", "quantifier": "every pair of documents that are the same outside floats, floats at any depth (between blocks, and in inline content), all contents and styles of the floats, all fonts and page sizes, every arithmetic; both documents drawn to the end", "why_tests_cant": "Ranges over all documents and all contents of floats.", "anchors": ["src/sinab/src/layout/flow/float.rs", "src/sinab/src/layout/flow/mod.rs: BlockLevelBox::layout, layout_block_level_children", "src/sinab/src/layout/flow/inline.rs: InlineFormattingContext::layout", "src/sinab/src/layout/flow/construct.rs: handle_float_element"]}
