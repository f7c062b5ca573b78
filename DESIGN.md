# Formal model of sinab in Rocq (Coq 8.16.1)

`/repo` (clauswilke/sinab) renders Markdown/HTML+CSS to R grid graphics: an HTML
parser sink builds an arena DOM (`dom/`), a style engine computes values
(`style/`), a box tree is generated and laid out (`layout/`), fragments are painted
(`paint.rs`) onto a C render device (`graphics_engine/`, `src/*.c`).

The development in `rocq/theories` models that pipeline function by function.
Every model definition cites the file and lines it models.  Conventions:

* `XxxModel.v`  executable Gallina definitions, no proofs;
* `XxxSpec.v`   small declarative specification, independent of the model's helpers;
* `XxxProofs.v` lemmas;
* `PropXxx.v`   only the property theorems, each closed by `exact lemma`, each followed
  by `Print Assumptions`, with a non-vacuity `Example` next to it.

## Modelling decisions (part of the trusted base)

* **Panics** (`assert!`, `unwrap`, `unreachable!`, `unimplemented!`, index out of range,
  `RefCell` borrow errors) are an explicit `Panic` outcome of a `result` type.  C undefined
  behaviour (buffer overrun, use after free) is an explicit error value as well.
* **Loops** over links use explicit fuel with an explicit `OutOfFuel` outcome; theorems either show
  that a computable amount of fuel suffices, or (non-termination findings) that no amount does.
* **Lengths.** The models of style, box construction, layout and painting are written over an open arithmetic
  (`Arith` in `Len.v`: any type with any operations `+ - * / <= max ...`).  Where a theorem names no arithmetic the exact
  one is meant (canonical rationals `Qc`): its geometric equalities are about the real-number semantics of the code.
  Theorems that begin with `{ar : Arith}` hold in *every* arithmetic, those with `{Z : ZeroLaws ar}` in every arithmetic
  where 0 = 0 and 0 + 0 = 0.  `F32.v` instantiates it with the arithmetic of the code: IEEE binary32 with rounding to
  nearest even, infinities and NaN, from the definitions of the standard library's `SpecFloat` (no axioms, no primitive
  floats).  C83 restates the document-level guarantees in it; C84 says what of the geometry survives rounding.  The C++
  code that converts to `double` points and the R code (C57-C60, C76) are modelled in exact arithmetic only.
* **`Arc`/`Rc`/`Box`** sharing is erased except for `GContext` and the style structs, whose copy-on-write and
  ownership are modelled with explicit heaps (C55, C78).  `RefCell` borrow state is modelled where it matters
  (`unset_boxes_in_subtree`).  The code is sequential: the `rayon` version of box construction is commented out.
* **External crates.** html5ever (tokenizer and tree builder), pulldown-cmark, cssparser's tokenizer, the
  `selectors` crate, R's graphics API and font metrics are not modelled as code.  They appear as
  inputs (arbitrary operation sequences, arbitrary token lists, arbitrary metric functions)
  over which the theorems quantify, or as small contracts stated in comments (cssparser's
  `try`, `parse_until_after`/`parse_entirely`; compound/combinator matching of `selectors`).
* **Strings.** Text is a list of Unicode scalar values (`N`), CSS identifiers and attribute values are Coq `string`s.

## Trusted base

* **Coq's kernel** (8.16.1), with `vm_compute`; no kernel check is switched off.
* **Axioms.**  `Print Assumptions` says "Closed under the global context" for every theorem of the manifest (it stands
  below each of them, so a build prints it).  Axioms of the standard library that are loaded but not used by any of
  these theorems: `Coq.ssr.ssrunder.Under_rel.*` (fields of a sealed module of ssreflect, loaded by `Lia` and the arithmetic libraries).
* **The transcription** of the code into the `*Model.v` files and `Len.v`, `Base.v`.  No extraction or translation tool is used.  What
  is modelled, and where:

| code | model |
|------|-------|
| `dom/mod.rs`, `dom/html.rs` | `DomModel.v` |
| `style/selectors.rs` | `SelModel.v` (with a contract for the `selectors` crate) |
| `style/{cascade,declaration_block,rules}.rs`, `style/properties/*`, `style/values/*`, `sinab-derive/src/{style,generic}.rs` | `StyleModel.v`; `ShareModel.v` for the sharing of style structs |
| `style/user_agent.css` | transcribed in `UaModel.v` |
| `utils/tagged_union_with_jump_tables.rs`, the enums of `style/properties/macros.rs` | `JumpModel.v` |
| `geom.rs`, `layout/fragments.rs`, `primitives.rs` | `GeomModel.v`, `GfxModel.v` |
| `layout/dom_traversal.rs`, `layout/flow/construct.rs` | `TreeModel.v`, `UnsetModel.v` |
| `layout/mod.rs`, `layout/positioned.rs`, `layout/flow/{mod,root,float}.rs` | `BlockModel.v` |
| `layout/flow/inline.rs` | `InlineModel.v` |
| `paint.rs`, `test.rs` | `PaintModel.v` |
| `graphics_engine/*`, `utils/c_helper.rs`, `gcontext.c`, `render_device.c`, `r_callbacks.c`, `renderer.h` | `GfxModel.v`, `CStrModel.v` |
| `render_device.c`, `r_callbacks.c`, `markdown.c`, `render_markdown.c` against R's memory manager | `GcModel.v` |
| `R/html_grob.R`, `R/grid-utils.R` | `RModel.v` |
| encodings in `markdown.c`, `render_markdown.c`, `render_device.c`, `markdown.rs`, `c_helper.rs` | `EncModel.v` |
| the operators of `f32` | `F32.v` |

* **Not modelled.**  `layout2.rs`, `dom/xml.rs`, `text.rs` (dead code); `style/errors.rs` (error types without content);
  `layout/element_data.rs` except where `unset_boxes_in_subtree` touches it; `layout/replaced.rs` (there is no replaced
  content); pulldown_cmark behind `markdown.rs`; `init.c`, `lib.rs`, `main.rs`, `test_*.cpp`, tests, examples and build files.
* **Contracts of external code**, stated where they are used: html5ever calls the sink operations in some order (theorems
  quantify over all); cssparser delivers tokens, `try` restores the position, a declaration ends at its semicolon; its
  colour parser is a function of the tokens; the `selectors` crate walks compounds and combinators; pulldown-cmark is an
  arbitrary function; R shows a string according to its encoding mark, unmarked ones by its locale; R's `PROTECT` and `R_PreserveObject` keep what they are documented to keep, every other object may be
  collected at any allocation; font metrics are arbitrary functions of style and text; grid viewports are rectangles
  placed by position, size and justification, without rotation.
* **Numbers**: any arithmetic, exact rationals or `f32`, as each theorem says; see above.  Of `f32` it is trusted that
  Rust's operators are those of `SpecFloat` at precision 24 and maximal exponent 128, and that `max`/`min` ignore NaN.

## Plan per property

| id | model | proof |
|----|-------|-------|
| C01 | arena, `detach`/`append`/`insert_before`, all TreeSink operations | invariant by induction over operation lists (`wf` = agreement with an ordered forest) |
| C02 | same | refinement: abstraction to child lists commutes with each operation |
| C03 | `next_in_tree_order`, `nodes` | fuelled iteration = preorder of the abstract forest |
| C04 | `append_common` | refinement step on the abstract forest with texts |
| C05 | `reparent_children` | refutation by witness; positive theorem for 0/1 child and general effect |
| C06 | `add_attrs_if_missing`, `get_attr` | list induction |
| C07 | `root_element` | iff, over all well-formed documents |
| C08 | `create_element`, `parse_stylesheets`, `child_text_content` | list induction |
| C09 | declaration blocks, cascade, stable sort | last-wins fold lemma, sortedness and stability |
| C10 | `ComputedValues::new`, css-wide keywords | case analysis over the property table, generic in the value |
| C11 | two-phase cascade | phase separation lemma, permutation statement |
| C12, C13 | `post_cascade_fixups` | unfolding, invariants over `new` |
| C14, C15 | shorthand parsers over token lists | case analysis / permutations |
| C16 | `parse_value` bookkeeping | invariant over declaration lists |
| C17 | `DeclarationBlock::parse` with cssparser's contract | refutation + theorem for inputs without trailing tokens |
| C18, C19, C22 | property table, keyword parsers, font-family parser | refutation + positive theorem for the rest |
| C20, C21 | `selectors::Element` impl over the arena | refutation; equivalence with a declarative tree spec |
| C23, C24 | length parser, colour resolution | arithmetic |
| C25, C26 | `geom.rs`, `fragments.rs` | case analysis, ring |
| C27 | `CollapsedMargin` | lattice laws, list induction, permutation invariance |
| C28-C34 | box tree and block/absolute layout, structural recursion | induction over box lists and trees; refutations by witness |
| C32 (whole pages) | two stylings of one document that differ in top, right, bottom and left only (`OffsetSpec.v`); all of box construction, layout and painting | congruence under a displacement of the relatively positioned boxes; invariant: ranks of absolutely positioned boxes never point at a displaced fragment (`OffsetProofs.v`); counterexamples for percentages and for later lines |
| C35-C38 | `TextRun::layout_*`, arbitrary metric function | induction on remaining characters; refutations |
| C39, C40, C45-C48 | box construction as a state machine over a DOM tree | invariants by induction |
| C41, C42 | line building | induction over the item list |
| C43 | `unset_boxes_in_subtree` on the arena | non-termination for every fuel; positive theorem under its guard |
| C44 | builder asserts | refutation for every document of that shape |
| C49-C51 | `paint.rs` | induction over fragment trees |
| C52-C54 | `render_device.c` | fold invariants |
| C55-C58 | `GContext` heap, `gcontext.c` buffers, RGBA formatting | ownership invariant over operation lists; finite sweep of bytes lifted to all colours |
| C59 | `ShapedSegment` | cache-coherence invariant over edit lists |
| C60 | `c_helper.rs` | list lemma; the allocator itself is not modelled (partial) |
| C61 | `sinab_test_renderer`, `paint_onto` | structure theorem; the unwinder itself is outside any model (partial) |
| C62 | `layout_wrap` | the line relation of C35 carries the reason for each break |
| C63 | `flow/mod.rs` | layout is shown independent of the float flag and of the accumulator of absolutely positioned boxes |
| C64 | `positioned.rs`, `root.rs` | induction over box trees with the boxes that escape their ancestors (`PageSpec.v`) |
| C65 | whole pipeline from the DOM to the drawing calls | composition of C45 (construction), the line relation of C35, C64 (positions) and C50 (painting); false for floats |
| C66 | `inline.rs` baselines | inductive relation `seated` (VertSpec.v) kept as an invariant of the open boxes; false for middle, top, bottom, text-top, text-bottom |
| C67 | `inline.rs` line heights | same invariant with the extents of the texts, lifted to pages; false for the line height of the block itself |
| C68 | C code (`GcModel.v`): programs over R's heap, any collection at any allocation | weakest preconditions; invariant: everything reachable is there, what the function made is on the PROTECT stack |
| C69 | same | contents of the grob vector tracked through copying and growing |
| C70 | same, with an error at every allocation and evaluation | false; bound on what stays behind by following preserved objects and blocks only |
| C71 | `user_agent.css` transcribed, `style_for_element` on document nodes (`UaModel.v`) | winner of every property for every name of the sheet by computation, all other names behave like one another; false for headings, lists, sections |
| C72 | `BoxTreeRoot::construct` on the styles and the tree of a document | exact criterion on tag names, by induction on the tree; false for loose lists |
| C73 | `parse_stylesheets`, cascade, selectors, box construction, layout, painting composed | composition of C07, C08, C09, C17, C21, C65 |
| C74 | `RModel.v`: the R code, over a small model of grid (areas, units, viewport stack, push, pop) | induction over the pushed viewports: popping the difference of depths undoes pushing |
| C75 | `make_context`, `html_grob`; the renderer is a section variable | unfolding with the measuring lemma of C74 |
| C76 | `draw`: the area in which the children of the grob are drawn | refuted by a concrete grob; linear arithmetic for the exact condition |
| C77 | `render_markdown` of `RModel.v` (C_render_markdown) | refuted; positive parts by cases |
| C78 | `ShareModel.v`: heap of reference-counted style structs, make_mut, the cascade of `macros.rs` on pointers | refinement against `StyleModel.style_new`: counts equal the numbers of live pointers, a written struct has one owner |
| C79 | composition of DomModel, UaModel, TreeModel, BlockModel/InlineModel, PaintModel, GfxModel and RModel (`PropEnd.v`); the parsers are the hypothesis `renders_document` | C61 (completeness), C65, C72/C73 (unstyled documents), C75 and C76 composed |
| C80 | static positions in BlockModel/InlineModel; `StaticSpec.v` computes where each absolutely positioned box belongs, from the box tree and the finished fragments | induction over box trees (`static_all`) with line streams traced through inline layout; refuted by three pages, `C80_partial` says where it holds |
| C81 | the value parsers of `StyleModel.v`; `ValueSpec.v` is a table of what each token means for each longhand | both directions by cases on longhands and tokens; refuted by negative padding |
| C82 | `JumpModel.v`: macro expansion of tagged_union_with_jump_tables on typed memory, and the two enums of the style system | induction over variants and arms; the style system's tables by computation for each longhand |
| C83 | every model over `f32` (`F32.v`) | the proofs of C31, C37, C65 and C49 do not use arithmetic beyond 0 = 0 and 0 + 0 = 0: they are generic in it, C83 is their instance |
| C84 | `parse_length` and block layout over `f32` | two refutations by computation in `f32`; `F32Facts.v` proves that sums and differences of whole numbers below 2^24 are exact, by induction on shifts |
| C85 | box construction (`TreeModel.v`) on styled trees | `TidySpec.v` says when trees differ in formatting only; a variant of construction that skips hidden elements everywhere is invariant under it (induction over trees), and construction refines that variant |
| C86 | documents (`DomModel.v`), selectors, styles (`UaModel.v`), boxes, drawing | `IsoSpec.v` says when two arenas hold the same tree; nodes at the same place satisfy the same selectors (C21, induction over selectors), so have the same styles and boxes (induction over trees); refutation by computation |
| C87 | styles, box construction, layout, painting | `ScaleSpec.v` says when a style, font, measurement or drawing call is another one enlarged; every function of layout and painting takes enlarged input to enlarged output (inductions over boxes, fragments and lines); computed styles are enlarged because the winning declarations are (cascade theorem C01/C02 and em resolution) |
| C88 | box construction, layout, painting | `AppendSpec.v` says what appending is; construction of the longer document only adds boxes after those there were, or wraps inline content in an anonymous block (`AppendBox.v`); induction over the boxes appended to: either the old part draws no text, or margins do not collapse through it and its place does not depend on what follows (`AppendProofs.v`); refutation by computation |
| C89 | documents, selectors (`SelModel.v`), styles (`UaModel.v`), boxes, drawing | `AttrSpec.v` says when two documents differ in attributes only and what a selector looks at; every function that reads the arena gives the same result on both (inductions over selectors, siblings, ancestors, trees); induction over the path from the root for the style attribute |
| C90 | RecolorSpec (what is a colour, recolored styles, calls and sheets); the models of cascade, box construction, layout and painting as they are | box construction, layout and painting respect any relation of styles that keeps all properties but colours (RecolorProofs: a logical relation over the whole pipeline, in every arithmetic); winners of the cascade for other properties are unaffected by colour declarations (RecolorStyle: candidates without colours are order-isomorphic); combined for `document_input` |
| C91 | inline layout of one run (`InlineModel.v`) | the end of a line as a function of its text (`InlineCount.v`: scan), compared for two widths and two starting points by induction over the text; number of lines by induction over the lines; refutations by computation |
| C92 | inline layout | `WordSpec.v` says how a text is shown on lines; induction over the inline content with the rest of the content as continuation (`WordProofs.v`), from the line traces of C35; refutation by computation |
| C93 | RefactorSpec (an inductive relation of lists of rules, in terms of the declarations a block is read as and of the elements a selector selects); cascade, box construction, layout and painting as they are | what a list of rules says about a property of an element is a fold with an associative "later wins unless less specific" operation, which every rewriting keeps (RefactorProofs); same winners give the same style; the logical relation of C90 with equality of values gives the same drawing; combined for `document_input` |
| C94 | PrependSpec (what it is to put something in front, on the styled document); box construction, block layout and painting as they are | the builder does the same behind other boxes (PrependBox); two placements that have met a box with text stay at the same point up to a fixed distance (PrependProofs: sync), by induction over the place where something is put in front; exact arithmetic |
| C95 | WrapSpec (when an element adds nothing, and what it is to take such elements away, on the styled document); box construction, inline and block layout and painting as they are | inline layout: a relation of two stacks of open boxes of which the left one has extra boxes, kept by text, line ends, opening and closing (WrapInline: RS, ST, W_loop); block layout with fragments that draw the same (WrapBlock); box construction: the contents of the element are built the same way inside it and after the boxes before it (WrapTree: nodes_ok), then induction over the document; exact arithmetic; a concrete document for the refutation |
| C96 | `EncModel.v`: R strings as bytes with an encoding mark, `C_md_to_html`, `sinab_md_to_html`, labels of text grobs; the locale is a parameter (contract of R) | UTF-8 round trip of C60 through the loop, by induction over the vector; refuted by a Latin 1 locale, where exactly ASCII survives |
| C97 | UnboxSpec (when a block adds nothing, and what it is to take it away, on the styled document); box construction, block layout and painting as they are | the placements inside the block and after it are compared with those of its contents in its place (UnboxProofs: place_wrapper), with margins as a commutative monoid; boxes that margins collapse through show nothing (through_quiet); the builder makes the contents into the same boxes in both places (UnboxBox); induction over the place; styles that are equal value by value by C95's relation; exact arithmetic; rectangles of height zero and lines of length zero are left out of the comparison |
| C98 | ContentsSpec (which elements only pass on what they inherit, and what it is to take them away, at any number of places); box construction as it is | traversal of a list of nodes as a fold (ContentsProofs: trav); both documents build boxes related by C95's relation, by induction over the derivation; layout and painting respect that relation (C95); refuted by an element whose last child is hidden (C43) |
| C99 | EdgesSpec (edges and inner size of the outermost element computed from its style and the page, moving of drawing calls); layout of the root and painting as they are | C95's relation with container styles that only agree on what is inherited; the fragment of the root in closed form (EdgesProofs: root_layout, root_corner); painting commutes with moving (seen_moves) by induction over fragments; exact arithmetic |
| C100 | ContainSpec (which blocks keep their contents, a place in a styled document and how it is filled); box construction, block layout and painting as they are | the boxes around the block are the same whatever is in it (ContainProofs: box_between, from the builder's behaviour behind a block); a box with other children is placed the same way (place_box); its size and margins do not depend on its contents (contains_fixed); induction over the place with what is drawn before and after chosen from the empty document; styles that are equal value by value by C95's relation; exact arithmetic |
| C101 | LetterSpec (the characters that matter to the layout, a document in other letters, the same call in other letters); box construction, line breaking, layout and painting as they are | LetterProofs: the relation of RecolorProofs with texts written in other letters; a break opportunity saved in bytes is a prefix of the text so far (zlb), so restoring it cuts both texts after the same character; induction over the characters, lines and boxes; any arithmetic |
| C102 | AlignSpec (styles, style sheets that agree but for text-align, the same call moved sideways); cascade, layout and painting as they are | AlignProofs: the relation of RecolorProofs with lines that may start elsewhere; boxes among blocks are at the same place, so static positions and sizes are the same; painting moves what is inside a line by the same distance (AlignPaint); winners of realigned sheets (AlignStyle); exact arithmetic |
| C103 | LevelSpec (the vertical properties, what a call draws across the page), ExceptSpec (styles and style sheets that agree but for a set of properties); cascade, layout and painting as they are | LevelProofs: layouts related by equal inline coordinates; LevelPaint: the painted calls; ExceptStyle: winners of sheets that differ in some properties only; any arithmetic. Refuted for elements absolutely positioned by `right` only, which count from the height of the containing block |
| C104 | DownSpec (the horizontal properties, what a call draws down the page, the conditions on styles), ExceptSpec; cascade, layout and painting as they are | DownProofs: layouts related by equal block coordinates, heights and collapsed margins, with the same panics; DownPaint; ExceptDoc: styles of a document under sheets that differ in some properties only; any arithmetic. Refuted for absolutely positioned elements with percentages in the block axis, which is solved against the width |
| C105 | ElemSpec (documents that differ in element names, the names a selector looks at, the special elements); selector matching, cascade, layout and painting as they are | ElemProofs: the same matches, styles and boxes for renamed documents, as for C89; the names in the user agent's style sheet by computation |
| C106 | UnseenSpec (lists of styled nodes that differ in what is not displayed); construction of boxes, layout and painting as they are | PropUnseen: induction on that relation, the builder goes through the same states; any arithmetic. That a hidden element at the end may not come or go is C43 |
| C107 | TallSpec (heights that are not percentages, elements not positioned from the end); layout and painting as they are | TallProofs: the absolutely positioned boxes that reach the page are laid out without looking at its height, by induction on the box tree, and painting looks at its origin only; refuted in general: `right` alone moves with the height of the page (positioned.rs:265) |
| C108 | LineSpec (styles, declarations and drawing calls that differ in line styles other than none); cascade, layout and painting as they are | LineProofs: the simulation of C90 for line styles; LineStyle: winning declarations correspond one to one; any arithmetic |
| C109 | ApplySpec (to which boxes a property applies; trees of styled nodes that agree in what applies); construction of boxes, layout and painting as they are | ApplyProofs: a simulation of construction, layout and painting with three relations on styles, for text, inline boxes and blocks; any arithmetic. That inherited values reach the children is part of the hypothesis, which is about computed styles |
| C110 | UsedSpec (the length a value comes to, the width of content boxes, trees of styled nodes that come to the same lengths); construction of boxes, layout and painting as they are | UsedProofs: a simulation indexed by the width of the containing block; the content width of the code is that of the specification; exact arithmetic. Offsets in percent are not included: the code takes them of the width of the element itself (C32) |
| C111 | HollowSpec (trees of styled nodes in which absolutely positioned elements are empty and invisible; a drawing that is part of another); construction of boxes, layout and painting as they are | HollowProofs: a simulation in which the fragment of an emptied element corresponds to anything; any arithmetic. That both documents are drawn to the end is a hypothesis: an absolutely positioned element may hold something that makes rendering fail |
| C112 | HollowSpec (trees of styled nodes that differ in floats only); construction of boxes, layout and painting as they are | HollowProofs: the simulation of C111, in which the boxes of two floats always correspond; any arithmetic. That both documents are drawn to the end is a hypothesis: boxes are constructed for what is in a float, and that can fail |
