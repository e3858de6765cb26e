# Formal model of miute/svgpy: design

The source is read as text from /repo; no result here comes from running it. (Once, a
helper script started inside /repo/svgpy/css made Python pick up `types.py` there in
place of its own module and begin to execute it; the import failed at once, the byte
code file it left in /repo was removed, and nothing was taken from it.) Properties are in
`properties.jsonl`. `MANIFEST.json` maps each property to its theorems, its status
and what is missing. `seeded/LOG.jsonl` records the wrong programs the theorems were
tried on.

## Trusted base

* Coq's kernel (8.16.1) and its standard library.
* `Print Assumptions` stands under every theorem of the `*Props.v` files and prints
  "Closed under the global context" for each of them: no theorem depends on any
  axiom. (A listing of all axioms in loaded libraries also names seven module-type
  fields of `Coq.ssr.ssrunder`, standard library, reached by importing tactics; no
  theorem uses them.)
* The models: that each definition in `*Model.v` computes what the cited lines of
  Python compute. Each definition carries file and lines, and the simplifications
  made are in its comment or at the head of the file.
* The specifications: that the statements in `*Spec.v` and `*Props.v` say what the
  English properties say.

No axioms, no admitted proofs, no functors, no switched-off checks.

## Conventions

* One group of files per area, all in `rocq/theories`: `XxxModel.v` (executable model),
  `XxxSpec.v` (specification, written without the helpers of the model),
  `XxxProofs*.v` (lemmas), `XxxProps.v` (the property theorems, each with
  `Print Assumptions` and, beside it, an `Example` with a concrete case).
  `Py*.v` and `NumScan*.v` hold what several areas need of Python itself.
* Python exceptions are values (`result A := Ok a | Err e`, or a new state together with
  an optional exception where a failing method may leave changes behind).
* A method that changes `self` is a function to the new state. Histories are lists of
  operations and theorems about them are by induction over the list.
* Loops with no structural bound have fuel, and the fuel is proved sufficient.
* Floats and Decimals are exact rationals `Q`, compared with `==`: rounding (but for C86), overflow,
  NaN and infinities are not modelled. `cos`, `sin`, `tan`, `atan2`, `sqrt` come from an
  oracle, and theorems that need facts about them (addition formulas, squares of roots)
  state these as hypotheses, satisfied by examples.
* Texts are lists of code points. `str.isspace` is the full Unicode set; digits and letter
  case are ASCII unless a file says otherwise.
* Other libraries (lxml, tinycss2, cssselect, fontconfig, FreeType, shlex, html,
  urllib's unquote, IDNA) are records of functions over which theorems quantify, or are
  modelled at the level of their results (component values, words, sibling lists).
* Where the code violates a property, a theorem `..._refuted` gives a witness, the finding is
  listed below, and the strongest guarded statement that holds stands beside it
  (`_partial` when it does not cover the whole property).

## Per property

For each property: the code modelled, how it is proved, and the findings.

### C01 DOMRect intersection is the set intersection (partial)

* Modelled: geometry/rect.py 19-61, 223-258, 404-451 (constructor, sides, intersect, intersect_self; Rect*.v).
* Proved: case analysis on comparisons; the result is the set of common points for overlapping rectangles.
* Findings: rectangles that touch or do not overlap leave the receiver as it was instead of giving an empty rectangle.

### C02 DOMRect union is the least enclosing box (partial)

* Modelled: geometry/rect.py 569-611 (unite, unite_self).
* Proved: the result is the least box around the points of the operands; the fold over a list does not depend on the order.
* Findings: an operand with one zero side (a line) counts only with its top-left corner.

### C03 A transformed rectangle encloses the image of the rectangle (partial)

* Modelled: geometry/rect.py 518-544 (transform_self).
* Proved: the result is the bounding box of the four mapped corners, for every 2D matrix outside the quadrant a<0, c<0 (and its mirror).
* Findings: in that quadrant one corner is overwritten before the maximum is taken, for every such matrix.

### C04 Rectangle normalisation, containment and in-place algebra (proved)

* Modelled: geometry/rect.py 90-95, 145-162, 369-389, 453-485, 546-567 (normalize, contains, isempty, isvalid, adjust, translate, transpose).
* Proved: linear arithmetic; sizes stay non-negative over every history.

### C05 A matrix that says it is 2D is 2D (proved)

* Modelled: geometry/matrix.py 17-439, 630-700, 767-1105: constructors, every mutating method, transform_point, the is2d flag (Matrix*.v).
* Proved: invariant over histories: the flag implies the 2D form of the sixteen entries.

### C06 Matrix multiplication is composition (proved)

* Modelled: geometry/matrix.py multiply, premultiply, isidentity, action on points.
* Proved: ring identities over sixteen entries; associativity, unit, an action determines its matrix.

### C07 Matrix inverse undoes the transformation (proved)

* Modelled: geometry/matrix.py inverse; numpy.linalg.inv is the exact inverse by cofactors.
* Proved: two-sided inverse, error exactly when the determinant is zero, inverse of products.

### C08 Scale, rotate, skew and translate do what their names say (proved)

* Modelled: geometry/matrix.py translate, scale, scale3d, rotate, rotate_axis_angle, skew_x, skew_y, flip_x, flip_y.
* Proved: each operation is its textbook map of points; rotations are rigid and add (given the addition formulas); a history of operations is the composition of their maps.
* Findings: the sign of the axis is not used when rotating about -z in the branch that rounds.

### C09 Matrix export/import round-trips (partial)

* Modelled: geometry/matrix.py tolist, tojson, to_float_array, from_float_array, keyword constructor, tostring with the transform parser.
* Proved: round trips entry by entry; text read back through C12.
* Findings: to_float_array loses the 2D flag; `==` ignores the flag.

### C10 A transform list denotes the ordered product of its items (proved)

* Modelled: transform.py 76-265, 356-384: SVGTransform, SVGTransformList.matrix, consolidate, concatenation (Transform*.v).
* Proved: the matrix of a list is the product of the maps of its items, by list induction.
* Findings: items of unknown type raise when multiplied and print as nothing.

### C11 Transform list edits behave like a typed Python list (partial)

* Modelled: transform.py 310-345, 386-540 and the MutableSequence mixins (TransformList*.v).
* Proved: each accepted operation is the positional list operation; members stay transforms over every history.
* Findings: initialize(bad) has already cleared the list; extend and += keep the items before the bad one.

### C12 Transform attribute text round-trips (proved)

* Modelled: transform.py 23-41, 243-265, 541-559 (parser and tostring); formatter.py.
* Proved: round trip for every list, every rational (rounded to six decimals) and every delimiter.
* Findings: "translate(1)scale(2)" without separator drops the first transform.

### C13 Making path data absolute keeps the geometry (proved)

* Modelled: path.py 263-400, 622-757, 825-867, 1400-1465: segments, toabsolute (Path*.v).
* Proved: the absolute path draws the same curves from any starting point, has only absolute commands, and is a fixed point.

### C14 Path normalisation keeps the geometry and yields the base command set (partial)

* Modelled: path.py 622-757, 870-1166: normalize, arc conversion, quadratic and smooth curves.
* Proved: same drawing through the threaded current point and control point; arcs: centre, connectedness, vertices on the ellipse, extent by the flags (at most 4 curves, 2 for small arcs), start of turned circles, the same arc from its other end (PathReverseProps.v), arcs of circles turned by their extent end at the end point (PathCircleProps.v), go back the same way (PathCircleBackProps.v) and all that is drawn for them, from pen to end point, is within 0.03 % of the circle (PathDrawnProps.v), middle of every curve exactly on the ellipse and every other point at most 0.03 % outside (PathArc*.v); normalisation succeeds for every path beginning with a moveto, with smooth curves where they are right and no arc between equal points (PathTotalProps.v); cosine and sine are an oracle following the laws of sums where they are used.
* Findings: smooth curves after Z, after a curve of the other degree, or chained after a smooth curve following no curve use a wrong control point; an arc with equal end points raises IndexError; the start angle of a non-circular ellipse is wrong.

### C15 Transforming a path maps every point of it (partial)

* Modelled: path.py 1517-1567 (transform).
* Proved: points of the result are the mapped points, for paths without the excluded sequences.
* Findings: arc radii and rotation are not transformed; a relative command after an absolute H or V moves; H H raises TypeError; a bearing between glued commands moves.

### C16 A path's bounding box contains the path (partial)

* Modelled: path.py 67-156, 557-619, 1258-1321: get_bbox (PathBBox*.v).
* Proved: smallest box around the marks of a normalised path; derivative roots give the extremes of cubics (square roots of discriminants assumed exact); contains the drawing when no stroke is exactly axis-parallel.
* Findings: a single horizontal or vertical line gets a box of width and height zero; get_bbox of a path that is not normalised raises.

### C17 Path data text round-trips (partial)

* Modelled: path.py 289-291, 358-376, 517-550, 1174-1196, 1467-1515: parser and tostring (PathText*.v, NumScan).
* Proved: round trip to six decimals; splitting into groups and independence of commands for every text.
* Findings: "Z Z" is collapsed; "ZM" loses the Z.

### C18 Basic shapes produce the right closed outline (proved)

* Modelled: element.py 208-232, 284-357, 447-471, 578-637, 689-787: path data of circle, ellipse, rect, line, polyline, polygon (Shape*.v).
* Proved: equality with the outlines of SVG 2, radii clamped, corners on the rectangle.

### C19 Token lists are ordered sets (partial)

* Modelled: dom.py 176-350 (Token*.v).
* Proved: refinement of every history to lists of words of the attribute.
* Findings: repeated tokens in the attribute survive remove and toggle; a token with a no-break space is accepted and then split; reverse() does nothing.

### C20 dataset keys correspond one-to-one to data-* attributes (partial)

* Modelled: dom.py 91-173 (Dataset*.v).
* Proved: the attribute name is an injective function of the key; finite-map behaviour over histories.
* Findings: 'FooBar' and 'data-foo-1' do not come back as keys.

### C21 Attribute maps stay consistent with the element (partial)

* Modelled: dom.py 353-552, 873-1106, 2256-2384 (Attr*.v): heap of elements and Attr objects.
* Proved: invariant of the heap over every history with frames for the other elements.
* Findings: attr.value = '' leaves a stale attached Attr; an Attr made with an owner element is not in its map; remove_attribute_node removes whichever Attr has the name; set_attribute(name, '') removes.

### C22 append and prepend insert exactly the given nodes and text, in order (partial)

* Modelled: dom.py 48-88, 1596-1619, 2147-2165, 2195-2252, 2298-2320 (Content*.v): lxml text and tails.
* Proved: flattening of text and children to DOM content; exact effect of each operation.
* Findings: append with leading text puts it before existing children; prepend of several nodes on an empty element gives [n2, n3, n1]; prepend of a node with a tail and then text puts the text before the tail (append puts it after); prepend of the present first child and others puts the others before it; remove and replace take the text after the node away.

### C23 A CSS declaration block behaves like an ordered map (partial)

* Modelled: css/__init__.py 43-47, 1293-1583 (Short*.v) with an oracle for the property descriptors.
* Proved: last value per property over every history; priorities, enumeration, read-only blocks.
* Findings: within one rule a later plain declaration replaces an earlier important one. The back end for the style attribute (50-206) is C61.

### C24 Shorthand properties expand and collapse consistently (partial)

* Modelled: css/shorthands.py 35-906 (Short*.v).
* Proved: exact set of longhands written and removed with their priorities, for every property table; CSS-wide keywords, and words in any order for text-decoration, font-variant, overflow and mask, are read back; the printed text of mask and mask-border from their longhands; font is not printed when one longhand is a CSS-wide word and another is not (EdgeProps.v). Values are words (identifiers); numbers, functions and the size of mask are not read back.
* Findings: mask-clip beside an initial mask-origin prints a text that changes mask-origin when read; unparsable white-space, font-synthesis and text-decoration values reset the longhands; an unsupported overflow raises KeyError; the priority of font is lost without a font-variant longhand.

### C25 Media lists behave like sets of media queries (partial)

* Modelled: css/__init__.py 798-902 (MediaList*.v).
* Proved: histories of append and delete keep the list without duplicates; media_text.
* Findings: assigning media_text, insert and item assignment allow duplicates; items differing in case print equal; deleting a text of several queries is ignored.

### C26 Media queries follow Boolean logic (partial)

* Modelled: css/mediaquery.py 100-270 (MediaQuery*.v).
* Proved: evaluation equals Boolean semantics by structural induction where every not is about one condition.
* Findings: under not, 'and' and 'or' are exchanged; not(mixed and/or) matches.

### C27 Media feature comparisons mean what they say (partial)

* Modelled: css/mediaquery.py 100-270, 417-462; compare_func is an oracle that orders.
* Proved: ranges, min-/max-, trichotomy, discrete features.
* Findings: aspect-ratio '=' always holds and '<' holds on equality; (width) of 0px counts as true.

### C28 CSS numeric types form a commutative algebra (partial)

* Modelled: css/types.py 71-354, constructors 1210-1548 (CssType*.v).
* Proved: algebra of finite maps for addition, multiplication and inversion of types.
* Findings: multiplication drops the second factor's percent; number + percent is accepted; CSSMathInvert changes its argument's type; results share type objects.

### C29 Unit conversion is exact and reversible (partial)

* Modelled: css/types.py 357-461, 1603-1754 (CssUnit*.v).
* Proved: round trip, linearity, transitivity through any third unit; trichotomy of comparison.
* Findings: 2.54cm and 1in, 400grad and 1turn differ by the float error of the constants (bounded); == between incompatible units raises.

### C30 Serialised calc() expressions keep their value (partial)

* Modelled: css/types.py tostring of math values (CssMath*.v), with an independent grammar of calc.
* Proved: the text reads back to an expression of the same value; the reading is unambiguous.
* Findings: a negated sum prints unreadable text; max(Product(Sum)) reads back with another meaning.

### C31 Parsed calc() expressions keep operator precedence (partial)

* Modelled: css/types.py 835-1050, 1113-1130 (CssCalc*.v): a heap of nodes with parents.
* Proved: for the understood inputs the tree has the value of the grammar; every accepted input is a function of the right shape.
* Findings: 1 + 2*3 - 4*5 gets a wrong tree; a nested a*b + c makes a cyclic tree; min(1 + 2, 3) and parentheses are refused; calc(1 2) is accepted.

### C32 Sum values represent the expression (partial)

* Modelled: css/types.py sum values, to, to_sum, add, equals (CssSum*.v).
* Proved: the worth of the sum value equals that of the expression, for linear expressions.
* Findings: px*px*em + px*em*em is merged wrongly; to_sum depends on order; equals is not reflexive.

### C33 SVG lengths convert, add and compare consistently (partial)

* Modelled: core.py 956-1568 (Length*.v).
* Proved: conversion, arithmetic, comparison and text for every unit and surroundings.
* Findings: conversion to ex, ch and the like resizes; + and - detach the context; '%' of the wrong direction; == is not symmetric; trailing text and unknown units are accepted; 'cap' is in no class; 10mm and 1cm differ.

### C34 viewBox to viewport mapping honours preserveAspectRatio (partial)

* Modelled: base.py 206-340, 507-600 (View*.v).
* Proved: the mapping keeps the aspect ratio, fits or covers, and aligns as named.
* Findings: ratios below 1e-9 are taken as equal; width, height and x in different units are mixed; an empty view box raises ZeroDivisionError; viewport units as sizes; a leading space in viewBox raises.

### C35 preserveAspectRatio text round-trips (partial)

* Modelled: base.py 659-776.
* Proved: every text gives a defined setting; keywords with any white space; round trip.
* Findings: 'XMinYMid' is misspelt in the table; none loses slice.

### C36 Inherited properties come from the nearest ancestor that specifies them (partial)

* Modelled: dom.py 1863-2047, core.py 226-243 (Cascade*.v).
* Proved: the value is that of the nearest ancestor which specifies it, else the initial one; by induction over the chain.
* Findings: font and font-family on one element raise KeyError; marker raises NotImplementedError; font-variant beside font does not reach its parts; a system font loses the longhands; the style attribute is ignored for properties that do not inherit.

### C37 Font size and weight resolution (partial)

* Modelled: core.py 31-85, 88-142, 157-223 (FontSize*.v).
* Proved: monotone keyword sizes, scaling per relative ancestor, weight tables.
* Findings: an element's own larger or bolder is not applied; an ancestor's relative word is taken from the element; bolder lowers weights over 900, lighter raises those under 100; 'inherit' on an ancestor raises; a bare number is not multiplied.

### C38 URL component setters are independent (partial)

* Modelled: url.py 21-55, 210-583 with urllib.parse.quote, quote_plus, urlsplit and os.path (Url*.v).
* Proved: frames of the setters, invariants over histories, round trip of the text for every stable URL, query text, references against a base.
* Findings: 'a:99999' as host raises after changing the host name; a refused href leaves host and port in disagreement; reading the host changes the object; the usual port, a password without user, all after a second '=' and the first of equal keys are lost in the text; relative references change the base object; '/c?y=1' puts the query into the path; '//h/p' takes no scheme from the base; protocol ':' raises IndexError and 'http://:80/' TypeError.

### C39 Qualified names round-trip through Clark notation (partial)

* Modelled: utils.py 306-393 QualifiedName (Utils*.v).
* Proved: complete characterisation of the three written forms and of each error.
* Findings: a namespace containing '}' does not survive; a mapped prefix without explicit namespace is refused.

### C40 Case-insensitive mappings behave like maps on lower-cased keys (proved)

* Modelled: utils.py 258-303 CaseInsensitiveMapping.
* Proved: refinement of histories to the last operation per lower-cased key.
* Findings: == between mappings is case-sensitive.

### C41 Inline style text round-trips through dictionaries (partial)

* Modelled: utils.py 42-53, 241-255 style_to_dict, dict_to_style.
* Proved: last declaration wins; round trip; sorted output.
* Findings: values with ':' are dropped and with ';' cut.

### C42 Number formatting is accurate and canonical (proved)

* Modelled: formatter.py (Format*.v).
* Proved: the text is the numeral of the nearest multiple of 10^-p, canonical and stable.
* Findings: precision 0 strips zeros of integers.

### C43 Screen orientation is always one of the four right angles (proved)

* Modelled: css/screen.py 15-244 (Screen*.v).
* Proved: modular arithmetic; orientation over histories.

### C44 Style sheets contribute rules in cascade order, filtered by media (partial)

* Modelled: style.py 86-131, 152-232 (Cascade*.v).
* Proved: flattening is the in-order list of the style rules whose media hold; sources in document order.
* Findings: href '' raises IndexError.

### C45 The cascade picks the last declaration and keeps important ones apart (proved)

* Modelled: style.py 279-317 (get_css_style).
* Proved: the last matching declaration, important ones separately.
* Findings: specificity of selectors is ignored.

### C46 Text white-space normalisation (partial)

* Modelled: core.py 83-86, 246-328; text.py 52-132 (Text*.v).
* Proved: no runs of spaces, visible characters kept in order, words and lines exact; chunks of whole trees.
* Findings: not idempotent when untrimmed; a no-break space vanishes after a space; pre loses leading spaces of the first text; CR lines keep a space in pre-line; "f" and "oo" in neighbouring elements get a space; an empty first tspan raises.

### C47 Nearest font weight and width selection follows the CSS font matching order (partial)

* Modelled: core.py 753-890, 945-950; fontconfig.py 153-173 (FontMatch*.v).
* Proved: exact lexicographic characterisation of the chosen face; it has every glyph of the text; widths of the keywords.
* Findings: weights on both sides of the wanted one and widths are not searched in the order of CSS Fonts; other stretches find nothing.

### C48 font-variant values are partitioned into their longhands (proved)

* Modelled: core.py 492-588 (FontText*.v).
* Proved: partition of the words into the six lists.
* Findings: 'styleset(a, b)' is broken at the space.

### C49 CSS.escape is a faithful identifier escape (partial)

* Modelled: css/__init__.py 300-324 (Escape*.v).
* Proved: unescaping gives the text back; the result is an identifier.
* Findings: escape('') is '' which is no identifier.

### C50 Document child list operations (partial)

* Modelled: window.py 109-118, 237-274, 507-536, 568-609, 622-650; dom.py 59-79, 671-726, 1209-1237 (Document*.v).
* Proved: one document element over every history; exact child lists.
* Findings: prepend with the first child among the nodes; removing the root loses its siblings; replace(n, n) loses n; replace(root, comment) empties the document and raises; append(root) does not move it; a second element raises TypeError after its owner was set; insert at the end raises IndexError.

### C51 Unparsed CSS values are mutable sequences (partial)

* Modelled: css/types.py 1757-1818 (Unparsed*.v).
* Proved: refinement to Python lists.
* Findings: seq[i] = x inserts; reverse() grows the list; the parsed text is kept after edits; tostring prints to the console.

### C52 The font shorthand sets every font longhand (partial)

* Modelled: core.py 331-450 (FontText*.v).
* Proved: each word sets its longhand, the others are reset; size, line height and families.
* Findings: unquoted names of several words and a comma at the start of a word give a wrong size; an unknown word ends the keywords; system fonts give nothing.

### C53 Reifying component values keeps their text (partial)

* Modelled: css/types.py 583-628, 1841-1877.
* Proved: text and references of every tree of component values.
* Findings: an empty fallback is lost; adjacent strings; var() inside blocks is not reified.

### C54 Paths of URLs are normalised (proved)

* Modelled: url.py 365-399, os.path.normpath.
* Proved: the stored path is the normal form, and storing it again changes nothing.
* Findings: a path without leading slash is normalised before the slash is put in front ('../b' is stored as '/../b').

### C55 The current transformation matrix follows the ancestors (partial)

* Modelled: base.py 167-204, 347-414, 450-459, 481-490; dom.py 1365-1391, 2191-2193; element.py 848-877 (Ctm*.v).
* Proved: the map on points, element by element: exact for every chain; equal to what SVG defines when no transform lies at or outside the nearest viewport element; child law.
* Findings: transforms between nested viewports and outside them are left out; the transform of an 'svg' is applied inside its viewBox mapping; the CTM of a nested 'svg' also has the mapping of the next viewport.

### C56 The bounding box of a container covers what is drawn in it (partial)

* Modelled: base.py 416-448; dom.py 1361-1363, 2167-2169 (Ctm*.v); the box of a leaf is that of C16.
* Proved: tree induction over C02 and C03: coverage, and least box under scalings and translations.
* Findings: a horizontal or vertical line counts only its first corner; rotations past 90 degrees can lose points; an empty transform attribute on an inner container raises AttributeError.

### C57 Media query text is read as written (partial)

* Modelled: css/mediaquery.py 33-65, 83-94, 273-521 (MqParse*.v), the patterns transcribed into a backtracking matcher (PyRegex*.v).
* Proved: the first match of every pattern on every printed feature, condition and query; trees, then meaning through C26; commas, case, blanks and unclosed parentheses for any text.
* Findings: (width>=600px) without spaces is a name; ( color ) keeps its spaces; values with spaces give KeyError on matching; 'not' after 'and' drops what stands before it; parentheses do not group; 'not type and (f)' negates both; an unclosed parenthesis recurses for ever; words after a type are dropped; a tab before an inequality and a CR after a type break.

### C58 Search parameters survive serialisation (partial)

* Modelled: url.py 440-475, 587-629; urllib.parse.urlencode and quote_plus (SearchParams*.v).
* Proved: an independent form decoder with UTF-8 gives back every dictionary; sorting is canonical; refinement to a finite map over all histories.
* Findings: assigning the text to URL.search does not decode it ('a&b' becomes 'a%26b'); URL.search writes '1+1' and '1 1' alike.

### C59 Element lookup returns exactly the matching elements in document order (partial)

* Modelled: utils.py 72-165; dom.py 2049-2103; element.py 890-952; window.py 428-497 (Lookup*.v). XPath evaluation by lxml is modelled by its axes and predicates.
* Proved: paths into the tree, lexicographic document order; membership and strict sortedness, which determine the list; class names through the regular expression they become.
* Findings: class names are put into a regular expression unescaped ('a.b' finds 'axb'); a tab or newline does not separate classes; namespace None means any namespace; the caller's nsmap gets a new entry.

### C60 Text content is the text of the element (partial)

* Modelled: dom.py 1354, 1382-1386, 1530-1564 (Lookup*.v).
* Proved: tree induction: equal to all text when only tspans are inside; in general equal to the text of the pruned tree; set then get.
* Findings: text after a comment or a 'title' is lost; 'a' and 'textPath' inside text are skipped with what follows; other elements give None.

### C61 Inline style and the style attribute agree (partial)

* Modelled: css/__init__.py _StyleAttribute, CSSStyleDeclaration._declarations, _update_style_attribute, get_property_value, get_property_priority, remove_property, set_property with inline_style=True; css/longhands.py; on top of the declaration blocks of ShortModel.v and the style texts of UtilsModel.v. The attribute is an optional text.
* Proved: The synchronisation is characterised per property (seen: the attribute wins, the priority stays); writes by the style dictionary they leave; the history theorem is a simulation of the block of C23 with the invariant that attribute and declarations agree.
* Findings: Values dropped from the attribute by other means stay in the style object, if and only if they had been read before (c61_stale_refuted). Names in upper case in the attribute cannot be read (c61_case_refuted). '!important' is neither written to nor read from the attribute (c61_priority_refuted). A value with ':' is lost from the attribute by the next change of any property (c61_colon_refuted). Reading may reorder the declarations (c61_order_refuted). Setting any property removes font-kerning and its like from an attribute that has 'font' (c61_font_refuted).

### C62 Addressable characters and sub-string lengths of text content (partial)

* Modelled: svgpy/text.py 42-175 without the shaping of 156-174 (a parameter from the pieces to their advances), 608-657 and 685-712; normalize_text_content is the model of C46.
* Proved: The recursive walk is shown equal, errors included, to a left-to-right reading of the events of the markup (pieces, closings, comments); positions by list slices over exact sums.
* Findings: A comment or processing instruction inside a text element makes get_chars() raise AttributeError (c62_comment_refuted). A tspan that closes before there is any text raises TypeError: len(None) (c62_empty_refuted). get_chars() of a tspan with children returns only its first piece (c62_own_refuted). Text in a textPath element is not addressable at all (c62_textpath_refuted). No error for positions out of range or negative counts; negative numbers count from the end (c62_length_range_refuted).

### C63 CSS rule trees: parsing, parents, feature values and edits (partial)

* Modelled: css/__init__.py parse_rules, the constructors of the rule classes, CSSFontFeatureValuesRule's parser, insert_rule and delete_rule of the sheet and of grouping rules (RulesModel.v). Input is tinycss2's node list. Not modelled: tinycss2 itself, loading of imported sheets, declaration blocks and media lists (C23, C57).
* Proved: Induction over nested nodes gives types, contents, parents and fresh identities together (c63_types, c63_describes, c63_media, c63_parents, c63_total); feature blocks refine a history of case-insensitive assignments (c63_features with C40's value_after) and for arbitrary tokens an invariant (c63_feature_values); the edit functions preserve placement and uniqueness at any place (c63_history), with exact effects (c63_insert, c63_delete, c63_undo, c63_elsewhere).
* Findings: @media, @font-face or @font-feature-values without a block makes the whole sheet fail with TypeError (c63_broken_refuted). @namespace with a string has no namespace_uri: only url tokens are read (c63_namespace_refuted). The last declaration of a feature block is lost without a semicolon (c63_last_refuted). insert_rule accepts no rule or several, clamps the index instead of raising IndexSizeError, and has no hierarchy check (c63_cssom_refuted). Top-level rules of an imported sheet have the import rule as parent_rule, where CSSOM says null.

### C64 Moving nodes keeps every node in one place, and its document with it (partial)

* Modelled: Node.owner_document, attach_document, detach_document, validity checks, node_insert_before, Element.addnext, addprevious, append, extend, insert, insert_before, remove, remove (self), replace (ForestModel.v); lxml's moves are modelled after its source.
* Proved: A forest is a list of sibling lists of trees; the spec (ForestSpec.v) sees only rows (node, kind, document, children) and says for each call what function is applied to each list of children and whose documents change. Contexts with one hole give the exact effect of taking a subtree out and putting it in; the rest is lists without duplicates. Success conditions are equivalences. Histories by induction.
* Findings: addnext/addprevious beside a root hand over the document before lxml refuses the element with TypeError, so the node stays in its old tree with the other document (c64_addnext_refuted); extend does the same to the nodes before the first invalid one (c64_extend_refuted). Inserting into a tree without a document keeps the old document of the node (c64_append_refuted). insert with a negative index below -len appends, unlike list.insert (c64_insert_refuted). Also read, not modelled: extend with an iterator attaches documents and then inserts nothing, since the first loop has used the iterator up; owner documents live in the Python objects and are lost with them. c64_documents_partial asks that addnext/addprevious do not end with TypeError and extend does not fail.

### C65 Font variants and feature settings give exactly the OpenType features of the table (partial)

* Modelled: CSSUtils.parse_font_feature_settings and features_from_style (FeatModel.v), composed with parse_font_variant of C48.
* Proved: The branch cascade is proved equal to a table of groups (FeatSpec.v); tags of different groups are disjoint by computation, except for ligatures none, which excludes the other ligature words; splitting and joining lemmas for the round trip.
* Findings: jis04 is accepted by parse_font_variant but turns no feature on (c65_jis04_refuted); font-variant and font-kerning override font-feature-settings, where CSS Fonts says the opposite (c65_settings_win_refuted); quoted tags with a comma or space are dropped or cut (c65_tag_refuted); a trailing comma or an empty value raises IndexError. Not modelled: superscript digits, which pass isdigit() and then fail in int().

### C66 A property supports exactly the values built from the terms of its syntax (proved)

* Modelled: PropertyDescriptor (css/props.py 20-369) with its regular expressions, the table of 143 descriptors (372-1745), CSS.register_property and CSS.supports (css/__init__.py 520-531, 568-573). Not modelled: tinycss2's tokenizer (tokens are given) and its colour reader (an argument).
* Proved: SupportModel.v, SupportTable.v (name, syntax and initial value of every descriptor, copied from the source text), SupportSpec.v (syntaxes as structures, what one term accepts, the verdict on a token list), SupportProofs*.v (splitting a written syntax gives its terms back; the flags, functions and identifiers are those of the terms), SupportProps.v. The table is shown to be of the structured form by computation, so the general theorems apply to every property.
* Findings: Keywords are compared with their letter case: `AUTO` is not a value of a property with `auto` (c66_case_refuted). A quoted string is taken for the keyword it holds (c66_quoted_refuted). `hz`, `khz` and `fr` count as lengths (c66_length_refuted). calc(), min(), max() and clamp() are only supported where the syntax has <length-percentage>, not for <length>, <number>, <angle> or <percentage> (c66_calc_refuted). The syntax `*` rejects comma lists, unknown functions and unknown units (c66_any, c66_any_refuted). CSS.supports raises NotImplementedError on a block and ValueError on an error token instead of returning False (c66_total_refuted). Any hash in the syntax text allows commas, also the one inside <styleset(<feature-value-name>#)>, so font-variant supports comma lists (c66_comma_refuted). A function named in a syntax is never supported if it is one of the built-in colour, image, math or transform functions (c66_support).

### C67 Typed style values and property maps: one value per text between commas, set and read by property (partial)

* Modelled: CSSStyleValue._parse_css_style_value, _reify_css_style_value, parse, parse_all and tostring, CSSURLImageValue, and StylePropertyMapReadOnly and StylePropertyMap with the methods inherited from Mapping and MutableMapping, over the descriptors of C66 and the declaration blocks of C23. tinycss2 is given by its tokens and their texts, CSSNumericValue.parse by what it raises; the segments of an unparsed value are in C53.
* Proved: Parsing is proved equivalent to a relational reading of the value (runs between commas, types of the components, class table), the regular expressions for numbers and var() to their grammars, and the maps to a step relation on the one declaration in question, through the block theorems of C23.
* Findings: `in` on a property map is never False (get_all returns an empty list instead of raising KeyError), so setdefault never sets anything; append does nothing. A shorthand that was set is not seen by has, get or delete: delete of 'overflow' leaves overflow-x and overflow-y. set drops the !important of the declaration it replaces. Texts with commas parse for properties that are no lists ('stroke-width: 1, 2' gives two values although CSS.supports is False), and an empty run before a comma gives an empty value, or ValueError for a keyword property. A registered custom property ignores the syntax it was registered with, and refuses transform functions with ValueError.

### C68 Containers and 'use': path data draw exactly what the element shows, references resolve to the first id, cycles never answer (partial)

* Modelled: get_path_data of every graphics element, get_descendant_path_data, get_transformed_path_data, SVGUseElement.instance_root, href, the leaf branch of get_bbox. The outlines of the shapes are C17's and text outlines are given (any list of segments or error); computed geometry (C57) is given. Recursion is modelled with a depth; Python's own limit is not.
* Proved: An inductive relation says what an element shows; by mutual induction get_path_data returns path data drawing it (C15 for the image under the transforms, the pen state for concatenation), and conversely every answer is shown. Answers by well-founded induction on calls, cycles by descent on the depth. Sizes: the least box of C16 under scaling and moving.
* Findings: In a container a child that begins with a relative moveto is drawn from the end of the previous child, and after a child that ends with a moveto the next child's moveto is read as a lineto. The path data of a container leave out the transforms of its children (get_bbox does not). get_transformed_path_data of a 'use' applies its transform twice, so its bounding box is wrong; a use whose target is missing is fine only because its path data are empty. A 'use' of a 'symbol' never draws anything, and raises ZeroDivisionError when it has a width or height. A 'use' of an 'svg' with a width raises ValueError unless the path data are asked for in normalised form. A 'marker' or 'view' child makes the path data of the whole container fail with NotImplementedError. Circular references are not detected (RecursionError). transform="" makes get_transformed_path_data raise AttributeError.

### C69 The glyphs of a text element stand where its position lists and the flow put them, and are drawn and boxed there (partial)

* Modelled: LayoutModel.v: the loop over pieces with the shared, popped position lists, runs, lines, ligature repositioning, the placing of a glyph with its box, the shift of lines against the element's direction, PathParser.from_glyph with its FreeType matrix. Shaping, bidi runs, line breaks and outlines are arguments.
* Proved: LayoutSpec.v states the entries by counting (nearest, counted, entry), the flow position, the picture of an outline (image) and the cell of a glyph; LayoutProofs.v relates the popped store to counting by induction over pieces, runs, lines and glyphs; LayoutProofs2.v drawing and boxes (with C02, C03); LayoutProofs3.v flow and ligatures; LayoutProofs4.v lines against the direction.
* Findings: A list is not used up by the characters of a child with a list of its own, so `<text><tspan x="100">a</tspan>b</text>` puts b at 0 (c69_counting_refuted). Offsets of glyphs in right-to-left runs add up (c69_offset_refuted). from_glyph is right only for a rotation after a translation (c69_matrix_refuted). A cell turned by an angle with negative cosine sticks out of the box (c69_box_refuted). Ligatures of three characters, at the end of a line, in later runs and with rotate lists take wrong entries (c69_three_refuted, c69_last_refuted, c69_later_refuted, c69_rotate_refuted). A line without glyphs raises IndexError (c69_empty_line). get_bbox and get_path_data of a tspan are those of the whole text element.

### C70 The total length of a path is the sum of the lengths of the strokes it draws (partial)

* Modelled: TravelModel.v: the coefficients and integrand of a cubic curve, Ellipse.get_length with its wrapping loops and quadrants, PathSegment.get_length, the loop of PathParser.get_total_length. math.hypot, scipy's quad of the root of a function and the elliptic integral on a quarter are arguments.
* Proved: TravelSpec.v defines velocity (shown to be the derivative, c70_speed), the length of a stroke, and `along`: a length function of an ellipse known on the first quarter, odd, and adding half the circumference in half a turn. TravelProofs.v: the loops wrap into [0, 360], the quadrants agree with `along`; TravelProofs2.v: a simulation between the loop's state and the pen of C13; TravelProofs3.v: the laws, from those of C13, C14 and C15. A measure with exact rational roots shows that the laws can be met.
* Findings: A full turn that does not begin at 0 has length 0 (c70_full_turn_refuted). Smooth curves after a curve of the other degree, after a closepath or after an S that followed no cubic curve are measured with a wrong control point (c70_smooth_refuted, c70_after_close_refuted).

### C71 A location and the document it navigates keep in step (partial)

* Modelled: NavModel.v: Location with its setters and _navigate, Document.navigate and the attributes location of Document and Window, normalize_url, over the URLs of UrlModel.v; which location a window and each document has. Fetching, decoding and parsing a page is an oracle, constant in time.
* Proved: NavSpec.v: `shows`, `visitable`, the relation `arrival` of outcomes. NavProofs.v: reading the host changes no text; no_page is the negation of visitable (its case for file: is never met); a frame argument for worlds; parse_url gives the same result and exception on every object (parse_url_same). The laws about paths come from C38's.
* Findings: A URL without a page (data:, blob:, about: alone) raises, but the location keeps it while the document still shows the old page (c71_nowhere_refuted); a failed fetch leaves an empty document (c71_failed_refuted); a change of the fragment fetches again (c71_fragment_refuted); clearing the scheme raises and leaves a location from which the attribute location cannot lead away (c71_stuck_refuted); '//host/path' is fetched as '/path' (c71_schemeless_refuted); a URL with a bad port is taken as a path beside the document (c71_malformed_refuted); the location of a second document with default_view navigates the window's document (c71_viewed_refuted).

### C72 Data URLs give back their content, and content types choose the encoding (proved)

* Modelled: LoadModel.v: load (data: completely, otherwise urlopen as an argument), get_content_type, the choice of the charset in SVGDOMImplementation.parse and CSSParser.parse, and binascii's base64 decoder as it works in b64decode; URLs are those of C38, mappings those of C40.
* Proved: LoadSpec.v has its own base64 encoder and content types as lists of parts. LoadProofs.v: the decoder reads the encoder's quads (three_ind, division with remainder); a mapping built from pairs holds the last value, and copying it keeps that (from C40); parse_url on 'data:' keeps the text as the pathname.
* Findings: A data: URL without base64 gives text, which SVGDOMImplementation.parse cannot decode: AttributeError for every such URL (c72_page_text_refuted). A '?' ends the data and BASE64 in capitals is not recognised (c72_data_refuted). A quoted charset keeps its quotes, and a space before '=' becomes part of the name (c72_quotes_refuted).

### C73 The style sheets of a document are those of its nodes, in document order, and each is what its node says (proved)

* Modelled: SheetsModel.v: get_css_rules, get_css_style_sheets, get_css_style_sheet_from_element, get_css_style_sheets_from_svg_document, get_css_style_sheets_from_xml_stylesheet, CSSParser.parse and fromstring around the parser, the reflected attributes of link and style. Loading is that of C72, URLs those of C38, rules and flattening those of C44. tinycss2 and parse_rules (with imported sheets) are arguments; OtherError stands for URLError.
* Proved: SheetsSpec.v: ways from the root, document order on ways, the conditions on nodes, what a reference leads to, what stops the collection. SheetsProofs.v: the walk visits each way once in order; one node's outcome is used with its sheet, unused, or stopping (node_outcome); collection keeps order and membership. c73_determined shows that the description admits one list.
* Findings: A link with rel=stylesheet and no href, or an xml-stylesheet instruction with an empty one, raises IndexError for every element of the document (c73_no_target_refuted: href[0] of ''). One sheet that fails otherwise than by URLError, such as a data: URL of text, ends the collection (c73_data_refuted). xml-stylesheet of type text/xsl is read as CSS (c73_type_refuted). rel and media are compared in their own case, and a style that starts with a comment has no sheet (c73_case_refuted).

### C74 Children, siblings and parents agree, and walking along them reaches every node once (proved)

* Modelled: WalkModel.v, on the forest of C64 (ForestModel.v): child_nodes, children, first and last children, siblings and element siblings, parent_node, parent_element, child_element_count, has_child_nodes, get_root_node, child_nodes and children of Document. lxml's links as its source has them; get_root_node of a node that has been taken out of a tree is not modelled (lxml still gives that tree's root).
* Proved: WalkSpec.v: lists of siblings from the rows of C64's specification, adjacency, steps and the pre-order walk as relations. WalkProofs.v: every node is in one list of siblings (from NoDup of all identities), the model's search finds it; induction on trees for the walk; edits never add an element to a list without parent.
* Findings: A document is the parent of none of its children: parent_node of the root and of the comments beside it is None, and their get_root_node is the root element, not the document (c74_document_refuted). Put into another tree, the root stays the document's element, whose child_nodes are then the nodes of that tree (c74_moved_root_refuted).

### C75 The computed geometry is what the attributes say, and the shapes drawn are those (partial)

* Modelled: GeomModel.v: every get_computed_geometry of element.py and text.py, and get_path_data of the basic shapes (on ShapeModel.v) from the attributes. The class is chosen by the local name; the viewport of svg and symbol is what get_viewport_size gave (C34). float(text) without 'inf', 'nan' and '_'.
* Proved: GeomSpec.v says what a numeral with a unit stands for (numeral of C42, sized of C33), what attributes, chains of ancestors and lists give. GeomProofs.v, GeomProofs2.v: reading numerals with the scanner, the search along ancestors by induction, splitting of lists by induction on the words. The drawings come from C18.
* Findings: An automatic radius of an ellipse repeats the other's percentage along the other side, so that the radii differ; a rect has them equal (c75_auto_radius_refuted). 'inherit' is a ValueError but for the width and height of rect and use (c75_inherit_refuted). White space before or after a list of text positions is a ValueError, around other lengths it is not (c75_text_space_refuted); an empty list is one too (c75_text_empty_refuted). What follows a length is passed over: '7 of hearts' is 7 (c75_garbage_refuted).

### C76 Computed style of an element (partial)

* Modelled: `dom.py` get_computed_style 1795-1861; `core.py` compute_font_size_adjust 144-155 and the calls from SVGLength.value 1358-1416 into compute_font_size and Font (628-633). Reuses CascadeModel (inherited style), FontSizeModel, FeatModel, LengthModel and GeomModel. Files ComputedModel, ComputedSpec, ComputedProofs, ComputedProofs2, ComputedProofs3, ComputedProps.
* Proved: The mutual calls (length -> font size of parent or root, length -> Font -> computed style) are a family indexed by the depth of nesting; c76_depth proves that a value found at some depth is the value at every greater depth. Each entry is characterised with the specs of C36, C37, C65, C33 and C75: c76_font_size, c76_size_keyword, c76_size_length, c76_size_absolute, c76_stroke_width, c76_tab_size, c76_line_height, c76_font_weight, c76_inline_size, c76_size_adjust, c76_synthesis, c76_features; c76_geometry, c76_inherited and c76_keys say what else is in the result. c76_total_partial gives success for keywords and absolute lengths (missing: em, rem and % at any depth, for which c76_em_compounds gives the chain case). c76_initial and c76_silent_ancestor cover elements that say nothing.
* Findings: c76_em_compounds, c76_size_inherited_refuted: the text of an em or % font size is inherited, not the size, so 2em on the root makes children 64, grandchildren 128. c76_metric_endless: font-size, line-height, stroke-width or tab-size in ex/cap/ch/ic never finishes (RecursionError), as does rem on the root (c76_rem_root_endless). c76_inline_percent_refuted: inline-size percentages are of 100, not of the view. c76_inline_inherit_refuted: inline-size 'inherit' or 'auto' raises ValueError. c76_em_own_refuted: em in stroke-width is the parent's font size. c76_system_font_refuted: a system font raises KeyError.

### C77 FTMatrix objects are the plane maps they are said to be (proved)

* Modelled: FtModel.v: FTMatrix with a numbered store of objects, the eight entry properties, the conversion to and from FT_Matrix, ft_tag and ft_tag_to_string. np.linalg.inv is the exact inverse; trigonometry is an oracle; the range of C integers is not modelled.
* Proved: FtSpec.v gives maps of the plane (turn, slant, stretch) with y downwards and how they look upwards. FtProofs.v: ring identities for one operation, induction for lists and for the store; singular matrices by solving the two equations. FtProofs2.v: truncation bounds, bits of tags.
* Findings: The documentation of the properties says that b is yx and c is xy; b is xy and c is yx (c77_names_refuted). Copying a, b, c and d of a DOMMatrix, as from_glyph does, gives its map exactly when b = -c (c77_from_dom), so a skewed glyph is drawn with another skew (c77_from_dom_refuted). Characters above 255 run into their neighbours in a tag (c77_tag_refuted).

### C78 Every character of a text reaches the shaper once, in the pieces that breaks and directions decide (partial)

* Modelled: SegModel.v: strings of cffi as UTF-16 code units, UBreakIterator with its C position, UBiDi.get_logical_run and visual_iter, the loop over runs and lines in _get_text_path_data, the decisions from the style. ICU is given as breaks and runs; its status codes and the table of language codes are not modelled.
* Proved: SegSpec.v: a cursor between pieces, without code units. SegProofs.v: surrogate pairs by division, the iterator refines the cursor step by step. SegProofs2.v: the loop over runs by induction, any climbing breaks are ends of pieces, permutations for the visual order. SegProps.v connects to the runs of LayoutModel (C69).
* Findings: ICU counts UTF-16 code units but text.py cuts the str by characters with its limits: after a character above U+FFFF every run is cut too late and a run may come out empty (c78_runs_refuted; c78_runs_partial without such characters). Two loops over one UBreakIterator share its position (c78_two_loops_refuted). U+0000 ends a string (c78_string_refuted). A font-language-override that is not in the table hides xml:lang (c78_locale). By reading only: UBiDi.UBIDI_OPTION_DEFAULT is the tuple (0,) because of a trailing comma.

### C79 Attributes and elements by name: one expanded name, any spelling (proved)

* Modelled: NameModel.v: the attribute methods over the worlds of AttrModel (C21) and the qualified names of UtilsModel (C39), with the prefixes of utils.py; names of elements, creation with lxml's makeelement given as a choice of prefix and nsmap, the class lookup and the prefix of an Attr. Names that lxml refuses as not being XML names are not refused; create_sub_element, whose element is made the same way without the default namespace, is not modelled.
* Proved: NameSpec.v says what a pair means (an inductive relation over the three spellings) and what a history leaves under a name. c79_history: the relation of values before and after a history holds exactly for what get_attribute_ns reads before and after, for any two spellings of the name. c79_reading: every method on a pair with a meaning and without one. c79_empty, c79_spellings, c79_names, c79_names_spelt, c79_remove_node, c79_created (for any fair choice of prefix), c79_creation_refused, c79_caller_map, c79_class, c79_attr_prefix.
* Findings: c79_prefix_refuted: get_attribute('xml:lang') raises NamespaceError for the attribute that set_attribute_ns has put under that qualified name. c79_remove_node_refuted: remove_attribute_node given the Attr of another element removes this element's attribute of that name. c79_no_namespace_refuted: an element created in no namespace reports the SVG namespace as namespace_uri (its tag has none). c79_caller_map_refuted: the caller's nsmap gains the default namespace even if the creation fails. c79_class_refuted: a registered local name gives the SVG class in any namespace, so an XHTML 'a' is an SVGAElement.

### C80 window.match_media: a media query list matches what the window is (partial)

* Modelled: MqlModel.v: _mql_compare, MediaQueryList.matches with its table of conditions, Window.device_pixel_ratio, str(Fraction) and Fraction(text), over the reading (MqParseModel) and evaluation (MediaQueryModel) of queries, SVGLength (LengthModel) and the screen (ScreenModel). The text of a float is an oracle assumed to read back; Fraction of a decimal text is an oracle. get_viewport_size is not modelled here.
* Proved: MqlSpec.v says which facts hold of a window, independently of the table of conditions. c80_matches_partial joins every fact to the evaluation of the text through c57_says_partial, c33_order and c33_dimensions. c80_feature and c80_bounds are its cases for one feature and for both bounds of the width; c80_root, c80_no_other_error.
* Findings: c80_device_ratio_refuted: device-aspect-ratio compares numerators only (SVGLength('16/9') is 16), so (device-aspect-ratio: 16/1) matches a 16:9 screen. c80_orientation_refuted: orientation is that of the screen, not of the viewport. c80_answers_refuted: when the viewport or the screen is less than a pixel high every query, even 'all', raises ZeroDivisionError (ValueError when the colour depth is negative).

### C81 The viewport an element belongs to follows every edit of the tree (partial)

* Modelled: SVGElement.owner_svg_element, viewport_element, get_farthest_svg_element, get_farthest_viewport_element, get_nearest_svg_element, get_nearest_viewport_element; SVGZoomAndPan.zoom_and_pan; SVGSVGElement.current_scale, current_translate.
* Proved: The two loops are followed up C64's tree; the size of the subtree grows at each step, which bounds the loop and makes 'below' an order. The assignments are an induction over histories from the end (last_kept, shown to be functional).
* Findings: owner_svg_element and viewport_element of an 'svg' inside another 'svg' are the element itself instead of an ancestor, and so is viewport_element of a 'symbol' (c81_owner_self, c81_owner_refuted, c81_viewport_refuted): the searches start at the element.

### C82 Path segment objects are what was last set (proved)

* Modelled: BuilderModel.v: SVGPathSegment with its twenty set_... methods, end, get_bearing, isabsolute, isrelative, isvalid, __eq__, tostring, on objects with any type text and any tuple. What float() and int() make of an argument is part of the argument.
* Proved: BuilderSpec.v says which command a setter is meant to make (builds) and which object a segment of PathModel.v is (stands). c82_set, c82_accepts, c82_last, c82_reads; c82_text through c17_roundtrip_partial. This also discharges the simplification of PathModel.v for built segments.
* Findings: c82_refused_refuted, c82_failed: a setter assigns the type before it converts the arguments, so a refused set_curveto_abs turns L1,2 into the valid-looking 'C1,2', whose text is read as nothing. c82_types_refuted: the empty type is valid (substring test), get_bearing then raises IndexError; type 'aB' is valid and cannot be printed; an L with one value is valid and has an end of one coordinate.

### C83 Font metrics and font-relative units follow the font of the element (partial)

* Modelled: MetricModel.v: Font with its metrics, __eq__, set_point_size; FontManager.get_face over find_face of FontMatchModel.v; the branches of SVGLength.value for ex, cap, ch and ic with a font. FreeType is given as a function from requested sizes to glyph metrics.
* Proved: MetricSpec.v says what each metric of a face is at a size (says) and which answers a history gives (tells). c83_history, c83_answer, c83_request, c83_em_partial, c83_pixels, c83_refines (the numbers LengthModel.v takes from its surroundings are these), c83_to_constant, c83_back_partial, c83_eq_equivalence, c83_equal_partial.
* Findings: c83_to_constant, c83_back_refuted: converting to ex, cap, ch or ic takes the metric at the size being converted, so with a scalable font every length is the same number of ex (5ex = 40px = 2ex). c83_em_refuted: on a screen of 192 pixels per inch glyphs and font units double while pixels do not. c83_cap_missing: without 'H' and 'h' cap_height raises AttributeError (FTSize has no height). c83_cap_refuted: cap_height is the vertical advance, not the height of the letter. c83_ascent, c83_ascent_refuted: ascent and descent are design units / 64 at every size while line_height scales. c83_equal_refuted: equal fonts may have different faces when made for different texts.

### C84 Native objects are freed exactly when nothing needs them any more (proved)

* Modelled: NativeModel.v: the wrappers' __init__, __del__, create, get_face, set_face, reference, reference_blob, reference_face, new_face, new_memory_face over a heap of counted native objects; the libraries' counting is as their documentation says.
* Proved: NativeSpec.v counts who needs an object without its count, and says what leads to something gone (stale) and who is careful. Invariant over all runs (NativeProofs.v, NativeProofs2.v), pointers of careful runs (NativeProofs3.v). c84_counts, c84_alive, c84_dangling, c84_forgetting, c84_use, c84_careful, c84_no_leak, c84_reference, c84_duplicate.
* Findings: c84_get_face_refuted: HBFont.get_face wraps the font's face without a reference, so forgetting the wrapper frees the face under the font (use after free, double free). c84_ft_refuted: HBFTFont and HBFTFace do not keep their FTFace; forgetting it first leaves them dangling. c84_memory_refuted: the memory of new_memory_face goes with its first wrapper although the FTFace from HBFTFont.get_face still uses it. c84_bytes_refuted: an HBBlob that does not duplicate does not keep its bytes. c84_reference_refuted, c84_reference: reference() and reference_blob() are never undone, so the object is never freed.

### C85 Buffers hold the text they were given, directions and tags are what they say (partial)

* Modelled: BufModel.v: HBDirection, hb_tag and the constants of HBScript, HBBuffer.add_utf8, add_utf16, add_utf32 and clear_contents with str.encode and the library's decoders (hb-utf.hh, replacement of malformed units included), the bytes HBFeature.fromstring passes. Little-endian machine; no context, flags or lack of memory.
* Proved: BufSpec.v: widths of characters by range, `placed` (characters with the units before them), `before_nul`, what an addition brings; no encoder. BufProofs.v: decoding undoes encoding for every character of each form; BufProofs2.v: additions, histories, clusters. c85_utf8, c85_utf16, c85_utf32, c85_surrogate, c85_history, c85_history_kept, c85_clusters, c85_indices, c85_direction, c85_reverse, c85_names, c85_first_letter, c85_tag, c85_tag_injective, c85_scripts, c85_feature, c85_same_partial.
* Findings: c85_same_refuted: 'utf-16' and 'utf-32' begin with a byte order mark, which add_utf16 and add_utf32 give to the library as a character U+FEFF in front of the text. c85_nul_refuted: add_utf8 stops at U+0000. c85_clusters_refuted: the clusters of two additions collide. c85_indices: clusters from add_utf8 are byte offsets, so text.py, which takes them for character counts, misreads text that is not ASCII. c85_names_refuted: any word beginning with l, r, t or b is a direction. c85_tag_refuted: characters over U+00FF make tags collide. c85_feature: len(string) counts characters, not bytes.

### C86 What holds of rectangles when numbers are rounded as floats are (partial)

* Modelled: FloatModel.v: right, bottom, contains, normalize, set_coords, adjust_self, translate_self, intersect_self, unite_self, __or__ with a rounding at each addition and subtraction; `fl`, rounding to the nearest number of 53 binary digits, ties to even. Simplified: exponents are unbounded, so no overflow, underflow, infinities, NaN, signed zeros.
* Proved: FloatSpec.v: what a rounding is (four laws), representable rectangles, grids, the box given by outermost edges. FloatProofs.v: `fl` is such a rounding, exact on 53 digits, nearest; FloatProofs2.v: containment and union for every rounding, Sterbenz' lemma; FloatProofs3.v: grids, intersections, boxes, ties. c86_rounding, c86_exact (with no rounding these are the functions of C01 to C04), c86_grid, c86_contains, c86_unite, c86_unite_commutes_partial, c86_unite_covers_partial, c86_exact_size, c86_edge_error, c86_box, c86_intersect, c86_normalize, c86_adjust, c86_adjust_grid, c86_translate.
* Findings: Laws of C01 to C04 that floats break: c86_unite_covers_refuted (the union of 2.8..3.4 and 0.8..1.3 does not contain the first, because the width is subtracted and added again); c86_unite_commutes_refuted (1.4..9.2 and 2.1..4.1); c86_intersect_inside_refuted (the intersection of 1.7..7 and 0.5..3.9 sticks out of the second); c86_intersect_empty_refuted and c86_normalize_refuted (a width under half the last digit of the left edge is lost); c86_translate_refuted (0.1 moved by 0.2 and back).

### C87 What holds of lengths when Decimals and floats are rounded (partial)

* Modelled: DecModel.v: value, convert, += and -=, the six comparisons, _normalize with a rounding at each operation on Decimals and at each float(); `rnd b p`, rounding to p digits of base b, ties to even; `dl`, 28 decimal digits. Simplified: exponents are unbounded; math.isclose does not round the difference of its two floats; what the context element gives is taken as it is.
* Proved: DecSpec.v: relative nearness, the tolerance band, numbers of p digits. DecProofs.v: `rnd` is a rounding for every base and precision; DecProofs2.v: relative errors of products and quotients, of each unit's size and of value(); DecProofs3.v: isclose as a band, conversions, sums, order outside the band. c87_digits, c87_floats (FloatModel's floats are the case of base 2), c87_decimals, c87_written, c87_exact (with no rounding these are the functions of C33), c87_errors, c87_value, c87_back, c87_convert_equal, c87_compare, c87_equal, c87_sum, c87_commutes_partial, c87_minus_self_partial.
* Findings: c87_back_refuted: 1px converted to inches and back is 0.9999999999999999px. c87_commutes_refuted: for a = 10000000000.1px and b = -10000000000.3px, a + b == b + a is False, because the right operand alone passes through a float; c87_minus_self_refuted: a - a is not zero but -3.8e-7px, less than 0px by `<`. c87_lost_refuted: 0.000001px + 1e22px - 1e22px is 0. The sums commute, and a - a is zero, when the numbers are floats (c87_commutes_partial, c87_minus_self_partial).

### C88 What holds of matrices when numbers are rounded as floats are (partial)

* Modelled: MatFloatModel.v: matrix3d's float(), numpy.dot by plans, multiply_self, translate_self, scale_self, skew_x_self, skew_y_self, rotate_self, flip_x, flip_y, transform_point with a rounding at every operation. Simplified: exponents are unbounded (no overflow, underflow, infinities, NaN, signed zeros); numpy.linalg.inv and rotations about slanting axes are not modelled with rounding.
* Proved: MatFloatSpec.v: complete plans, rows times columns, sizes, distances in parts of a size, kept arrays, last rows. MatFloatProofs.v: by induction on plans, the error of a sum, sums with one or two products other than zero, monotony, grids; MatFloatProofs2.v: errors of products and histories, diagonal arrays, flags. c88_exact (with no rounding these are the methods of C05 to C08), c88_error, c88_history, c88_history_bound and c88_history_point (4nu / (1 - 4nu) after n products, also for a point transformed at the end; MatFloatBoundProps.v), c88_compose, c88_identity, c88_translate, c88_flips, c88_powers, c88_grid, c88_two_d, c88_order.
* Findings: Laws of C05 to C08 that floats break: c88_plans_refuted (two ways of adding give different arrays, so results depend on the numpy at hand), c88_associative_refuted (three translations), c88_back_refuted (translating there and back from 0.1), c88_rescale_refuted (scaling by 49 and by 1/49).

## Not modelled

* fontconfig, FreeType, HarfBuzz and ICU bindings (`fontconfig.py` apart from its tables,
  `freetype.py` apart from FTMatrix, tags and lifetimes (C84), `harfbuzz.py` apart from lifetimes (C84), directions, tags and the text of buffers (C85), `icu.py` apart from the wrappers of C78, `_ffi_api.py`, `opentype.py` apart from its two functions): calls
  into C.
* Parsing of XML (lxml) and tokenising of CSS (tinycss2): only results are modelled.
* Network and file access (urlopen) and the XML parser, behind `SVGDOMImplementation.parse`: an oracle (C71, C72).
* `path.py` 58-63, 189-206: numerical integration and the elliptic integral are arguments of C70.
* C23 and C24 take the descriptors of `css/props.py` as an oracle; C66 models them.
* In `text.py` the shaping, the bidirectional algorithm and line breaking (arguments of C69 and C78).
