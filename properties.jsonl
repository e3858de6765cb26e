{"id": "C01", "title": "DOMRect intersection is the set intersection", "statement": "For two rectangles with positive width and height whose interiors overlap, r.intersect(s) contains a point exactly when both r and s contain it; for rectangles that do not overlap the result must be empty rather than one of the operands.", "quantifier": "all pairs of rectangles and all points", "why_tests_cant": "the property compares two uncountable point sets for every pair of rectangles; a test samples a few corners", "anchors": ["svgpy/geometry/rect.py: DOMRect.intersect_self, DOMRectReadOnly.intersect, DOMRectReadOnly.contains, isvalid, isempty"]}
{"id": "C02", "title": "DOMRect union is the least enclosing box", "statement": "r.unite(s) contains every point of r and of s and is contained in every rectangle that contains both; folding unite over any list of boxes (as bbox computations do) yields the least box of all of them, in any order.", "quantifier": "all lists of rectangles, including points, lines and the unset rectangle", "why_tests_cant": "least-ness quantifies over every other enclosing rectangle and folding over every list length", "anchors": ["svgpy/geometry/rect.py: DOMRect.unite_self, DOMRectReadOnly.unite", "svgpy/base.py: SVGGraphicsElement.get_bbox", "svgpy/path.py: PathParser.get_bbox"]}
{"id": "C03", "title": "A transformed rectangle encloses the image of the rectangle", "statement": "r.transform(m) is an axis-aligned rectangle with non-negative size that contains m applied to every point of r, and is the smallest such rectangle.", "quantifier": "all rectangles, all 2D affine matrices, all points of the rectangle", "why_tests_cant": "the failing matrices are a half-space of directions; example tests used by the project happen to miss it", "anchors": ["svgpy/geometry/rect.py: DOMRect.transform_self, DOMRectReadOnly.transform"]}
{"id": "C04", "title": "Rectangle normalisation, containment and in-place algebra", "statement": "normalize() yields non-negative width and height, denotes the same region and is idempotent; translate/adjust/transpose/move_to compose and undo as documented; contains() is reflexive and transitive on valid rectangles; isempty() is the negation of isvalid().", "quantifier": "all rectangles, all offsets, all sequences of in-place edits", "why_tests_cant": "laws range over all numeric inputs and edit sequences", "anchors": ["svgpy/geometry/rect.py: normalize, contains, adjust_self, translate_self, transpose_self, move_to, set_coords, isempty, isvalid"]}
{"id": "C05", "title": "A matrix that says it is 2D is 2D", "statement": "After any sequence of constructor, element setter, multiply, inverse, rotate, scale, skew, translate, flip and clear operations, is2d true implies that every 3D entry of the matrix has its identity value, so that dropping those entries in toString/toJSON/transform_point loses nothing.", "quantifier": "every finite history of matrix operations from every constructor", "why_tests_cant": "the flag and the entries are updated by separate statements in every method; only an induction over histories relates them", "anchors": ["svgpy/geometry/matrix.py: DOMMatrix, DOMMatrixReadOnly.is2d, setters, multiply_self, rotate_self, rotate_axis_angle_self, scale_self, skew_x_self, skew_y_self, translate_self, invert_self, clear"]}
{"id": "C06", "title": "Matrix multiplication is composition", "statement": "Transforming a point by m1.multiply(m2) equals transforming it by m2 and then by m1; multiplication is associative with the identity as unit.", "quantifier": "all matrices, all points", "why_tests_cant": "an algebraic identity over all real matrices", "anchors": ["svgpy/geometry/matrix.py: DOMMatrix.multiply_self, DOMMatrixReadOnly.multiply, transform_point, __mul__"]}
{"id": "C07", "title": "Matrix inverse undoes the transformation", "statement": "For an invertible matrix m, m.inverse() is a two-sided inverse, mapping any point forward and back returns it, inverting twice returns m, and a non-invertible matrix is reported rather than silently mis-inverted.", "quantifier": "all invertible (and all singular) matrices and points", "why_tests_cant": "quantifies over all matrices", "anchors": ["svgpy/geometry/matrix.py: DOMMatrixReadOnly.inverse, DOMMatrix.invert_self"]}
{"id": "C08", "title": "Scale, rotate, skew and translate do what their names say", "statement": "translate(x,y) moves every point by (x,y); scale about an origin keeps that origin fixed and scales displacements; consecutive rotations add, rotations preserve distances; flips are involutions.", "quantifier": "all arguments and all points", "why_tests_cant": "identities over all arguments and points, including interaction of several primitive steps", "anchors": ["svgpy/geometry/matrix.py: translate_self, scale_self, scale3d_self, rotate_self, rotate_axis_angle_self, skew_x_self, skew_y_self, flip_x, flip_y"]}
{"id": "C09", "title": "Matrix export/import round-trips", "statement": "from_float_array(m.to_float_array()), DOMMatrix(m.tolist()), from_matrix(m.tojson()) and matrix(from tostring) all rebuild a matrix with the same entries and the same 2D-ness.", "quantifier": "all matrices reachable through the API", "why_tests_cant": "round-trip over all values; depends on the 2D flag being truthful for every history", "anchors": ["svgpy/geometry/matrix.py: from_float_array, from_float64_array, to_float_array, tolist, tojson, from_matrix, _init_from_array, _init_from_matrix, tostring"]}
{"id": "C10", "title": "A transform list denotes the ordered product of its items", "statement": "SVGTransformList.matrix is the product of the item matrices in list order; consolidate() leaves a list with at most one item that denotes the same matrix, and concatenating two lists multiplies their matrices.", "quantifier": "all lists of transforms", "why_tests_cant": "induction over list length; any single example cannot show order-sensitivity in general", "anchors": ["svgpy/transform.py: SVGTransformList.matrix, consolidate, SVGTransform.matrix, set_matrix, set_rotate, set_scale, set_skew_x, set_skew_y, set_translate"]}
{"id": "C11", "title": "Transform list edits behave like a typed Python list", "statement": "Any sequence of initialize/append_item/insert_item_before/replace_item/remove_item/clear and sequence operations leaves exactly the list the plain list operations would, contains only transforms, and a rejected operation changes nothing.", "quantifier": "every finite history of edits, including rejected ones", "why_tests_cant": "invariant over histories", "anchors": ["svgpy/transform.py: SVGTransformList"]}
{"id": "C12", "title": "Transform attribute text round-trips", "statement": "Serialising a transform list and parsing the text again produces transforms with the same types and the same matrices (abbreviated forms such as translate(x), scale(s), rotate(a) included).", "quantifier": "all lists of 2D transforms whose numbers are exactly representable by the formatter", "why_tests_cant": "round-trip over all lists; abbreviation rules interact with default arguments", "anchors": ["svgpy/transform.py: SVGTransform.tostring, SVGTransformList.tostring, SVGTransformList.parse, SVGTransform.set"]}
{"id": "C13", "title": "Making path data absolute keeps the geometry", "statement": "Converting each segment to absolute coordinates yields only absolute commands, visits the same end points and control points as the relative reading of the path, and is idempotent.", "quantifier": "all path segment sequences", "why_tests_cant": "current-point threading through arbitrary long segment sequences", "anchors": ["svgpy/path.py: PathSegment.toabsolute, SVGPathSegment.end, PathParser.normalize"]}
{"id": "C14", "title": "Path normalisation keeps the geometry and yields the base command set", "statement": "PathParser.normalize returns only M, L, C, Z with absolute coordinates, preserves the end point of every segment, replaces every quadratic/smooth curve by a cubic tracing the same points, replaces an arc by at most four cubics that meet on the ellipse and stay within 0.03 % of it, and is idempotent.", "quantifier": "all path segment sequences; all curve parameters t", "why_tests_cant": "curve identity holds for a continuum of t and every sequence", "anchors": ["svgpy/path.py: PathSegment.normalize, PathSegment.get_next_control_point, PathParser.normalize"]}
{"id": "C15", "title": "Transforming a path maps every point of it", "statement": "PathParser.transform(path, m) is a path whose every vertex and curve point is m applied to the corresponding one of the input, for relative and absolute commands alike.", "quantifier": "all paths, all affine matrices, all curve parameters", "why_tests_cant": "depends on the state threaded from one segment to the next; mixing absolute H/V with relative commands is an unbounded family", "anchors": ["svgpy/path.py: PathParser.transform, PathSegment.transform"]}
{"id": "C16", "title": "A path's bounding box contains the path", "statement": "Every point of every segment lies inside PathParser.get_bbox(path).", "quantifier": "all paths and all curve parameters", "why_tests_cant": "containment of a continuum of points", "anchors": ["svgpy/path.py: PathParser.get_bbox, PathSegment.get_bbox, CubicBezierCurve.get_bbox"]}
{"id": "C17", "title": "Path data text round-trips", "statement": "Parsing the serialised form of a path gives the same segments; parsing expands implicit repeated commands (M x y x y is M then implicit L) and never invents coordinates.", "quantifier": "all well-formed segment lists", "why_tests_cant": "round-trip over all sequences; the tokeniser's handling of adjacent commands is where it can fail", "anchors": ["svgpy/path.py: PathParser.parse, PathParser.tostring, SVGPathSegment.tostring, SVGPathSegment.isvalid"]}
{"id": "C18", "title": "Basic shapes produce the right closed outline", "statement": "Path data of circle, ellipse, rect, line, polyline and polygon start at the documented point, visit the documented vertices, close where required, and are empty exactly when the shape does not render; rounded-rect radii never exceed half the side.", "quantifier": "all geometry attribute values", "why_tests_cant": "all numeric values including degenerate and negative ones", "anchors": ["svgpy/element.py: SVGCircleElement.get_path_data, SVGEllipseElement, SVGRectElement, SVGLineElement, SVGPolylineElement, SVGPolygonElement"]}
{"id": "C19", "title": "Token lists are ordered sets", "statement": "Starting from any class attribute, add/remove/toggle/replace/insert keep DOMTokenList free of new duplicates, add makes contains true, remove makes contains false, toggle returns whether the token is now present, other tokens and their order are untouched, and invalid tokens are rejected without any change.", "quantifier": "every initial attribute value and every history of operations", "why_tests_cant": "set semantics over histories on top of a space-separated string", "anchors": ["svgpy/dom.py: DOMTokenList"]}
{"id": "C20", "title": "dataset keys correspond one-to-one to data-* attributes", "statement": "Writing dataset[key]=v and reading dataset[key] gives v, the key listed by iteration is the key written, and distinct keys use distinct attributes.", "quantifier": "all keys and values, all histories", "why_tests_cant": "a bijection over all strings", "anchors": ["svgpy/dom.py: DOMStringMap._convert_key, _convert_name, __setitem__, __getitem__, keys"]}
{"id": "C21", "title": "Attribute maps stay consistent with the element", "statement": "After any history of attribute operations through strings or Attr objects, an Attr reports the element's current value while attached, keeps its last value when removed, is attached to at most one element, and attributes of other names/elements are untouched.", "quantifier": "every history over any number of elements and Attr objects", "why_tests_cant": "aliasing between Attr objects, element attributes and the map's cache", "anchors": ["svgpy/dom.py: NamedNodeMap, Attr.attach_element, detach_element, value, Element.set_attribute, remove_attribute, toggle_attribute, set_attribute_node"]}
{"id": "C22", "title": "append and prepend insert exactly the given nodes and text, in order", "statement": "After element.append(n1,..,nk) the element's content is the old content followed by n1..nk; after element.prepend(n1,..,nk) it is n1..nk followed by the old content; text and node arguments may be mixed.", "quantifier": "all elements with any mixed content and any argument lists", "why_tests_cant": "order over arbitrary lists and prior content; text/tail bookkeeping", "anchors": ["svgpy/dom.py: Element.append, Element.prepend, node_append_data, node_prepend_data"]}
{"id": "C23", "title": "A CSS declaration block behaves like an ordered map", "statement": "After any history of set_property/remove_property/__setitem__/__delitem__ calls, get_property_value returns the last value set (or ''), priorities follow the documented rules, length and item() enumerate each property once with the latest set last, and a read-only block never changes.", "quantifier": "every finite history of declarations", "why_tests_cant": "refinement over histories", "anchors": ["svgpy/css/__init__.py: CSSStyleDeclaration.set_property, remove_property, get_property_value, get_property_priority, __setitem__, __delitem__, item, length"]}
{"id": "C24", "title": "Shorthand properties expand and collapse consistently", "statement": "Setting a shorthand sets exactly its longhands, reading it back returns the value set, removing it removes all of its longhands and nothing else, its priority is the common priority of its longhands, and an unparsable value leaves the declarations unchanged.", "quantifier": "all shorthand properties, all values, all prior declarations", "why_tests_cant": "ranges over arbitrary prior declaration blocks", "anchors": ["svgpy/css/shorthands.py: Shorthand.get_property_value, set_css_declaration, remove_property, get_property_priority, OverflowShorthand, WhiteSpaceShorthand, FontSynthesisShorthand, TextDecorationShorthand"]}
{"id": "C25", "title": "Media lists behave like sets of media queries", "statement": "append_medium never creates duplicates, delete_medium removes the medium or reports it missing, media_text reads back what the list holds and assigning it and reading it is stable.", "quantifier": "every history of media list edits", "why_tests_cant": "invariant over histories and strings", "anchors": ["svgpy/css/__init__.py: MediaList"]}
{"id": "C26", "title": "Media queries follow Boolean logic", "statement": "A media query list matches iff one of its queries matches; 'and', 'or' and 'not' combine conditions as Boolean connectives at every nesting depth; 'not Q' matches exactly when Q does not.", "quantifier": "all nested media conditions and all environments", "why_tests_cant": "arbitrary nesting depth", "anchors": ["svgpy/css/mediaquery.py: MediaQuery.match, _match_node"]}
{"id": "C27", "title": "Media feature comparisons mean what they say", "statement": "min-/max- prefixes and range operators (<, <=, >, >=, =) hold exactly when the environment's value compares so with the query's value; for any value v, (f = v), (f < v), (f > v) are mutually exclusive and exhaustive; aspect-ratio behaves likewise.", "quantifier": "all feature values and all environment values", "why_tests_cant": "trichotomy over all numbers", "anchors": ["svgpy/css/mediaquery.py: MediaQuery._eval_expr_compare, _eval_expr_name"]}
{"id": "C28", "title": "CSS numeric types form a commutative algebra", "statement": "Adding types is commutative and idempotent where defined; multiplying types adds exponents, is commutative and associative with the number type as unit; inverting a type twice restores it and computing one value's type never changes another's.", "quantifier": "all unit types and percent hints; all expressions", "why_tests_cant": "algebraic laws over all type maps", "anchors": ["svgpy/css/types.py: CSSNumericType.add_types, multiply_types, apply_percent_hint, CSSMathInvert.__init__, CSSMathProduct.__init__, CSSMathSum.__init__"]}
{"id": "C29", "title": "Unit conversion is exact and reversible", "statement": "Converting a CSS unit value to a compatible unit and back returns it, converting through an intermediate unit equals converting directly, and incompatible conversions are rejected.", "quantifier": "all values and all pairs/triples of units", "why_tests_cant": "all numbers; all unit combinations", "anchors": ["svgpy/css/types.py: CSSUnitValue.to, UnitType.get_canonical_unit, UnitType.get_conversion_ratio, CSSUnitValue comparisons"]}
{"id": "C30", "title": "Serialised calc() expressions keep their value", "statement": "The text produced for a CSS math expression, read with the CSS calc grammar, has the value of the expression.", "quantifier": "all nested sums, products, negations, inversions, min and max", "why_tests_cant": "parenthesisation must be right at every nesting depth", "anchors": ["svgpy/css/types.py: CSSMathSum.tostring, CSSMathProduct.tostring, CSSMathNegate.tostring, CSSMathInvert.tostring, CSSMathMax.tostring, CSSMathMin.tostring"]}
{"id": "C31", "title": "Parsed calc() expressions keep operator precedence", "statement": "Parsing calc() text yields an expression whose value is the value given by the CSS calc grammar (products bind tighter than sums, left associative), and every grammatical min()/max() argument list is accepted.", "quantifier": "all grammatical token sequences", "why_tests_cant": "precedence bugs appear only for particular operator sequences of unbounded length", "anchors": ["svgpy/css/types.py: CSSNumericValue._parse_math_expression"]}
{"id": "C32", "title": "Sum values represent the expression", "statement": "create_sum_value of a math expression, evaluated under any assignment of sizes to units, equals the expression evaluated under it; to()/to_sum() preserve that value.", "quantifier": "all expressions and unit assignments", "why_tests_cant": "quantifies over assignments and expressions", "anchors": ["svgpy/css/types.py: create_sum_value, CSSNumericValue.to, to_sum"]}
{"id": "C33", "title": "SVG lengths convert, add and compare consistently", "statement": "convert() never changes the pixel value, a+b has the sum of the pixel values whatever the units, comparison agrees with the pixel values, operands are never modified and incompatible dimensions are rejected.", "quantifier": "all lengths, units and contexts", "why_tests_cant": "all unit pairs and numbers", "anchors": ["svgpy/core.py: SVGLength.value, convert, __add__, __sub__, __mul__, __truediv__, __eq__, __lt__"]}
{"id": "C34", "title": "viewBox to viewport mapping honours preserveAspectRatio", "statement": "With align none the viewBox maps exactly onto the viewport; with meet the whole viewBox is inside the viewport and touches it in one dimension; with slice it covers the viewport; scaling is uniform unless align is none; min/mid/max alignment places it left/centre/right (top/middle/bottom).", "quantifier": "all viewBoxes and viewports with positive size, all nine alignments", "why_tests_cant": "all real sizes and positions", "anchors": ["svgpy/base.py: SVGFitToViewBox/SVGElement.get_viewport_transformation_matrix", "svgpy/base.py: SVGPreserveAspectRatio"]}
{"id": "C35", "title": "preserveAspectRatio text round-trips", "statement": "Every align keyword defined by SVG is recognised, unknown text falls back to xMidYMid meet, and serialising then parsing returns the same setting.", "quantifier": "all align and meetOrSlice values; all strings", "why_tests_cant": "finite keyword set crossed with arbitrary strings", "anchors": ["svgpy/base.py: SVGPreserveAspectRatio.parse, tostring, align, meet_or_slice"]}
{"id": "C36", "title": "Inherited properties come from the nearest ancestor that specifies them", "statement": "For an inherited property the computed value is the one specified on the element or, failing that (or for 'inherit'), on the nearest ancestor specifying it, else the initial value; within one element !important beats the style attribute, which beats rules and presentation attributes; display:none anywhere above hides the element; the computation never fails for valid input.", "quantifier": "all element chains and style declarations", "why_tests_cant": "ancestor chains of any depth with any combination of sources", "anchors": ["svgpy/dom.py: Element.get_inherited_style", "svgpy/core.py: CSSUtils.get_value"]}
{"id": "C37", "title": "Font size and weight resolution", "statement": "Computed font size is at least the minimum size, absolute keywords are monotone, larger/smaller scale the parent's size; computed weight is between 1 and 1000, bolder never lowers and lighter never raises the inherited weight.", "quantifier": "all ancestor chains and values", "why_tests_cant": "chains of any length", "anchors": ["svgpy/core.py: CSSUtils.compute_font_size, compute_font_weight"]}
{"id": "C38", "title": "URL component setters are independent", "statement": "Setting one component of a URL changes that component only; constructing a URL relative to a base never changes the base; serialising and parsing keeps all components.", "quantifier": "all URLs, all component values, all histories of setters", "why_tests_cant": "setter interactions over histories and aliasing with the base object", "anchors": ["svgpy/url.py: URL, URL.__init__, setters, tostring"]}
{"id": "C39", "title": "Qualified names round-trip through Clark notation", "statement": "A namespace and local name survive conversion to '{ns}local' and back, invalid characters and prefix misuse are rejected with the documented error, and equal names have equal Clark form.", "quantifier": "all namespace/name strings", "why_tests_cant": "all strings", "anchors": ["svgpy/utils.py: QualifiedName"]}
{"id": "C40", "title": "Case-insensitive mappings behave like maps on lower-cased keys", "statement": "Any history of sets, deletes and lookups observes the map keyed by lower-cased key, iteration reports the first spelling used since the key was last absent, and length counts distinct keys.", "quantifier": "every history of operations", "why_tests_cant": "refinement over histories", "anchors": ["svgpy/utils.py: CaseInsensitiveMapping"]}
{"id": "C41", "title": "Inline style text round-trips through dictionaries", "statement": "Converting a style dictionary to text and parsing it back gives the dictionary (for names and values free of the separators); parsing never invents declarations; a value containing a colon must not be lost.", "quantifier": "all dictionaries of style declarations", "why_tests_cant": "all strings and dictionary sizes", "anchors": ["svgpy/utils.py: style_to_dict, dict_to_style"]}
{"id": "C42", "title": "Number formatting is accurate and canonical", "statement": "A formatted coordinate reads back within half a unit in the sixth decimal of the number, has no trailing zeros or bare sign, zero is printed as 0, and formatting what was read back is stable.", "quantifier": "all rational numbers", "why_tests_cant": "error bound for every number", "anchors": ["svgpy/formatter.py: format_number_sequence, format_coordinate_pair_sequence, to_coordinate_pair_sequence"]}
{"id": "C43", "title": "Screen orientation is always one of the four right angles", "statement": "Whatever angle is assigned, orientation.angle is 0, 90, 180 or 270 and congruent to the assigned angle rounded down to a quarter turn, and orientation.type is a defined value consistent with it.", "quantifier": "all integer angles and all screen sizes", "why_tests_cant": "loop termination and range for every integer", "anchors": ["svgpy/css/screen.py: ScreenOrientation.angle, type"]}
{"id": "C44", "title": "Style sheets contribute rules in cascade order, filtered by media", "statement": "The flattened rule list contains exactly the style rules of every reachable sheet whose @media/@import conditions all match, in document order, at any nesting depth.", "quantifier": "all nested rule trees and environments", "why_tests_cant": "arbitrary nesting", "anchors": ["svgpy/style.py: flatten_css_rules, get_css_rules"]}
{"id": "C45", "title": "The cascade picks the last declaration and keeps important ones apart", "statement": "For an element, the collected normal style of each property is the value of the last matching declaration and the important style is the value of the last matching important declaration.", "quantifier": "all rule lists", "why_tests_cant": "list induction", "anchors": ["svgpy/style.py: get_css_style"]}
{"id": "C46", "title": "Text white-space normalisation", "statement": "Normalised text of a rendering chunk contains no line breaks (and, unless white space is preserved, no runs of spaces), keeps all non-space characters in order, is idempotent and never leaves a space at a chunk boundary already ended by one.", "quantifier": "all strings, all white-space modes, all preceding texts", "why_tests_cant": "all strings", "anchors": ["svgpy/core.py: CSSUtils.normalize_text_content"]}
{"id": "C47", "title": "Nearest font weight and width selection follows the CSS font matching order", "statement": "The selected face weight is one of the available ones and is the one preferred by the CSS font matching algorithm for the desired weight.", "quantifier": "all sets of available weights and desired weights", "why_tests_cant": "all finite sets", "anchors": ["svgpy/core.py: FontManager._find_face"]}
{"id": "C48", "title": "font-variant values are partitioned into their longhands", "statement": "Every recognised font-variant token lands in exactly the longhand it belongs to, no longhand is empty, and token order is kept.", "quantifier": "all token lists", "why_tests_cant": "list induction", "anchors": ["svgpy/core.py: CSSUtils.parse_font_variant"]}
{"id": "C49", "title": "CSS.escape is a faithful identifier escape", "statement": "Unescaping CSS.escape(s) by the CSS syntax rules gives s back (NUL mapped to U+FFFD), distinct strings have distinct escapes, and the result is a valid identifier.", "quantifier": "all strings", "why_tests_cant": "all strings", "anchors": ["svgpy/css/__init__.py: CSS.escape"]}
{"id": "C50", "title": "Document child list operations", "statement": "Appending, prepending, inserting, replacing and removing top-level nodes keeps exactly one document element, keeps comments and processing instructions in order, rejects text and second roots without change, and updates owner documents.", "quantifier": "every history of document edits", "why_tests_cant": "invariant over histories", "anchors": ["svgpy/window.py: Document.append, prepend, insert, insert_before, remove, replace, child_nodes"]}
{"id": "C51", "title": "Unparsed CSS values are mutable sequences", "statement": "Item assignment, insertion and deletion on CSSUnparsedValue behave as the Python list operations of the same name.", "quantifier": "every history of edits", "why_tests_cant": "refinement over histories", "anchors": ["svgpy/css/types.py: CSSUnparsedValue"]}
{"id": "C52", "title": "The font shorthand sets every font longhand", "statement": "In a font value each keyword sets the longhand it belongs to, longhands not mentioned are reset to their initial value, the word before the family list gives the font size and (after '/') the line height, and the comma-separated names give the family list in order.", "quantifier": "all word lists", "why_tests_cant": "list induction over keywords and names", "anchors": ["svgpy/core.py: CSSUtils.parse_font, parse_font_family"]}
{"id": "C53", "title": "Reifying component values keeps their text", "statement": "Turning the component values of a declaration that uses var() into members (strings and references) and writing the members out again gives the text of the values, with every reference outside other references present once, in order, and no empty string among the members.", "quantifier": "all trees of component values", "why_tests_cant": "functions nest and references carry fallbacks which are reified in turn; the loop moves strings between levels", "anchors": ["svgpy/css/types.py: CSSStyleValue._reify_component_values, CSSUnparsedValue.tostring, CSSVariableReferenceValue.tostring"]}
{"id": "C54", "title": "Paths of URLs are normalised", "statement": "Setting the path of a URL from the root stores a path in which no segment is empty, '.' or '..': the segments left after each '..' has removed the segment before it, percent-encoded, and setting the stored path again changes nothing.", "quantifier": "all texts, all URLs", "why_tests_cant": "quoting and normalisation interact (an encoded dot or slash is decoded before normalising); segment lists are unbounded", "anchors": ["svgpy/url.py: URL.pathname, os.path.normpath"]}
{"id": "C55", "title": "The current transformation matrix follows the ancestors", "statement": "The screen CTM of an element takes a point of its coordinate system to the screen by, from the element outwards, each viewport mapping and each transform, then the zoom and pan of the outermost svg; a child's matrix is its parent's times the child's transform; the CTM does the same up to the nearest viewport.", "quantifier": "all chains of ancestors, all transforms, all points", "why_tests_cant": "nesting depth is unbounded and the matrices multiply in an order tests with commuting transforms cannot see", "anchors": ["svgpy/base.py: SVGGraphicsElement._get_ctm, get_ctm, get_screen_ctm, get_farthest_svg_element, get_nearest_viewport_element"]}
{"id": "C56", "title": "The bounding box of a container covers what is drawn in it", "statement": "The bounding box of a container contains the box of every displayed descendant graphics element, moved by the transforms of the containers between, and (under scalings and translations) is the smallest such box; defs, symbols, undisplayed and non-graphics children contribute nothing.", "quantifier": "all trees of containers and shapes", "why_tests_cant": "tree induction; boxes are transformed and united at every level", "anchors": ["svgpy/base.py: SVGGraphicsElement.get_bbox", "svgpy/geometry/rect.py: DOMRect.unite_self, transform_self"]}
{"id": "C57", "title": "Media query text is read as written", "statement": "Reading the text of a list of media queries (types with 'only' or 'not', features with 'and'/'or', plain, boolean and range features, any spacing between words) gives for each query, in order, the tree of its conditions, and the list matches exactly when one of its queries says something true; a comma always separates queries and letter case never matters.", "quantifier": "all lists of queries, all names, values and numbers of spaces; all texts for commas and case", "why_tests_cant": "greedy regular expressions with backtracking over unbounded text; where one pattern stops depends on all that follows", "anchors": ["svgpy/css/mediaquery.py: parse, _parse_media_query, _parse_media_not, _parse_media_in_parens, _parse_mf_plain, _parse_mf_boolean, _parse_mf_range"]}
{"id": "C58", "title": "Search parameters survive serialisation", "statement": "The text of URLSearchParams, read as application/x-www-form-urlencoded, gives back exactly the keys and values, sorted by key, whatever characters they contain; it does not depend on the order of insertion, differs for different parameters and uses only URL-safe ASCII characters. The object behaves as a map under every history of its operations.", "quantifier": "all parameter sets over all characters; every history of operations", "why_tests_cant": "all characters with their UTF-8 forms, separators inside keys and values, and all insertion orders", "anchors": ["svgpy/url.py: URLSearchParams, URLSearchParams.tostring, URL.search"]}
{"id": "C59", "title": "Element lookup returns exactly the matching elements in document order", "statement": "get_elements_by_tag_name, by_tag_name_ns, by_local_name and by_class_name return every element of the subtree that matches, once, in document order, and nothing else; get_element_by_id returns the first such element or None exactly when there is none.", "quantifier": "all trees, all names, ids and class lists", "why_tests_cant": "trees of any shape and depth; class attributes with any number of words", "anchors": ["svgpy/utils.py: get_element_by_id, get_elements_by_class_name, get_elements_by_tag_name, get_elements_by_tag_name_ns", "svgpy/dom.py: Element.get_elements_by_local_name"]}
{"id": "C60", "title": "Text content is the text of the element", "statement": "text_content of a 'text' or 'tspan' element is the concatenation of all text in it in document order; after setting text_content the element has exactly that text, its attributes and no children.", "quantifier": "all trees, all texts", "why_tests_cant": "text and tails interleave at every level of trees of any depth", "anchors": ["svgpy/dom.py: Element.text_content, Element._get_text_content"]}
{"id": "C61", "title": "Inline style and the style attribute agree", "statement": "The style object of an element and its attribute 'style' describe the same declarations: what the attribute says about a property is what is read from the style object; declaring a property writes it into the attribute, leaves every other declaration there untouched and is read back; removing it takes it out of both and returns its value; and after any history of changes through the style object it equals a free-standing declaration block (C23) with the attribute listing exactly its values, the attribute being absent exactly when nothing is declared.", "quantifier": "All attribute texts, all declaration states, all histories of declarations and removals, all values and priorities; properties that belong to no shorthand in full, shorthands for loading and writing.", "why_tests_cant": "Declarations and attribute are two copies brought together on every access by comparing texts; whether they drift apart depends on the order of reads, writes and outside edits, which no finite set of tests covers.", "anchors": ["svgpy/css/__init__.py:50-213", "svgpy/css/__init__.py:1371-1421", "svgpy/css/__init__.py:1446-1583", "svgpy/css/longhands.py:16-77", "svgpy/utils.py:42-53", "svgpy/utils.py:241-255"]}
{"id": "C62", "title": "Addressable characters and sub-string lengths of text content", "statement": "get_chars() of a text element gives the drawn pieces of text in document order, each normalised knowing the one before, the last one trimmed, and has exactly the visible characters of the drawn texts; get_number_of_chars() is its length; the characters of a tspan are part of those of its text element, and for a tspan without children exactly its own piece; get_sub_string_length() is additive over neighbouring sub-strings and sums to get_computed_text_length(); outside a text element there are none.", "quantifier": "all trees of text elements with any white-space, display and content, all elements in them, all character positions and counts, any shaping of the pieces", "why_tests_cant": "Tests check a handful of fixed documents with one font; errors depend on where in a nested tree the first text stands, and additivity ranges over all positions.", "anchors": ["svgpy/text.py:42-193", "svgpy/text.py:610-657", "svgpy/text.py:685-712"]}
{"id": "C63", "title": "CSS rule trees: parsing, parents, feature values and edits", "statement": "CSSParser.parse_rules makes, in order, exactly one rule of the right CSSOM type for each qualified rule and each @import, @media, @font-face, @namespace and @font-feature-values, and none for anything else; each rule carries what its node says; every rule of the tree, at any depth, names its sheet and the rule it is in, and no rule object occurs twice; reading fails exactly when a rule that needs a block has none. A feature value is the last non-empty list declared under its name (case-insensitively) in the blocks of its type. insert_rule puts the new rules at the index and delete_rule removes exactly one; no history of edits in the sheet or its media rules breaks the parent links or the uniqueness of rules.", "quantifier": "every list of tinycss2 nodes, every nesting depth, every index, every history of insertions and deletions at every place of the tree, failed ones included", "why_tests_cant": "Tests parse a few sheets; nesting depth, the order of edits inside nested media rules and the mixes of tokens in feature blocks are unbounded.", "anchors": ["svgpy/css/__init__.py:665-768", "svgpy/css/__init__.py:1006-1081", "svgpy/css/__init__.py:1149-1291", "svgpy/css/__init__.py:1626-1684", "svgpy/css/__init__.py:1774-1819"]}
{"id": "C64", "title": "Moving nodes keeps every node in one place, and its document with it", "statement": "Appending, inserting, removing, replacing and extending change the lists of children exactly as the method says: the node leaves the list it was in and appears once at the place asked for, with all below it, and every other list is as before. The call succeeds exactly when the receiver is an element, the reference child is one of its children, and the node is not the receiver or above it. A call on a single node that fails changes no list of children. Over any history of calls, failing ones included, no node is lost or doubled, every node has at most one parent and comments have no children. owner_document is the node's own document or else that of the nearest node above with one; inserted nodes and all below them get the document of the tree they go into, so that, over any history of calls that do not fail half-way, parents and children always share their document.", "quantifier": "for all forests of any shape, all nodes, indices, reference nodes and lists of nodes, and all finite histories of the eleven operations", "why_tests_cant": "needs every tree shape and every history of calls, including moves between documents, moves of a node into its own sibling, replacement by a descendant, and failures in the middle; tests try a few fixed trees", "anchors": ["svgpy/dom.py:59-77", "svgpy/dom.py:614-627", "svgpy/dom.py:671-723", "svgpy/dom.py:1566-1645", "svgpy/dom.py:1717-1739", "svgpy/dom.py:2147-2165", "svgpy/dom.py:2236-2252", "svgpy/dom.py:2298-2320"]}
{"id": "C65", "title": "Font variants and feature settings give exactly the OpenType features of the table", "statement": "Text written as a list of quoted four-character tags with optional integers, on or off is read as the map that gives each tag its last value; reading fails (IndexError) exactly when some part between commas is blank, and every key read has four printable characters. The features computed from a style are exactly those of a fixed table (each group of alternative keywords contributes the first of them that is present), all other tags keep the value of the feature settings; each tag occurs once in the output and the output texts can be read back; the order in which keywords are written makes no difference. Starting from the text of font-variant, each keyword present in the text turns its features on or off.", "quantifier": "for all texts, tag lists, quotes, values, styles, keyword lists and feature settings", "why_tests_cant": "the keyword combinations are too many to enumerate and a missing or doubled branch only shows in one of them; tests check a handful of styles", "anchors": ["svgpy/core.py:452-489", "svgpy/opentype.py:627-750"]}
{"id": "C66", "title": "A property supports exactly the values built from the terms of its syntax", "statement": "For every property syntax written from types, functions and words with any multipliers and combinators, PropertyDescriptor.support accepts a token exactly when it is a CSS-wide keyword, var(), or is accepted by some term of the syntax, and names a type of the syntax; supports accepts a value exactly when every token is accepted, commas are allowed by the syntax, and a CSS-wide keyword stands alone. Further alternatives never lose values, the order of terms does not matter, every initial value of the property table is a value of its own property, CSS.supports finds properties in any letter case, and a custom property keeps its first registration.", "quantifier": "all syntaxes of the stated form (all 143 of the property table are of it), all token lists, all colour readers; totality, CSS-wide keywords and errors for all syntax texts; all registration histories", "why_tests_cant": "The syntax is taken apart by regular expressions and then read back through fifteen flags; tests look at single values of a few properties, not at every syntax and every token.", "anchors": ["svgpy/css/props.py:20-137", "svgpy/css/props.py:159-346", "svgpy/css/props.py:348-369", "svgpy/css/props.py:372-1745", "svgpy/css/__init__.py:520-531", "svgpy/css/__init__.py:568-573"]}
{"id": "C67", "title": "Typed style values and property maps: one value per text between commas, set and read by property", "statement": "Parsing a property value gives one value for each run of components between commas (one value for the whole text for the sixteen properties that are read as a whole), each of the class its property and the types of its components ask for, a unit-less length getting its unit, and it fails exactly when a component is not accepted by the property, a CSS-wide keyword is not alone, or the text of a keyword or number cannot be one. A text with a var() reference and the value of an unregistered custom property are one unparsed value and never fail; a CSS-wide keyword is one keyword value in any letter case. Every value knows its property, and a single value is written as the text it was read from and reads back as itself. Without commas a text parses exactly when CSS.supports accepts it. In a StylePropertyMap, after any history of set, delete, pop, append, setdefault and reads, the declaration of a property is that of its last accepted set (priority dropped) or nothing after a delete; set refuses foreign objects, values of other properties and unparsed values among others, without changing anything; what was set is what is read; a read-only block never changes.", "quantifier": "for all property names, texts, sets of registered names, tokenizer results, colour readers and number readers; for all declaration blocks and all histories of operations", "why_tests_cant": "The class of a value depends on 192+43 property names, on the type of every component and on the text; a test suite visits a few of them. The histories interact with letter case, shorthand properties and values created for other properties.", "anchors": ["svgpy/css/types.py:486-581", "svgpy/css/types.py:630-808", "svgpy/css/types.py:1820-1838", "svgpy/css/types.py:1880-1992"]}
{"id": "C68", "title": "Containers and 'use': path data draw exactly what the element shows, references resolve to the first id, cycles never answer", "statement": "get_path_data of a 'g' or 'svg' draws what its children draw, in document order, one after another; of a 'use' it draws what its target draws, moved by (x, y) and then put through the transforms of the use; 'a', 'defs', 'pattern' and 'symbol' draw nothing, and so does a use without target. The target is the first element in document order with the id named by href (xlink:href when href is missing or empty). A used 'svg' with positive width and height gets exactly that size. With normalize set, the path data of every element have only absolute M, L, C and Z. The answer does not depend on the depth of calls; there is one whenever no chain of children and references goes on for ever, and none at all for an element that waits for itself. The transformed path data of an element other than 'use' are the image of its path data under its own transform.", "quantifier": "for all documents (trees of any depth with any ids, references, transforms and geometries), all outlines of the shapes, all settings, all trigonometric oracles with the basic laws, all depths of calls", "why_tests_cant": "References make a document a graph; order of transforms, repeated ids, nested uses and the pen state that path data leave behind interact. Tests try single uses of single shapes.", "anchors": ["svgpy/base.py:461-505", "svgpy/base.py:346-358", "svgpy/base.py:782-788", "svgpy/element.py:379-389", "svgpy/element.py:954-964", "svgpy/element.py:1002-1012", "svgpy/element.py:1039-1133", "svgpy/utils.py:72-86"]}
{"id": "C69", "title": "The glyphs of a text element stand where its position lists and the flow put them, and are drawn and boxed there", "statement": "Laying out the text of a text element, every glyph takes the x, y, dx, dy and rotate entries of the nearest text element around it that specifies the attribute, counted over the glyphs that take from the same list; without an entry it follows the glyph before it, and the last rotate entry is repeated. Between two entries a glyph stands at the last entry plus the advances and the dx/dy since. get_path_data is the concatenation of the glyph outlines, each set down at its place and turned about it to within 1/64 per axis, get_bbox the smallest box around the turned cells of all glyphs. A line that goes against the direction of its element stands beyond the pen for its width, with path, box and pen agreeing. A glyph that stands for two characters takes the entry of its first one and the dx and dy of its second one move to the next glyph.", "quantifier": "for every tree of text pieces, every result of the shaper, of the bidirectional algorithm and of the line breaker, all position lists, metrics and outlines, and every trigonometric oracle", "why_tests_cant": "the repository's tests compare a few rendered strings against images made with one font; lists in nested elements, ligatures, right-to-left runs and rotations combine without bound", "anchors": ["svgpy/text.py:127-522", "svgpy/text.py:658-674", "svgpy/path.py:1198-1256", "svgpy/freetype.py:925-1022"]}
{"id": "C70", "title": "The total length of a path is the sum of the lengths of the strokes it draws", "statement": "get_total_length of path data that begins with a moveto is the sum over the strokes it draws: lines, implicit lines between movetos and closing lines count their distance, curves the integral of the speed of their point (a quadratic curve that of its own point, whatever cubic it is turned into), arcs the part of their ellipse between their two angles, movetos nothing. It is not negative, does not change when the data are normalised or made absolute, is multiplied by k by a map that multiplies distances by k, and adds up over subpaths. The length of an elliptical arc between two angles is the difference of the lengths from the axis, for every start angle and in both directions.", "quantifier": "for all path data without bound (relative and absolute commands, bearings, smooth curves), all angles and radii, every hypot, integral of a root and quarter arc length that depends on values only, and every trigonometric oracle", "why_tests_cant": "the repository's tests compare a handful of paths against browser values to a few digits; the wrap-around of angles, the quadrants, smooth control points after relative commands and bearings combine without bound", "anchors": ["svgpy/path.py:58-63", "svgpy/path.py:96-127", "svgpy/path.py:178-249", "svgpy/path.py:749-822", "svgpy/path.py:1322-1398", "svgpy/base.py:629-638"]}
{"id": "C71", "title": "A location and the document it navigates keep in step", "statement": "After any assignment to a location (its href, one of its parts, assign, reload, or the attribute location of a window or document) that raises nothing, the document that the location navigates shows exactly the page its text leads to, or nothing for about:, and it stays so whatever is done with other locations and documents. No other location and no other document is changed. A value refused by an attribute other than the host leaves everything as it was, and every other outcome is one of: no page for such a URL, an empty document, the page, the failure of fetching. href does not depend on the URL before; reloading and giving an attribute its own value change nothing; the attribute location takes a URL as href does and a path as a path beside the document or from the root of its host.", "quantifier": "for all URLs, texts and worlds of one window and any number of documents with and without it, every history of uses, and every web (a function from URL texts to pages or exceptions), percent-decoder, IDNA encoding and file system", "why_tests_cant": "tests navigate to a few local files; sharing of one location between the window and documents, failing navigations in the middle of a history and partial updates of the URL combine without bound", "anchors": ["svgpy/url.py:56-205", "svgpy/window.py:37-67", "svgpy/window.py:73-103", "svgpy/window.py:163-171", "svgpy/window.py:548-566", "svgpy/window.py:850-864", "svgpy/window.py:902-913", "svgpy/utils.py:206-231"]}
{"id": "C72", "title": "Data URLs give back their content, and content types choose the encoding", "statement": "Loading a data: URL made from bytes in base64, with any media type and parameters, gives exactly those bytes and a Content-Type without the base64 mark; made from percent-encoded text it gives that text; without a type it has the standard's default type, and without a comma no content. get_content_type gives the media type and every parameter by its name in either case, the last of a name counting, and ignores parts that are no parameters. A page is decoded with the charset of its content type or else as UTF-8, whether from the network or a data URL in base64. base64 decoding inverts base64 encoding and skips characters outside the alphabet.", "quantifier": "for all byte strings, texts, media types and parameter lists without the separators, header lines, decoders, networks and XML parsers, and every percent-decoder that inverts percent-encoding", "why_tests_cant": "tests load one data URL and two headers; the interplay of splitting a URL, stripping, percent-decoding, padding and parameter order is over unbounded texts", "anchors": ["svgpy/utils.py:56-69", "svgpy/utils.py:179-203", "svgpy/window.py:827-847", "svgpy/css/__init__.py:1740-1747"]}
{"id": "C73", "title": "The style sheets of a document are those of its nodes, in document order, and each is what its node says", "statement": "The list of style sheets is the user agent's, then the sheets of exactly those xml-stylesheet instructions before the root and then of those link and style elements of the tree that are to be used, each in document order: links whose rel names a stylesheet (or a preload as style) and no alternate, with a reference outside the document, styles of type text/css with text, all with media that hold. Each sheet has the type, title, media and reference of its node and the rules of what its URL, taken against the document's URI, gives in the advised or declared encoding; none where it cannot be reached. The collection raises exactly where some node cannot be used, with the exception of the first. Nothing but these nodes matters, and the attribute sheet of a link or style is its entry in the list.", "quantifier": "for all documents (any prolog, any tree), windows and media answers, document URIs, networks, encodings and CSS parsers", "why_tests_cant": "tests use fixed files with one or two sheets; order, selection and failure are over unbounded trees, attributes and networks", "anchors": ["svgpy/style.py:124-276", "svgpy/css/__init__.py:905-931", "svgpy/css/__init__.py:1687-1773", "svgpy/element.py:49-155", "svgpy/element.py:812-836", "svgpy/dom.py:2425-2433"]}
{"id": "C74", "title": "Children, siblings and parents agree, and walking along them reaches every node once", "statement": "The children of a node are exactly the nodes whose parent it is; next_sibling and previous_sibling are inverse to each other, the element variants too among elements, passing over comments and processing instructions only, and siblings have one parent. From first_child by next_sibling come the children in order, from last_child by previous_sibling the same backwards, and so for elements; first_child, next_sibling and parent_node lead through all that is below a node, each once, in document order. get_root_node is the topmost ancestor or, of a comment beside it, the root element. After append, addnext, addprevious and remove the links read as the call says. All this holds after every history of edits; two elements never stand beside each other without a parent. The children of a document are its root and what stands beside it.", "quantifier": "for all forests of nodes, all nodes, all histories of edits", "why_tests_cant": "the links are read from one structure in many ways; tests look at small fixed trees, not at every tree reachable by edits", "anchors": ["svgpy/dom.py:567-608", "svgpy/dom.py:628-656", "svgpy/dom.py:786-868", "svgpy/dom.py:1108-1207", "svgpy/dom.py:1418-1514", "svgpy/dom.py:2105-2114", "svgpy/dom.py:2450-2503", "svgpy/window.py:105-128"]}
{"id": "C75", "title": "The computed geometry is what the attributes say, and the shapes drawn are those", "statement": "For circle, ellipse, line, rect, use, path, polygon, polyline, svg, symbol, text, tspan and textPath, get_computed_geometry gives, under exactly the keys of that element, the lengths the attributes stand for: horizontal ones along the width, vertical ones along the height, a circle's radius along the diagonal, 0 where there is none; 'inherit' asks ancestors for a width or height, automatic sizes are nothing (all for svg), automatic radii take the other one, radii of a rectangle are no more than half its sides; lists of text positions are their words in order. No other attribute has an influence, and a word that is no length is an error. The outlines that get_path_data draws are those of the attributes.", "quantifier": "for all elements, attribute texts (decimal numerals with every unit, white space around), viewports, fonts and chains of ancestors", "why_tests_cant": "every attribute of a dozen elements combines with every unit, a direction, defaults, keywords and ancestors; tests try a few of each", "anchors": ["svgpy/element.py:173-206", "svgpy/element.py:275-356", "svgpy/element.py:416-470", "svgpy/element.py:511-524", "svgpy/element.py:570-637", "svgpy/element.py:648-787", "svgpy/element.py:879-888", "svgpy/element.py:977-1000", "svgpy/element.py:1051-1084", "svgpy/text.py:525-606", "svgpy/core.py:226-243", "svgpy/base.py:97-125"]}
{"id": "C76", "title": "Computed style of an element", "statement": "get_computed_style gives the inherited style with nine entries computed and the computed geometry added. The font size is at least 10 and is that of the keyword or length nearest up the tree; stroke width, tab size, line height, font weight, inline size, font synthesis, font features and size adjustment are read as documented. Elements that say nothing have the initial values. False of the code: em font sizes compound at every level below the element that has them; lengths in ex, cap, ch and ic in those properties, and rem on the root, recurse without end; inline-size percentages ignore the view.", "quantifier": "every element and chain of ancestors, every cascade result and attributes, every depth of nested calls", "why_tests_cant": "Tests look at a few trees; the claims cover every chain of ancestors and every text of the properties, and the endless cases need an argument over all depths of recursion.", "anchors": ["svgpy/dom.py:1795-1861", "svgpy/core.py:88-223", "svgpy/core.py:1349-1416", "svgpy/core.py:628-633"]}
{"id": "C77", "title": "FTMatrix objects are the plane maps they are said to be", "statement": "Each operation of FTMatrix post-multiplies the map of SVG that it names, seen with y upwards, so that a list of operations is the composition of their maps; a method without _self changes no object, one with _self only its own, and both compute the same matrix. Rotations keep the determinant and add up. inverse() is the inverse on both sides and fails exactly for matrices that flatten the plane; == holds exactly for matrices that do the same. Arrays and 16.16 matrices of the C library come back as they were; other entries are cut to within 1/65536. Tags of four one-byte characters and numbers of 32 bits stand for each other.", "quantifier": "for all matrices, points, angles and arguments, all lists of calls on any number of objects, all characters and 32-bit numbers", "why_tests_cant": "composition of arbitrary lists of operations, sharing between any number of objects and the exactness of a fixed-point round trip are about all inputs; tests fix a few matrices", "anchors": ["svgpy/freetype.py:27-41", "svgpy/freetype.py:925-1282", "svgpy/freetype.py:857-860", "svgpy/path.py:1237-1246"]}
{"id": "C78", "title": "Every character of a text reaches the shaper once, in the pieces that breaks and directions decide", "statement": "After any calls of first, last, next, previous, current, set_text, iter() and next(), a loop over a UBreakIterator gives the pieces between the breaks of the text that was set last, none empty, joined the text; reversed() gives them backwards, next() goes on from the position, and no assertion fails. The lines that a text element hands to the shaper, those of runs against its direction turned back, make up its text, and the layout counts each character once; each run is the one ICU found, with its level. visual_iter gives the runs in the order seen, a rearrangement of the text. Weight and slant are synthesized exactly when asked for, allowed and missing; the locale comes from font-language-override, xml:lang, lang, the default, in this order.", "quantifier": "for all texts of Unicode scalar values, all breaks and runs that ICU may find, all lists of calls, all styles and faces", "why_tests_cant": "positions in UTF-16 against positions in characters, shared iterator state after arbitrary calls, and every possible set of breaks and runs: tests see the breaks of a few texts", "anchors": ["svgpy/icu.py:492-639", "svgpy/icu.py:641-734", "svgpy/text.py:244-347", "svgpy/text.py:502-502", "svgpy/opentype.py:753-755"]}
{"id": "C79", "title": "Attributes and elements by name: one expanded name, any spelling", "statement": "A namespace and a qualified name stand for at most one expanded name (plain, with a known prefix and its namespace, or in Clark notation). After any history of set_attribute(_ns), remove_attribute(_ns) and get_attribute_node(_ns) by any spellings on any elements, an attribute has the value of the last operation naming it (an empty value or None removes), and every spelling of the name reads it; a pair standing for no name is refused by every method with InvalidCharacterError, ValueError or NamespaceError and nothing changes. get_attribute_names lists exactly the names present, once, in code point order. remove_attribute_node gives back a detached Attr. create_element(_ns) makes an element with the local name asked for which, asked for in a namespace, reports that namespace, refusing exactly the pairs that stand for no name; its class is the one registered for the local name, else HTMLElement in XHTML and SVGElement elsewhere. An Attr reports the first prefix bound to its namespace.", "quantifier": "all elements and worlds reachable by attribute operations, all histories, namespaces (without a closing brace), qualified names and values; all prefix maps and any choice of prefixes by lxml that binds the namespace", "why_tests_cant": "Tests use a few names with the SVG and XLink namespaces and one spelling at a time; mixing spellings over a long history, prefixes given without their namespace and elements in no namespace are not exercised.", "anchors": ["svgpy/dom.py:353-552", "svgpy/dom.py:876-906", "svgpy/dom.py:1453-1460", "svgpy/dom.py:1515-1527", "svgpy/dom.py:1741-1790", "svgpy/dom.py:2116-2144", "svgpy/dom.py:2253-2286", "svgpy/dom.py:2322-2361", "svgpy/element.py:1141-1201", "svgpy/element.py:1286-1340", "svgpy/utils.py:33-39"]}
{"id": "C80", "title": "window.match_media: a media query list matches what the window is", "statement": "MediaQueryList.matches, for any query list text of the grammar, is true exactly when one of its queries says something true of the window: min-, max-, plain, range and two-sided features compare the number in the query, converted from any unit, with the size of the root's viewport (of the window when there is no root), the screen's size, the device pixel ratio times the page zoom, the colour depth, 2 to that power, and so on; a value of another kind (2dppx for width) and an unknown feature are false; min- and max-aspect-ratio compare whole-pixel ratios; media types match the screen's medium or 'all'; word features match their word; features without a value are true when the window has them. Comparing lengths raises nothing but ValueError, which counts as false. The inner size of the window does not matter when there is a root element.", "quantifier": "all windows, screens, zooms and viewport sizes (heights of at least a pixel, colour depth not negative), all query lists of the grammar with any lengths, units, spaces and number of queries; numbers equal or further apart than the tolerance of SVGLength", "why_tests_cant": "Tests evaluate a fixed list of queries against the default screen of 1280x720 with a hand-written condition table; the table that matches builds, the units, zoom, roots with a fractional size and screens of other ratios are hardly exercised.", "anchors": ["svgpy/window.py:690-753", "svgpy/window.py:868-876", "svgpy/css/mediaquery.py:100-270"]}
{"id": "C81", "title": "The viewport an element belongs to follows every edit of the tree", "statement": "After any history of edits of a forest of nodes and assignments, get_farthest_svg_element and get_nearest_svg_element (and the two for viewports, which also count 'symbol' elements) return the outermost and the innermost of the 'svg' elements that the element is or stands under, and None exactly when there is none. A child has its parent's answers unless it is an 'svg' itself. owner_svg_element and viewport_element are the nearest proper ancestor of that kind for elements that are not of that kind themselves, and None for an outermost 'svg'. The current_scale (current_translate) of an 'svg' that is outermost now is the last value assigned to it while it was outermost, 1 (0, 0) if there is none; of an 'svg' inside another it reads 1 (0, 0) and assignments are ignored, and moving it out again brings the old value back. zoom_and_pan is read back as 1 or 2 as last assigned, other numbers are ignored; a missing attribute is 1, an unknown text 0.", "quantifier": "all forests, all local names, all histories of edits (append, insert, insert_before, addnext, addprevious, remove, replace, extend, attach, detach) interleaved with assignments to any elements, all elements", "why_tests_cant": "The answers depend on the whole tree at the moment of the call and the scale on every earlier moment at which a value was assigned; tests look at one tree.", "anchors": ["svgpy/base.py:144-204", "svgpy/base.py:800-831", "svgpy/element.py:843-877"]}
{"id": "C82", "title": "Path segment objects are what was last set", "statement": "After any history of set_... calls on an SVGPathSegment, failed ones included, a successful one alone decides the object: its type letter and values are those of the command with the numbers given, and type, values, end, get_bearing, isabsolute, isrelative, isvalid and tostring are those of that command; the text of a list of segments built this way is read back as the same segments (to six decimals). A setter succeeds exactly when all its arguments are numbers (flags: integers). For any one-letter object isvalid holds exactly for the letters of path data with values (or closepath), and tostring raises only for arcs with one or two values. Equality compares letters and values.", "quantifier": "all objects, all setters absolute and relative with any arguments (numbers or not), all histories, all lists of built segments", "why_tests_cant": "Tests call each setter once on a new object with good numbers; failing calls, reuse of an object and the text read back for arbitrary numbers are not covered.", "anchors": ["svgpy/path.py:292-552"]}
{"id": "C83", "title": "Font metrics and font-relative units follow the font of the element", "statement": "For any sequence of reads of ascent, descent, cap_height, ch_advance, ic_advance, height, line_height and x_height and of set_point_size on one Font, failed ones included, every answer is that of its face at the size that was accepted last. A Font opens the face found for style and text at the largest multiple of 1/64 point not above the font size, at the resolution of the screen; at 96 pixels per inch its em is the font size less at most 1/48 pixel. A number of ex, cap, ch or ic is that many times the metric (the parent's font size where it is zero), which is what the conversions of SVGLength (C33) use. Equality of fonts is an equivalence, and equal fonts made for one text and screen have the same face and size.", "quantifier": "all faces (any metrics at any size), all styles, screens and texts, all histories of reads and sizes, all lengths", "why_tests_cant": "Tests read a few metrics of one installed font at one size; they cannot vary the font, the resolution, the order of the reads or the size converted.", "anchors": ["svgpy/core.py:624-742", "svgpy/core.py:902-921", "svgpy/core.py:1407-1413", "svgpy/core.py:1437-1455", "svgpy/core.py:1509-1541"]}
{"id": "C84", "title": "Native objects are freed exactly when nothing needs them any more", "statement": "For any program that creates, copies, uses and forgets HBBlob, HBFace, HBFont, HBFTFont, HBBuffer and FTFace objects in any order and does not call get_face on an HBFont proper, the count of every native object is the number of its wrappers, of the native objects that hold it and of the references taken by hand; so it lives exactly as long as one of them. Forgetting a wrapper, setting a face or taking a reference never touches freed memory; another call does so exactly when its object leads to bytes or an FT_Face that are gone. A program that keeps bytes, FTFaces and the memory of FTFaces long enough never touches freed memory; when no wrapper is left and no reference was taken by hand, nothing is left.", "quantifier": "all sequences of creations, calls and deletions, all sharing between objects", "why_tests_cant": "Tests create one face and let it go at exit; a double free or use after free depends on the order in which the garbage collector drops wrappers, and need not crash when it happens.", "anchors": ["svgpy/harfbuzz.py:93-159", "svgpy/harfbuzz.py:240-335", "svgpy/harfbuzz.py:373-425", "svgpy/harfbuzz.py:428-471", "svgpy/freetype.py:163-173", "svgpy/freetype.py:362-391"]}
{"id": "C85", "title": "Buffers hold the text they were given, directions and tags are what they say", "statement": "Whatever a buffer holds and whatever was added, cleared or refused before, adding a text of Unicode characters puts all of its characters at the end, in order, each with the number of units before it as cluster; a text with a lone surrogate is refused and changes nothing. Clusters of one text increase, and are indices exactly when every character but the last is ASCII. For every integer, a direction is valid, horizontal, vertical, forward or backward exactly for the four constants; reversing twice changes nothing and once exchanges forward and backward only; the name of a direction reads back. Different tags of bytes are different numbers. A feature's text is read whole exactly when it is ASCII.", "quantifier": "all texts (lists of code points), all buffers, all histories of additions and clearings, all integers as directions", "why_tests_cant": "Tests shape one Latin and one Japanese text; UTF-8 has four lengths and UTF-16 two, and errors show only at the boundaries, with surrogates, with U+0000 or after several additions.", "anchors": ["svgpy/harfbuzz.py:35-36", "svgpy/harfbuzz.py:51-92", "svgpy/harfbuzz.py:221-229", "svgpy/harfbuzz.py:466-486", "svgpy/harfbuzz.py:589-592"]}
{"id": "C86", "title": "What holds of rectangles when numbers are rounded as floats are", "statement": "For every rounding that keeps order, leaves its own results alone and is off by at most a fixed part u (so for Python's floats, apart from overflow and underflow): a rectangle contains itself and whatever is in what it contains; the union with a rectangle inside is the rectangle itself and is otherwise what the outermost edges say; the left and top edges of a box put round any number of rectangles are exact; overlapping rectangles have a non-empty intersection with the common left and top edges; normalising gives sizes that are not negative and is then stable; moving there and back keeps the sizes; far edges found again are off by at most u|b| + u(1+u)|b-a|. On multiples of one power of two up to 2^50 times it, containment, union and intersection are those of exact numbers.", "quantifier": "all roundings, all rectangles of representable numbers, all lists of rectangles; for floats: all rationals rounded to 53 binary digits, nearest-even", "why_tests_cant": "Tests use whole numbers and halves, where nothing is rounded; the failures need decimals such as 2.8 + 0.6, and which decimals fail cannot be guessed.", "anchors": ["svgpy/geometry/rect.py:76-101", "svgpy/geometry/rect.py:145-163", "svgpy/geometry/rect.py:243-258", "svgpy/geometry/rect.py:369-451", "svgpy/geometry/rect.py:469-485", "svgpy/geometry/rect.py:546-611"]}
{"id": "C87", "title": "What holds of lengths when Decimals and floats are rounded", "statement": "With the 28-digit Decimals and 53-digit floats of SVGLength, or any two roundings as good: the value of a length in any unit is within 2^-53 + 10^-26 of the exact one, relatively; a length converted to a unit and back is off by at most three parts in 2^53; a converted length is equal to the one it was, both ways round, and neither less nor greater; comparisons agree with those of the exact lengths unless these are between half and two parts in 10^9 apart; sums and differences are off by at most two parts in 2^53 of the two lengths together; no conversion that succeeds exactly fails or the other way round (fonts' metrics aside); numbers written with at most 28 digits are kept.", "quantifier": "all numbers, all units, all contexts, all roundings that are monotone, stable, odd and accurate to u", "why_tests_cant": "Tests compare a handful of conversions that come out even; the size of the error over all numbers and units, and the sums that lose or gain something, are not found by examples.", "anchors": ["svgpy/core.py:1009-1017", "svgpy/core.py:1058-1145", "svgpy/core.py:1217-1237", "svgpy/core.py:1316-1568"]}
{"id": "C88", "title": "What holds of matrices when numbers are rounded as floats are", "statement": "For every rounding that keeps order, leaves its own results and 1 alone, is odd and off by at most a part u, and for every way numpy may add up the four products of an entry (any order, any grouping, fused or not): an entry of a product and a coordinate of a transformed point are off by at most (1+u)^4-1 of the sum of the sizes of their products (5 units in the 53rd digit for floats), n products in a row by at most (1+u)^(4n)-1, multiplying first or transforming twice by at most (1+u)^8-1; the identity is a unit; translating changes the last column only, adds rounded sums and is undone exactly from the identity; flips are exact; a matrix that says it is 2D has exactly 2D entries and no history makes a projection; rows without negative numbers keep the order of points. For floats, scaling by powers of two is exact and undone exactly, and products of multiples of one power of two up to 2^25 times it are exact.", "quantifier": "all roundings, all summation plans per entry, all 4x4 arrays, all points, all histories of multiply_self, translate_self, scale_self, skew_x_self, skew_y_self, rotate_self", "why_tests_cant": "Tests compare with pytest.approx or on whole numbers; the order of numpy's sums differs between machines, so no run shows what another will give, and bounds for long histories are out of reach of examples.", "anchors": ["svgpy/geometry/matrix.py:33-81", "svgpy/geometry/matrix.py:419-439", "svgpy/geometry/matrix.py:684-700", "svgpy/geometry/matrix.py:926-937", "svgpy/geometry/matrix.py:939-991", "svgpy/geometry/matrix.py:999-1102"]}
