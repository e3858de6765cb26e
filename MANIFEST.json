{
 "claims": [
  {
   "property": "C01",
   "status": "partial",
   "theorems": [
    "c01_intersect_exact_partial",
    "c01_disjoint_refuted",
    "c01_no_overlap_unchanged"
   ],
   "note": "Exact for overlapping rectangles; the empty-result half is refuted: rectangles without overlap leave the receiver unchanged (proved for all of them)."
  },
  {
   "property": "C02",
   "status": "partial",
   "theorems": [
    "c02_unite_least_partial",
    "c02_unite_all_partial",
    "c02_unite_all_order_partial",
    "c02_unite_line_refuted",
    "c02_unite_degenerate_is_corner"
   ],
   "note": "Least box, fold and order independence for operands that are unset, points or of positive area; refuted for lines (one zero side), which count only with their corner."
  },
  {
   "property": "C03",
   "status": "partial",
   "theorems": [
    "c03_transform_exact_partial",
    "c03_transform_refuted"
   ],
   "note": "Exact bounding box outside two sign quadrants; refuted for every matrix in them (a<0 and c<0), because corner 1 is overwritten before max."
  },
  {
   "property": "C04",
   "status": "proved",
   "theorems": [
    "c04_normalize",
    "c04_normalize_unset_raises",
    "c04_isempty_isvalid",
    "c04_contains_point",
    "c04_contains_rect",
    "c04_translations_add",
    "c04_adjust_edges",
    "c04_adjust_undo",
    "c04_transpose_involutive",
    "c04_transpose",
    "c04_proper_history",
    "c04_equal",
    "c04_equal_equivalence"
   ],
   "note": "normalize, contains, isempty, adjust, translate, transpose, equality (an equivalence); sizes stay non-negative over every history."
  },
  {
   "property": "C05",
   "status": "proved",
   "theorems": [
    "c05_is2d_history",
    "c05_constructor_array",
    "c05_constructor_kwargs",
    "c05_transform_point_2d",
    "c05_transform_point_3d"
   ],
   "note": "Invariant over every history of constructors and operations; square roots of exact squares assumed exact."
  },
  {
   "property": "C06",
   "status": "proved",
   "theorems": [
    "c06_multiply_composes",
    "c06_multiply_assoc",
    "c06_identity_unit",
    "c06_action_determines",
    "c06_isidentity"
   ],
   "note": "Multiplication, its unit and associativity, action on points, isidentity."
  },
  {
   "property": "C07",
   "status": "proved",
   "theorems": [
    "c07_inverse",
    "c07_inverse_points",
    "c07_inverse_twice",
    "c07_inverse_of_product"
   ],
   "note": "Two-sided inverse, error exactly for non-invertible matrices; numpy.linalg.inv modelled as the exact inverse."
  },
  {
   "property": "C08",
   "status": "proved",
   "theorems": [
    "c08_translate",
    "c08_scale",
    "c08_scale_fixes_origin",
    "c08_skew_x",
    "c08_skew_y",
    "c08_rotate_axis",
    "c08_rotate_zero_axis",
    "c08_rotation_is_rigid",
    "c08_rotations_add",
    "c08_axis_rotations_add",
    "c08_history",
    "c08_flips"
   ],
   "note": "Meaning of each operation and of every history of post-multiplying operations; trigonometry is an oracle with stated hypotheses (addition formulas, unit circle)."
  },
  {
   "property": "C09",
   "status": "partial",
   "theorems": [
    "c09_text",
    "c09_tolist",
    "c09_json",
    "c09_float_array_partial",
    "c09_float_array_flag_refuted",
    "c09_array_length",
    "c09_kwargs_entries"
   ],
   "note": "tolist, tojson and keyword constructor; to_float_array keeps entries but drops the 2D flag (refuted); the text of a 2D matrix is read back by the transform parser (c09_text; there is no parser for matrix3d)."
  },
  {
   "property": "C10",
   "status": "proved",
   "theorems": [
    "c10_item_meaning",
    "c10_list_meaning",
    "c10_empty_list",
    "c10_unknown_item",
    "c10_concat",
    "c10_consolidate"
   ],
   "note": "Meaning of every transform function and list, concatenation, consolidate; UNKNOWN items raise. Trigonometry is an oracle."
  },
  {
   "property": "C11",
   "status": "partial",
   "theorems": [
    "c11_accepted",
    "c11_rejected_partial",
    "c11_typed_history",
    "c11_failed_extend",
    "c11_failed_initialize",
    "c11_rejected_changes_nothing_refuted"
   ],
   "note": "Accepted operations match a positional list specification and every history stays typed; a failing extend keeps its good prefix and a failing initialize has already cleared the list, so 'rejected changes nothing' is refuted for these two."
  },
  {
   "property": "C12",
   "status": "proved",
   "theorems": [
    "c12_roundtrip",
    "c12_roundtrip_exact",
    "c12_roundtrip_matrix"
   ],
   "note": "Round trip for every list, all rationals (rounded to 6 decimals), every white-space/comma delimiter; matrices equal for representable numbers. UNKNOWN items print as nothing."
  },
  {
   "property": "C13",
   "status": "proved",
   "theorems": [
    "c13_same_drawing",
    "c13_same_drawing_anywhere",
    "c13_absolute",
    "c13_idempotent",
    "c13_segment_idempotent",
    "c13_commands"
   ],
   "note": "All segment sequences including bearings; numbers exact rationals, trigonometry an oracle."
  },
  {
   "property": "C14",
   "status": "partial",
   "theorems": [
    "c14_renders_partial",
    "c14_total_no_arcs",
    "c14_idempotent",
    "c14_arc_centre",
    "c14_arc_curves",
    "c14_circle_start",
    "c14_ellipse_start_refuted",
    "c14_chained_smooth_refuted",
    "c14_smooth_after_close_refuted",
    "c14_quad_after_close_refuted",
    "c14_mixed_smooth_refuted",
    "c14_empty_arc_refuted",
    "c14_arc_extent",
    "c14_arc_count",
    "c14_circle_start_turned",
    "c14_arc_middle",
    "c14_arc_close",
    "c14_total",
    "c14_arc_reversed",
    "c14_circle_end",
    "c14_circle_drawn",
    "c14_circle_back"
   ],
   "note": "Guarded by smooth_ok: smooth curves after Z, after a curve of the other degree, or chained after a smooth curve that followed no curve are wrong in the code (refuted); an arc with equal ends raises; ellipse start angle refuted. Arc approximations are proved connected, with right ends and vertices on the ellipse, of the extent the flags ask for, and between vertices never inside the ellipse and at most 0.03 % outside."
  },
  {
   "property": "C15",
   "status": "partial",
   "theorems": [
    "c15_transform_partial",
    "c15_points",
    "c15_3d_refused",
    "c15_relative_after_h_refuted",
    "c15_two_h_refuted",
    "c15_bearing_moveto_refuted",
    "c15_arc_radii_refuted"
   ],
   "note": "Guarded: no arcs unless translation, no relative command after absolute H or V, no bearing between glued commands; each exclusion refuted."
  },
  {
   "property": "C16",
   "status": "partial",
   "theorems": [
    "c16_curve_box",
    "c16_box_of_marks",
    "c16_box_partial",
    "c16_contains_partial",
    "c16_horizontal_refuted",
    "c16_other_commands"
   ],
   "note": "The box of a normalised path is proved to be the smallest box around its start, the corners of all strokes and all points of strokes with extent in both directions; it holds everything painted when no stroke is exactly horizontal or vertical (or others reach as far). Refuted for a single horizontal line (box of width 0, because DOMRect.unite drops an operand of one zero size to its corner). Square roots of discriminants are assumed exact."
  },
  {
   "property": "C17",
   "status": "partial",
   "theorems": [
    "c17_roundtrip_partial",
    "c17_roundtrip_exact_partial",
    "c17_commands_independent",
    "c17_groups",
    "c17_double_close_refuted",
    "c17_adjacent_close_refuted",
    "c17_spacing_refuted"
   ],
   "note": "Round trip to six decimals for every path without two equal closepaths in a row; groups and command independence for every text. Refuted: Z Z collapses, Z directly before a letter is lost. Non-ASCII digits in the text are not modelled."
  },
  {
   "property": "C18",
   "status": "proved",
   "theorems": [
    "c18_ellipse",
    "c18_circle",
    "c18_ellipse_centre",
    "c18_ellipse_radii",
    "c18_rect",
    "c18_rect_corners",
    "c18_rect_radii",
    "c18_rect_box",
    "c18_line",
    "c18_polyline",
    "c18_polygon",
    "c18_poly_empty",
    "c18_points"
   ],
   "note": "Circle, ellipse, rect, line, polyline, polygon path data against the SVG 2 outlines; computed geometry is given as numbers."
  },
  {
   "property": "C19",
   "status": "partial",
   "theorems": [
    "c19_tokens_are_words",
    "c19_refuse",
    "c19_add",
    "c19_remove_partial",
    "c19_remove_refuted",
    "c19_toggle_partial",
    "c19_replace",
    "c19_insert",
    "c19_history",
    "c19_clear",
    "c19_space_refuted",
    "c19_reverse_refuted"
   ],
   "note": "Words, refusal, add, replace, insert, clear and histories hold for every attribute value. remove and toggle need a list without repeated tokens (class=\"a a\" keeps one a after remove); a token with a no-break space is accepted and split in two; reverse() does nothing."
  },
  {
   "property": "C20",
   "status": "partial",
   "theorems": [
    "c20_injective",
    "c20_accept",
    "c20_accept_xml",
    "c20_set_get",
    "c20_del",
    "c20_roundtrip_partial",
    "c20_roundtrip_refuted",
    "c20_history",
    "c20_keys_partial",
    "c20_keys_history"
   ],
   "note": "Injectivity, acceptance, set/get/delete and the finite-map history hold for every key. Listing keys back needs simple names: FooBar and data-foo-1 do not round-trip (refuted)."
  },
  {
   "property": "C21",
   "status": "partial",
   "theorems": [
    "c21_one_attr",
    "c21_get",
    "c21_set_text",
    "c21_delete",
    "c21_remove_named",
    "c21_set_attr",
    "c21_value",
    "c21_frame",
    "c21_set_named",
    "c21_toggle",
    "c21_stale_refuted"
   ],
   "note": "Holds for every history over any number of elements and Attr objects, with frames for all others, and what set_named_item gives back. Refuted: emptying an attached Attr (attr.value = '') leaves it attached to nothing and loses its value; setting it again has no effect."
  },
  {
   "property": "C22",
   "status": "partial",
   "theorems": [
    "c22_append_partial",
    "c22_append_nodes",
    "c22_append_leading",
    "c22_append_refuted",
    "c22_prepend",
    "c22_prepend_empty",
    "c22_prepend_partial",
    "c22_prepend_tail_refuted",
    "c22_prepend_first_refuted",
    "c22_prepend_refuted",
    "c22_insert_before",
    "c22_insert_before_self",
    "c22_insert_before_missing",
    "c22_insert_before_end",
    "c22_remove",
    "c22_remove_missing",
    "c22_remove_restore",
    "c22_remove_text_refuted",
    "c22_replace",
    "c22_tails",
    "c22_no_duplicates"
   ],
   "note": "Exact content after append (c22_append_leading), after prepend on an element whose first child is not among the nodes (c22_prepend: any tails, nodes that are children already) and after prepend of several nodes on an element without children (c22_prepend_empty). The order claimed is refuted by witnesses where it fails: text given before the first node of append lands in front of existing children; prepend of several nodes on an empty element; prepend of text straight after a node with a tail; prepend of the present first child. remove_child also takes the text after the node away."
  },
  {
   "property": "C23",
   "status": "partial",
   "theorems": [
    "c23_last_value",
    "c23_set",
    "c23_keep_priority",
    "c23_bad_priority",
    "c23_no_value",
    "c23_empty_removes",
    "c23_remove",
    "c23_enumerates",
    "c23_readonly",
    "c23_name_case",
    "c23_custom_case",
    "c23_important_refuted",
    "c23_rule_last_partial"
   ],
   "note": "Every history over longhand and custom properties; priorities, order, enumeration, read-only. Refuted: within one style rule a later plain declaration replaces an earlier important one. The back end over the inline style attribute is C61."
  },
  {
   "property": "C24",
   "status": "partial",
   "theorems": [
    "c24_set_exact",
    "c24_remove_exact",
    "c24_priority_common",
    "c24_priority_declared_partial",
    "c24_priority_font_refuted",
    "c24_read_wide",
    "c24_read_white_space",
    "c24_read_font_synthesis",
    "c24_read_overflow",
    "c24_read_text_decoration",
    "c24_read_font_variant",
    "c24_read_mask_partial",
    "c24_print_mask",
    "c24_print_mask_border",
    "c24_mask_clip_refuted",
    "c24_two_wide_partial",
    "c24_unparsable_refuted",
    "c24_unparsable_more_refuted",
    "c24_font_wide"
   ],
   "note": "Exact write/remove sets and priorities for all eight shorthands, every property table. Read back: CSS-wide keywords for all eight; all keywords of white-space, font-synthesis; overflow; any words in any order of text-decoration, font-variant and mask (no mask-size). Printed text of mask and mask-border from any longhands. Refuted: unparsable values reset the longhands (KeyError for overflow); the priority of font when no font-variant longhand is declared; mask-clip beside an initial mask-origin does not survive reading back."
  },
  {
   "property": "C25",
   "status": "partial",
   "theorems": [
    "c25_append",
    "c25_no_duplicates",
    "c25_duplicates_refuted",
    "c25_case_refuted",
    "c25_delete_partial",
    "c25_delete_first",
    "c25_delete_refuted",
    "c25_text_stable",
    "c25_text_parts",
    "c25_text_holds"
   ],
   "note": "Proved for append_medium, delete_medium and media_text over the media list; assignment of media_text, insert and item assignment can create duplicates, items differing in case print equal, and deleting a text that is several queries is ignored: refuted with witnesses."
  },
  {
   "property": "C26",
   "status": "partial",
   "theorems": [
    "c26_boolean_partial",
    "c26_not_partial",
    "c26_not_exchanges",
    "c26_not_and_refuted",
    "c26_not_or_refuted",
    "c26_mixed",
    "c26_not_mixed_refuted",
    "c26_list",
    "c26_list_first",
    "c26_media_type"
   ],
   "note": "Boolean reading proved at any depth for trees whose 'not' is about one condition or another 'not'; 'not' about several conditions exchanges and/or (proved exactly, and refuted as Boolean logic). The parser from text to trees is C57."
  },
  {
   "property": "C27",
   "status": "partial",
   "theorems": [
    "c27_range",
    "c27_two_sided",
    "c27_min",
    "c27_max",
    "c27_plain",
    "c27_trichotomy",
    "c27_unreadable",
    "c27_discrete",
    "c27_orientation",
    "c27_feature",
    "c27_missing",
    "c27_zero_refuted",
    "c27_aspect_ratio_partial",
    "c27_aspect_ratio_refuted"
   ],
   "note": "Comparison chains, min-/max-, trichotomy, discrete features, orientation and value-less features proved; compare_func is an oracle required only to order the numbers. aspect-ratio '=' always holds and '<' holds of equal ratios: refuted, the rest proved."
  },
  {
   "property": "C28",
   "status": "partial",
   "theorems": [
    "c28_types_good",
    "c28_mul_defined",
    "c28_mul_exponents",
    "c28_mul_comm_partial",
    "c28_mul_comm_refuted",
    "c28_mul_assoc_partial",
    "c28_mul_assoc_refuted",
    "c28_mul_unit",
    "c28_mul_unit_left_partial",
    "c28_add_defined",
    "c28_add_powers",
    "c28_add_order",
    "c28_add_idempotent",
    "c28_add_comm_partial",
    "c28_add_comm_refuted",
    "c28_add_percent_refuted",
    "c28_invert_twice_partial",
    "c28_invert_hint_refuted",
    "c28_invert_cancels",
    "c28_unit_type",
    "c28_types_kept_partial",
    "c28_invert_changes",
    "c28_types_kept_refuted",
    "c28_new_type",
    "c28_unit_types"
   ],
   "note": "Addition and multiplication of types characterised for all types; commutativity, associativity and the unit law fail when powers of percent are present without a hint (multiplication drops the second factor's percent, addition keeps the first operand's): refuted, and proved otherwise. Inverting a hinted type empties the hint and CSSMathInvert changes its argument's type: refuted, exact effect proved."
  },
  {
   "property": "C29",
   "status": "partial",
   "theorems": [
    "c29_accepts",
    "c29_known",
    "c29_roundtrip",
    "c29_via",
    "c29_linear",
    "c29_sizes",
    "c29_sizes_near",
    "c29_exact_refuted",
    "c29_trichotomy",
    "c29_compare_symmetric",
    "c29_equal_after",
    "c29_incomparable",
    "c29_equal_transitive_refuted"
   ],
   "note": "Proved over exact rationals with Decimal(2.54), Decimal(0.9) as those floats and Decimal(math.pi) a positive parameter; 2.54cm = 1in and 400grad = 1turn hold only up to the float error (refuted exactly, bounded)."
  },
  {
   "property": "C30",
   "status": "partial",
   "theorems": [
    "c30_reads_partial",
    "c30_reads_plain",
    "c30_unambiguous",
    "c30_negate_refuted",
    "c30_inside_max_refuted"
   ],
   "note": "Proved for every expression whose negations are later items of a sum or negate a non-negative number and, inside min/max where parentheses are omitted, with no sum used as a factor or subtracted and no product divided by. The other cases are refuted: a negated sum prints unreadably, and max(Product(Sum)) reads back with another meaning."
  },
  {
   "property": "C31",
   "status": "partial",
   "theorems": [
    "c31_parses_partial",
    "c31_unmixed",
    "c31_accepts",
    "c31_parses_refuted",
    "c31_nested_refuted",
    "c31_min_refuted",
    "c31_grammar_refuted"
   ],
   "note": "Proved for every nesting of calc/min/max/clamp whose functions each use only sums or only products, and for the longer operator sequences of [understood]; soundness of acceptance proved for all inputs. Other sequences are refuted: 1 + 2*3 - 4*5 gets a wrong tree, a nested a*b + c makes a cyclic tree, min(1 + 2, 3) and parentheses are refused."
  },
  {
   "property": "C32",
   "status": "partial",
   "theorems": [
    "c32_value_partial",
    "c32_value_calc",
    "c32_value_refuted",
    "c32_defined",
    "c32_to_partial",
    "c32_to_refuted",
    "c32_to_sum",
    "c32_to_sum_sorted",
    "c32_to_sum_order_refuted",
    "c32_to_sum_powers",
    "c32_add",
    "c32_equals",
    "c32_equals_refl_refuted"
   ],
   "note": "The worth of a sum value is proved for calc()-linear expressions and, in general, when products do not mix powers of units; px*px*em + px*em*em is merged wrongly (refuted). to('px') of px*px, order dependence of to_sum and reflexivity of equals are refuted."
  },
  {
   "property": "C33",
   "status": "partial",
   "theorems": [
    "c33_convert_partial",
    "c33_convert_back",
    "c33_size",
    "c33_sizes",
    "c33_convert_refuted",
    "c33_iadd",
    "c33_isub",
    "c33_add_partial",
    "c33_add_refuted",
    "c33_direction_refuted",
    "c33_dimensions",
    "c33_scale",
    "c33_mul_refuted",
    "c33_trichotomy",
    "c33_order",
    "c33_eq_symmetric_refuted",
    "c33_text",
    "c33_text_in",
    "c33_units",
    "c33_garbage_refuted",
    "c33_unchecked_refuted",
    "c33_absolute",
    "c33_relative",
    "c33_resolution",
    "c33_classes_refuted",
    "c33_classes_partial"
   ],
   "note": "Conversion, += / -=, scaling, comparison and text of SVGLength for every unit and surroundings; sizes of zero and fonts whose metrics do not follow their size are hypotheses. Refuted: conversion to font units, + and - with a context (deepcopy detaches it), directions, commutativity of *, symmetry of ==, trailing text, unchecked units, 'cap' in no class."
  },
  {
   "property": "C34",
   "status": "partial",
   "theorems": [
    "c34_none",
    "c34_fit_partial",
    "c34_no_box",
    "c34_uniform_refuted",
    "c34_units_refuted",
    "c34_origin_units_refuted",
    "c34_empty_box_refuted",
    "c34_sizes_partial",
    "c34_origin",
    "c34_viewport_units_refuted",
    "c34_viewport_units",
    "c34_box_leading_space_refuted"
   ],
   "note": "viewBox mapping for lengths in one absolute unit; uniformity needs the two ratios told apart by math.isclose. Refuted: tiny ratios, width/height/x in different units, empty view box raises, viewport units as sizes, leading space in viewBox."
  },
  {
   "property": "C35",
   "status": "partial",
   "theorems": [
    "c35_valid",
    "c35_fallback",
    "c35_keywords_partial",
    "c35_keyword_refuted",
    "c35_roundtrip_partial",
    "c35_none_refuted",
    "c35_stable"
   ],
   "note": "Every text gives a defined setting; keywords with any white space; round trip except 'none slice'. Refuted: xMinYMid is misspelt, none loses slice."
  },
  {
   "property": "C36",
   "status": "partial",
   "theorems": [
    "c36_specified",
    "c36_plain",
    "c36_font",
    "c36_family",
    "c36_family_default",
    "c36_variants_partial",
    "c36_font_itself",
    "c36_display",
    "c36_not_inherited",
    "c36_total_partial",
    "c36_font_and_family_refuted",
    "c36_marker_refuted",
    "c36_font_variant_refuted",
    "c36_system_font_refuted",
    "c36_style_opacity_refuted",
    "c36_get_value"
   ],
   "note": "Inherited style of an element from its chain: plain properties, font longhands, family, font-variant parts, display, non-inherited. Partial: the font-variant parts assume no system font in the chain, and success needs guards; refuted: font with font-family, marker, font-variant beside font, system fonts, style attribute on non-inherited properties."
  },
  {
   "property": "C37",
   "status": "partial",
   "theorems": [
    "c37_size_min",
    "c37_keywords_monotone",
    "c37_medium",
    "c37_keyword_sizes",
    "c37_table",
    "c37_length",
    "c37_relative_partial",
    "c37_relative_default",
    "c37_larger_up",
    "c37_smaller_down",
    "c37_own_larger_refuted",
    "c37_ancestor_word_refuted",
    "c37_step_tables",
    "c37_bolder_up_partial",
    "c37_lighter_down_partial",
    "c37_step_monotone",
    "c37_step_range",
    "c37_bolder_lowers_refuted",
    "c37_lighter_raises_refuted",
    "c37_weight_relative_partial",
    "c37_weight_relative_default",
    "c37_weight_absolute",
    "c37_weight_range_partial",
    "c37_weight_range_refuted",
    "c37_own_bolder_refuted",
    "c37_weight_inherit_refuted",
    "c37_line_height",
    "c37_line_number_refuted"
   ],
   "note": "Proved: sizes never under ten, the table of keyword sizes at every default size, keyword order, medium, lengths, scaling per relative ancestor, weight tables, order and range, relative weights from the nearest absolute ancestor, line height. Missing: the element's own 'larger'/'bolder' is not applied, an ancestor's relative word is taken from the element, weights over 900 or under 100 move the wrong way, absolute weights are not checked, 'inherit' on an ancestor raises, and a bare number is not multiplied by the font size (all refuted by witnesses)."
  },
  {
   "property": "C38",
   "status": "partial",
   "theorems": [
    "c38_set_one",
    "c38_scheme_path",
    "c38_scheme_host",
    "c38_refused",
    "c38_refused_host_refuted",
    "c38_host",
    "c38_hostname",
    "c38_hostname_refuted",
    "c38_scheme_port",
    "c38_host_fits_partial",
    "c38_host_fits_refuted",
    "c38_read_refuted",
    "c38_settled_partial",
    "c38_settled_hash_refuted",
    "c38_roundtrip",
    "c38_roundtrip_opaque",
    "c38_search",
    "c38_roundtrip_refuted",
    "c38_base_partial",
    "c38_absolute_path",
    "c38_relative_path",
    "c38_base_refuted",
    "c38_reference_refuted"
   ],
   "note": "Component frames, atomic refusals, scheme and port invariants over all histories, round trip of the text for every stable URL (hierarchical and opaque), query text, references against a base, what setting host and hostname shows. Missing / refuted with witnesses: host setter not atomic, refused href breaks host, reading host has an effect, usual port and password lost in text, base URL object mutated, query of '/c?y=1' becomes path, hostname 'b:' keeps a port that host and href no longer show."
  },
  {
   "property": "C39",
   "status": "partial",
   "theorems": [
    "c39_forms",
    "c39_clark",
    "c39_prefix",
    "c39_namespace_error",
    "c39_invalid_characters",
    "c39_errors",
    "c39_plain",
    "c39_value_error",
    "c39_roundtrip_partial",
    "c39_roundtrip_refuted",
    "c39_injective",
    "c39_prefix_alone_refuted"
   ],
   "note": "QualifiedName completely characterised (three written forms; accepted cases; each error). Refuted: a namespace containing '}' does not survive; a mapped prefix without an explicit namespace is refused."
  },
  {
   "property": "C40",
   "status": "proved",
   "theorems": [
    "c40_lookup",
    "c40_contains",
    "c40_delete",
    "c40_iter",
    "c40_items",
    "c40_len",
    "c40_listed",
    "c40_eq_refuted"
   ],
   "note": "Refinement of every history of sets and deletes to the last operation per lower-cased key, for any lower-casing function. Keys are texts. Refuted: == between two mappings (inherited from Mapping) is case-sensitive. The refuted claims are expectations beyond the statement."
  },
  {
   "property": "C41",
   "status": "partial",
   "theorems": [
    "c41_read",
    "c41_keys_once",
    "c41_write",
    "c41_roundtrip_partial",
    "c41_order",
    "c41_stable",
    "c41_colon_refuted",
    "c41_semicolon_refuted"
   ],
   "note": "Reading characterised (last declaration wins, nothing invented), writing sorted, round trip for names and values without ':' ';' and outer spaces. Refuted: values with ':' are dropped, with ';' cut."
  },
  {
   "property": "C42",
   "status": "proved",
   "theorems": [
    "c42_format_reads_back",
    "c42_format_exact",
    "c42_format_canonical",
    "c42_format_stable",
    "c42_format_same_text",
    "c42_format_zero",
    "c42_precision_zero_refuted",
    "c42_pairs_roundtrip",
    "c42_pairs_drop",
    "c42_format_pairs"
   ],
   "note": "Rounding to the nearest multiple of 10^-p, canonical numerals, stability, equality of texts; for precision > 0, the documented domain (the refuted theorem shows precision 0 fails). Exact rationals stand for floats."
  },
  {
   "property": "C43",
   "status": "proved",
   "theorems": [
    "c43_four",
    "c43_rounded",
    "c43_turns",
    "c43_history",
    "c43_independent",
    "c43_read_back"
   ],
   "note": "Proved for every rational angle and every history of assignments; the while loops are modelled with fuel that is proved sufficient."
  },
  {
   "property": "C44",
   "status": "partial",
   "theorems": [
    "c44_flatten",
    "c44_no_group",
    "c44_append",
    "c44_sheets",
    "c44_flat_id",
    "c44_idempotent",
    "c44_link",
    "c44_style",
    "c44_empty_href_refuted"
   ],
   "note": "Flattening of import and media rules and the style sources. Refuted: a link with an empty href raises instead of being skipped."
  },
  {
   "property": "C45",
   "status": "proved",
   "theorems": [
    "c45_last",
    "c45_important",
    "c45_absent",
    "c45_important_declared",
    "c45_unique",
    "c45_unmatched",
    "c45_namespace"
   ],
   "note": "The cascade takes the last matching declaration; important ones separately."
  },
  {
   "property": "C46",
   "status": "partial",
   "theorems": [
    "c46_flat",
    "c46_runs",
    "c46_boundary",
    "c46_visible",
    "c46_kept_partial",
    "c46_kept_refuted",
    "c46_words",
    "c46_break",
    "c46_idempotent_partial",
    "c46_idempotent_refuted",
    "c46_pre",
    "c46_pre_first_refuted",
    "c46_pre_line_partial",
    "c46_pre_line_refuted",
    "c46_chunks_visible",
    "c46_chunks_runs",
    "c46_chunks_linked",
    "c46_chunks_together_refuted",
    "c46_chunks_total_partial",
    "c46_chunks_total_refuted",
    "c46_hangul"
   ],
   "note": "Proved: no tabs or breaks in normal and nowrap, no runs of spaces within a text or where it meets the one before, all visible characters kept in order in every mode, exact words for normal, exact lines for pre and pre-line, chunks of a whole text tree. Missing: not idempotent unless trimmed at both ends, a no-break space can vanish after a space, pre loses leading spaces of the first text, CR lines keep a space in pre-line, unseparated chunks get a space, an empty first tspan raises (all refuted by witnesses). html.unescape and East Asian width are parameters."
  },
  {
   "property": "C47",
   "status": "partial",
   "theorems": [
    "c47_choice",
    "c47_fallback",
    "c47_some",
    "c47_weight_css_partial",
    "c47_light_refuted",
    "c47_bold_refuted",
    "c47_normal_refuted",
    "c47_width_refuted",
    "c47_unknown_stretch",
    "c47_glyphs",
    "c47_no_glyph",
    "c47_widths"
   ],
   "note": "Proved: exact lexicographic characterisation of the chosen face (family order, width, slant, weight, size, file), when the fallback is used, agreement with the CSS weight order when the weight is there or all weights lie on one side. Missing: the CSS order for other sets (witnesses for light, normal and bold weights and for widths); stretches other than the nine keywords find nothing."
  },
  {
   "property": "C48",
   "status": "proved",
   "theorems": [
    "c48_lists",
    "c48_words",
    "c48_disjoint",
    "c48_keys",
    "c48_normal",
    "c48_roundtrip",
    "c48_function_refuted"
   ],
   "note": "Whole function modelled. Refuted: a functional value containing a space ('styleset(a, b)') is broken up and its tail dropped."
  },
  {
   "property": "C49",
   "status": "partial",
   "theorems": [
    "c49_round_trip",
    "c49_injective",
    "c49_injective_plain",
    "c49_identifier",
    "c49_empty_refuted",
    "c49_plain_kept"
   ],
   "note": "Proved: round trip through the CSS Syntax escape rules, injectivity up to U+0000, the result is an identifier for every non-empty text, plain identifiers kept. Missing: the empty text escapes to the empty text, which is no identifier (witness)."
  },
  {
   "property": "C50",
   "status": "partial",
   "theorems": [
    "c50_one_root",
    "c50_append",
    "c50_prepend_partial",
    "c50_prepend_refuted",
    "c50_insert",
    "c50_insert_before",
    "c50_insert_last",
    "c50_insert_self",
    "c50_remove",
    "c50_remove_root",
    "c50_remove_root_refuted",
    "c50_replace_partial",
    "c50_replace_self_refuted",
    "c50_replace_root_refuted",
    "c50_append_root_refuted",
    "c50_refused",
    "c50_not_found",
    "c50_unchanged",
    "c50_owner",
    "c50_owner_new",
    "c50_owner_refuted"
   ],
   "note": "Proved: exactly one document element and no repeated child after every history; exact child list after append, prepend, insert, insert_before, remove, replace; refusals leave the children unchanged; owners. Missing (witnesses): prepend with the first child among the nodes, removing the root loses its siblings, replace(n, n) loses n, replace(root, comment) empties the document before failing, append(root) does not move it, comments parsed beside the root have no owner."
  },
  {
   "property": "C51",
   "status": "partial",
   "theorems": [
    "c51_step_partial",
    "c51_history_partial",
    "c51_members",
    "c51_raise",
    "c51_set_inserts",
    "c51_set_refuted",
    "c51_set_index_refuted",
    "c51_reverse",
    "c51_reverse_refuted",
    "c51_text_refuted"
   ],
   "note": "Proved: every history of slice assignment, insert, append, extend, del, pop, remove and clear acts as on a Python list; members stay strings or references; failing operations change nothing. Missing: seq[i] = x inserts instead of replacing (witness), so reverse() grows the list (exact condition proved), and a parsed value keeps its parsed text after edits (witness)."
  },
  {
   "property": "C52",
   "status": "partial",
   "theorems": [
    "c52_shorthand_partial",
    "c52_system",
    "c52_family",
    "c52_unquoted_refuted",
    "c52_comma_refuted"
   ],
   "note": "Whole functions modelled; shlex.split is an oracle, so the theorem is about its word list. Refuted: unquoted family names of several words and a comma starting a word give the wrong font size."
  },
  {
   "property": "C53",
   "status": "partial",
   "theorems": [
    "c53_text",
    "c53_exact",
    "c53_references",
    "c53_no_empty",
    "c53_plain",
    "c53_empty_fallback_refuted",
    "c53_adjacent_refuted"
   ],
   "note": "Proved for all trees of component values: text equals the independently specified rewriting, exact text for tidy input, references in order, no empty strings. Missing: an empty fallback is lost and adjacent strings occur (witnesses)."
  },
  {
   "property": "C54",
   "status": "proved",
   "theorems": [
    "c54_path",
    "c54_settled",
    "c54_normpath_idempotent",
    "c54_relative_refuted"
   ],
   "note": "Proved for all decoders that invert the quoting; paths given without leading slash are normalised before the slash is added (witness '/../b'). The refuted claims are expectations beyond the statement."
  },
  {
   "property": "C55",
   "status": "partial",
   "theorems": [
    "c55_screen",
    "c55_screen_placed_partial",
    "c55_ctm",
    "c55_ctm_outermost",
    "c55_ctm_nested",
    "c55_no_svg",
    "c55_child",
    "c55_single_viewport",
    "c55_screen_refuted",
    "c55_svg_transform_refuted"
   ],
   "note": "Exact map of both matrices for every chain; equality with the SVG definition when nothing at or outside the nearest viewport carries a transform. Missing (witnesses): transforms between nested viewports are left out; a transform on an svg is applied inside its viewBox mapping."
  },
  {
   "property": "C56",
   "status": "partial",
   "theorems": [
    "c56_covers_partial",
    "c56_nested_partial",
    "c56_least_partial",
    "c56_not_rendered",
    "c56_hidden_children",
    "c56_turn_refuted",
    "c56_line_refuted",
    "c56_empty_transform_refuted"
   ],
   "note": "Coverage and minimality by tree induction. Missing (witnesses): leaves whose box is a line, transforms with two negative coefficients in a row, empty transform attribute (raises)."
  },
  {
   "property": "C57",
   "status": "partial",
   "theorems": [
    "c57_read",
    "c57_tree_unique",
    "c57_match",
    "c57_says_partial",
    "c57_comma",
    "c57_case",
    "c57_blank",
    "c57_unclosed",
    "c57_tight_range_refuted",
    "c57_spaced_name_refuted",
    "c57_spaced_value_refuted",
    "c57_and_not_refuted",
    "c57_nested_refuted",
    "c57_not_type_refuted",
    "c57_lenient_refuted",
    "c57_white_space_refuted"
   ],
   "note": "Queries of the grammar in MqParseSpec.v; 'not' about several conditions has the wrong meaning (C26), see the refuted theorems for texts outside."
  },
  {
   "property": "C58",
   "status": "partial",
   "theorems": [
    "c58_read",
    "c58_injective",
    "c58_order",
    "c58_chars",
    "c58_empty",
    "c58_new",
    "c58_run",
    "c58_error",
    "c58_delete_missing",
    "c58_search_partial",
    "c58_search_refuted",
    "c58_confused_refuted"
   ],
   "note": "Form decoding is exact for all parameters; through URL.search only for plain characters, since that setter does not decode (refuted otherwise)."
  },
  {
   "property": "C59",
   "status": "partial",
   "theorems": [
    "c59_tag",
    "c59_all",
    "c59_unique",
    "c59_local",
    "c59_tag_ns",
    "c59_no_ns",
    "c59_no_ns_refuted",
    "c59_id",
    "c59_id_none",
    "c59_within",
    "c59_class_partial",
    "c59_class_none",
    "c59_class_refuted",
    "c59_prefixes_refuted"
   ],
   "note": "Exact for names and ids; class names without regular-expression characters and classes separated by spaces (refuted otherwise)."
  },
  {
   "property": "C60",
   "status": "partial",
   "theorems": [
    "c60_text_partial",
    "c60_text",
    "c60_text_refuted",
    "c60_descriptive",
    "c60_other_refuted",
    "c60_set"
   ],
   "note": "All text when only tspan elements are inside; exact through pruned trees in general; refuted with comments and other elements."
  },
  {
   "property": "C61",
   "status": "partial",
   "theorems": [
    "c61_read",
    "c61_read_total",
    "c61_load",
    "c61_load_shorthand",
    "c61_set_partial",
    "c61_remove",
    "c61_history_partial",
    "c61_shorthand_partial",
    "c61_readonly",
    "c61_stale_refuted",
    "c61_case_refuted",
    "c61_priority_refuted",
    "c61_colon_refuted",
    "c61_order_refuted",
    "c61_font_refuted",
    "c61_mask_border"
   ],
   "note": "Reading, loading, setting, removing and histories proved for properties outside every shorthand; four shorthands for writing. Drift after outside edits, lost priorities, colons, upper-case names and font sub-properties refuted with witnesses."
  },
  {
   "property": "C62",
   "status": "partial",
   "theorems": [
    "c62_read",
    "c62_text",
    "c62_visible",
    "c62_number",
    "c62_part",
    "c62_fewer",
    "c62_own_partial",
    "c62_own_refuted",
    "c62_textpath_refuted",
    "c62_total_partial",
    "c62_comment_refuted",
    "c62_empty_refuted",
    "c62_length_add",
    "c62_length_whole",
    "c62_length_text",
    "c62_length_past",
    "c62_length_one",
    "c62_length_range_refuted",
    "c62_outside"
   ],
   "note": "The walk over the tree is exactly a reading of the markup from left to right, errors included; lengths are additive for any shaping. False of the code and refuted: no error for comments or empty tspans, all characters of a tspan with children, textPath content, range errors."
  },
  {
   "property": "C63",
   "status": "partial",
   "theorems": [
    "c63_types",
    "c63_describes",
    "c63_media",
    "c63_parents",
    "c63_join",
    "c63_total",
    "c63_broken_refuted",
    "c63_namespace_refuted",
    "c63_features",
    "c63_feature_types",
    "c63_feature_values",
    "c63_last_refuted",
    "c63_history",
    "c63_history_start",
    "c63_insert",
    "c63_insert_total",
    "c63_delete",
    "c63_undo",
    "c63_elsewhere",
    "c63_cssom_refuted"
   ],
   "note": "Rules are read, placed and edited as stated, for every node list and history; the refuted variants record deviations from CSSOM (block-less at-rules, string namespaces, missing semicolons, unchecked insertions). tinycss2 and the loading of imports are outside the model."
  },
  {
   "property": "C64",
   "status": "partial",
   "theorems": [
    "c64_append",
    "c64_append_ok",
    "c64_insert",
    "c64_insert_ok",
    "c64_insert_before",
    "c64_insert_before_ok",
    "c64_addnext",
    "c64_addprevious",
    "c64_beside_ok",
    "c64_remove",
    "c64_remove_ok",
    "c64_remove_self",
    "c64_replace",
    "c64_replace_ok",
    "c64_extend",
    "c64_extend_ok",
    "c64_failed",
    "c64_tree",
    "c64_one_parent",
    "c64_owner_document",
    "c64_attach",
    "c64_detach",
    "c64_documents_partial",
    "c64_addnext_refuted",
    "c64_extend_refuted",
    "c64_append_refuted",
    "c64_insert_refuted"
   ],
   "note": "Exact effect and success condition of every tree-changing method, conservation of nodes over all histories, documents over histories without half-way failures; the half-way failures are refuted with witnesses."
  },
  {
   "property": "C65",
   "status": "partial",
   "theorems": [
    "c65_settings",
    "c65_settings_keys",
    "c65_settings_error",
    "c65_settings_blank",
    "c65_features",
    "c65_features_else",
    "c65_turned_once",
    "c65_output",
    "c65_whole",
    "c65_order",
    "c65_variant_text",
    "c65_words_partial",
    "c65_jis04_refuted",
    "c65_settings_win_refuted",
    "c65_tag_refuted"
   ],
   "note": "Round trip, exact failures, exact features against a table, order independence and reading back of the output; jis04, precedence of the settings and tags with commas refuted."
  },
  {
   "property": "C66",
   "status": "proved",
   "theorems": [
    "c66_support",
    "c66_type",
    "c66_support_raises",
    "c66_supports",
    "c66_supports_iff",
    "c66_alternatives",
    "c66_order",
    "c66_wide",
    "c66_any",
    "c66_css_supports",
    "c66_unknown",
    "c66_initial",
    "c66_register",
    "c66_register_raises",
    "c66_case_refuted",
    "c66_quoted_refuted",
    "c66_length_refuted",
    "c66_calc_refuted",
    "c66_any_refuted",
    "c66_total_refuted",
    "c66_comma_refuted",
    "c66_range"
   ],
   "note": "Main laws proved for all structured syntaxes and token lists; the refuted statements are what CSS asks for and the code does not do. The refuted claims are expectations beyond the statement."
  },
  {
   "property": "C67",
   "status": "partial",
   "theorems": [
    "c67_values",
    "c67_whole",
    "c67_pieces",
    "c67_unparsed",
    "c67_wide",
    "c67_property",
    "c67_read_back",
    "c67_url",
    "c67_parse_supported",
    "c67_supported_parses",
    "c67_raises",
    "c67_history",
    "c67_history_fun",
    "c67_set_refuses",
    "c67_set_parsed",
    "c67_set_get",
    "c67_readonly",
    "c67_in_refuted",
    "c67_in_true",
    "c67_setdefault_refuted",
    "c67_append_refuted",
    "c67_shorthand_refuted",
    "c67_shorthand_delete_refuted",
    "c67_comma_refuted",
    "c67_empty_value_refuted",
    "c67_transform_refuted",
    "c67_priority_refuted"
   ],
   "note": "tinycss2 is represented by its tokens and their texts, CSSNumericValue.parse by what it raises; segments of unparsed values are C53. Refuted: membership tests, setdefault, append, shorthands in maps, priorities, comma values and transform functions."
  },
  {
   "property": "C68",
   "status": "partial",
   "theorems": [
    "c68_draws_partial",
    "c68_shown",
    "c68_one_answer",
    "c68_answers",
    "c68_cycle_never",
    "c68_target",
    "c68_external",
    "c68_normalized",
    "c68_fit_partial",
    "c68_size_raw",
    "c68_flat_size",
    "c68_symbol_size",
    "c68_unfinished",
    "c68_transformed_partial",
    "c68_empty_transform",
    "c68_relative_refuted",
    "c68_trailing_refuted",
    "c68_child_transform_refuted",
    "c68_use_twice_refuted"
   ],
   "note": "Proved for outlines that begin with an absolute moveto, do not end with a moveto and have no bearing (relative first movetos and trailing movetos are refuted); arcs under non-translations as in C15; the size of a used svg for base commands with rational turning points and no transform attribute. Refuted: relative and trailing movetos, children's transforms in containers, transforms of a use applied twice."
  },
  {
   "property": "C69",
   "status": "partial",
   "theorems": [
    "c69_positions",
    "c69_flow",
    "c69_counting_partial",
    "c69_counting_refuted",
    "c69_offset_refuted",
    "c69_drawn",
    "c69_matrix_refuted",
    "c69_box_partial",
    "c69_box_refuted",
    "c69_advances",
    "c69_against",
    "c69_empty_line",
    "c69_ligature_partial",
    "c69_three_refuted",
    "c69_last_refuted",
    "c69_later_refuted",
    "c69_rotate_refuted",
    "c69_flat"
   ],
   "note": "Positions and flow for one glyph per character, drawing for runs in the direction of their element, boxes for turns with cosine >= 0 or half turns, lines against the direction without lists, ligatures of two characters in the first run. Refuted: counting in nested lists, offsets to the left, scaling matrices, boxes under other turns, other ligatures."
  },
  {
   "property": "C70",
   "status": "partial",
   "theorems": [
    "c70_total_partial",
    "c70_no_arcs_partial",
    "c70_speed",
    "c70_curve",
    "c70_ellipse_partial",
    "c70_extent",
    "c70_full_turn_refuted",
    "c70_normalize_partial",
    "c70_absolute_partial",
    "c70_transform_partial",
    "c70_join",
    "c70_positive_partial",
    "c70_smooth_refuted",
    "c70_after_close_refuted"
   ],
   "note": "smooth curves in the modes where the code has the right control point, arcs below a full turn; the refuted theorems show what happens otherwise"
  },
  {
   "property": "C71",
   "status": "partial",
   "theorems": [
    "c71_shows",
    "c71_stays",
    "c71_outcome",
    "c71_outcome_one",
    "c71_start",
    "c71_apart",
    "c71_refused",
    "c71_move_refused",
    "c71_href_fresh",
    "c71_reload",
    "c71_same_value",
    "c71_move_url_partial",
    "c71_move_self",
    "c71_move_root",
    "c71_move_beside",
    "c71_file",
    "c71_nowhere_refuted",
    "c71_failed_refuted",
    "c71_fragment_refuted",
    "c71_stuck_refuted",
    "c71_schemeless_refuted",
    "c71_malformed_refuted",
    "c71_viewed_refuted"
   ],
   "note": "Proved for all histories; c71_move_url_partial needs URLs whose text carries them (C38). The refuted ones are the places where location and document part."
  },
  {
   "property": "C72",
   "status": "proved",
   "theorems": [
    "c72_base64",
    "c72_base64_noise",
    "c72_content_type",
    "c72_no_content_type",
    "c72_charset",
    "c72_quotes_refuted",
    "c72_data_bytes",
    "c72_data_text",
    "c72_data_raw",
    "c72_data_default",
    "c72_data_no_comma",
    "c72_page",
    "c72_page_data",
    "c72_page_text_refuted",
    "c72_data_refuted"
   ],
   "note": "Proved; the refuted ones are the findings (text data as pages, '?' in data, quoted charsets). The refuted claims are expectations beyond the statement."
  },
  {
   "property": "C73",
   "status": "proved",
   "theorems": [
    "c73_sheets",
    "c73_determined",
    "c73_fails",
    "c73_total",
    "c73_rules",
    "c73_others",
    "c73_sheet",
    "c73_beside",
    "c73_full",
    "c73_no_target_refuted",
    "c73_data_refuted",
    "c73_type_refuted",
    "c73_case_refuted"
   ],
   "note": "Rules made by tinycss2 from bytes or text are arguments; partial only for the refuted claims on empty references, data: URLs of text, the type of instructions and letter case. The refuted claims are expectations beyond the statement."
  },
  {
   "property": "C74",
   "status": "proved",
   "theorems": [
    "c74_next",
    "c74_previous",
    "c74_inverse",
    "c74_ends",
    "c74_next_element",
    "c74_previous_element",
    "c74_inverse_element",
    "c74_no_element",
    "c74_children",
    "c74_parent",
    "c74_parent_element",
    "c74_siblings_parent",
    "c74_walk",
    "c74_walk_only",
    "c74_preorder",
    "c74_root",
    "c74_root_beside",
    "c74_topmost",
    "c74_one_root",
    "c74_appended",
    "c74_added_next",
    "c74_added_previous",
    "c74_removed",
    "c74_document",
    "c74_document_element",
    "c74_document_refuted",
    "c74_moved_root_refuted"
   ],
   "note": "Proved for all forests and histories. Refuted: a document as the parent of its children; the children of a document whose root was moved into another tree. The refuted claims are expectations beyond the statement."
  },
  {
   "property": "C75",
   "status": "partial",
   "theorems": [
    "c75_circle",
    "c75_ellipse",
    "c75_line",
    "c75_rect",
    "c75_use",
    "c75_path",
    "c75_svg",
    "c75_symbol",
    "c75_text",
    "c75_keys",
    "c75_other_attributes",
    "c75_errors",
    "c75_refused",
    "c75_rotate_unit",
    "c75_draw_circle",
    "c75_draw_ellipse",
    "c75_draw_rect",
    "c75_draw_line",
    "c75_draw_poly",
    "c75_draw_no_points",
    "c75_auto_radius_refuted",
    "c75_inherit_refuted",
    "c75_text_space_refuted",
    "c75_text_empty_refuted",
    "c75_garbage_refuted"
   ],
   "note": "the geometry of every element with one; the refuted readings (automatic radius of an ellipse, inherit, space around lists) are findings"
  },
  {
   "property": "C76",
   "status": "partial",
   "theorems": [
    "c76_depth",
    "c76_geometry",
    "c76_inherited",
    "c76_keys",
    "c76_font_size",
    "c76_size_keyword",
    "c76_size_length",
    "c76_size_absolute",
    "c76_em_compounds",
    "c76_size_inherited_refuted",
    "c76_size_relative",
    "c76_metric_endless",
    "c76_rem_root_endless",
    "c76_stroke_width",
    "c76_tab_size",
    "c76_line_height",
    "c76_font_weight",
    "c76_inline_size",
    "c76_inline_percent_refuted",
    "c76_inline_inherit_refuted",
    "c76_em_own_refuted",
    "c76_size_adjust",
    "c76_synthesis",
    "c76_features",
    "c76_total_partial",
    "c76_initial",
    "c76_silent_ancestor",
    "c76_system_font_refuted"
   ],
   "note": "Computed style with the recursion between lengths, font sizes and styles; em compounding, endless metric units and inline-size percentages are findings."
  },
  {
   "property": "C77",
   "status": "proved",
   "theorems": [
    "c77_operation",
    "c77_history",
    "c77_untouched",
    "c77_derive",
    "c77_rotate",
    "c77_rotations_add",
    "c77_inverse",
    "c77_singular",
    "c77_equal",
    "c77_entries",
    "c77_names",
    "c77_names_refuted",
    "c77_array",
    "c77_fixed",
    "c77_near",
    "c77_outline",
    "c77_from_dom",
    "c77_from_dom_refuted",
    "c77_tag",
    "c77_tag_back",
    "c77_tag_refuted"
   ],
   "note": "FTMatrix as plane maps over a store of objects, 16.16 conversion, tags; naming of entries and copying of DOM matrices are findings."
  },
  {
   "property": "C78",
   "status": "partial",
   "theorems": [
    "c78_string",
    "c78_string_refuted",
    "c78_history",
    "c78_pieces",
    "c78_rest",
    "c78_any_breaks",
    "c78_two_loops_refuted",
    "c78_all_shaped",
    "c78_counted",
    "c78_runs_partial",
    "c78_runs_refuted",
    "c78_visual",
    "c78_synthesis",
    "c78_locale",
    "c78_direction"
   ],
   "note": "Partial: with characters above U+FFFF the runs are cut in the wrong places (c78_runs_refuted); everything else in full."
  },
  {
   "property": "C79",
   "status": "proved",
   "theorems": [
    "c79_reading",
    "c79_history",
    "c79_empty",
    "c79_spellings",
    "c79_prefix_refuted",
    "c79_names",
    "c79_names_spelt",
    "c79_remove_node",
    "c79_remove_node_refuted",
    "c79_created",
    "c79_creation_refused",
    "c79_caller_map",
    "c79_caller_map_refuted",
    "c79_no_namespace_refuted",
    "c79_class",
    "c79_class_refuted",
    "c79_attr_prefix"
   ],
   "note": "Proved for all histories and spellings, namespaces without a closing brace. The refuted theorems are findings beside the statement: a prefix without its namespace, the Attr of another element, elements in no namespace, the caller's nsmap, classes by local name alone."
  },
  {
   "property": "C80",
   "status": "partial",
   "theorems": [
    "c80_matches_partial",
    "c80_feature",
    "c80_bounds",
    "c80_root",
    "c80_no_other_error",
    "c80_answers_refuted",
    "c80_device_ratio_refuted",
    "c80_orientation_refuted"
   ],
   "note": "Every list of the grammar against every window, except 'not' about several conditions, equality of aspect ratios and device-aspect-ratio, where the code is wrong (refuted)."
  },
  {
   "property": "C81",
   "status": "partial",
   "theorems": [
    "c81_farthest",
    "c81_nearest",
    "c81_child",
    "c81_owner_partial",
    "c81_viewport_partial",
    "c81_owner_refuted",
    "c81_viewport_refuted",
    "c81_owner_self",
    "c81_scale",
    "c81_translate",
    "c81_zoom",
    "c81_zoom_read",
    "c81_zoom_set"
   ],
   "note": "Searches, scales, translations and zoom proved after every history; owner_svg_element/viewport_element are partial because an inner 'svg' or 'symbol' gives itself (refuted)."
  },
  {
   "property": "C82",
   "status": "proved",
   "theorems": [
    "c82_set",
    "c82_accepts",
    "c82_last",
    "c82_failed",
    "c82_refused_refuted",
    "c82_reads",
    "c82_text",
    "c82_valid",
    "c82_text_total",
    "c82_types_refuted",
    "c82_equal"
   ],
   "note": "All histories of setters, every argument; the refuted claims are the half-done failing setters and the substring tests on the type."
  },
  {
   "property": "C83",
   "status": "partial",
   "theorems": [
    "c83_history",
    "c83_answer",
    "c83_request",
    "c83_refused",
    "c83_em_partial",
    "c83_em_refuted",
    "c83_ascent",
    "c83_ascent_refuted",
    "c83_pixels",
    "c83_pixels_error",
    "c83_refines",
    "c83_no_context",
    "c83_to_constant",
    "c83_back_refuted",
    "c83_back_partial",
    "c83_cap_missing",
    "c83_cap_refuted",
    "c83_eq",
    "c83_eq_equivalence",
    "c83_equal_partial",
    "c83_equal_refuted"
   ],
   "note": "Every history of reads and sizes; the em at 96 dpi, the way back from pixels at the font's own size. Refuted beyond: resolution, conversion to font units, cap_height, ascent, equal fonts for different texts."
  },
  {
   "property": "C84",
   "status": "proved",
   "theorems": [
    "c84_counts",
    "c84_alive",
    "c84_dangling",
    "c84_forgetting",
    "c84_use",
    "c84_careful",
    "c84_no_leak",
    "c84_reference_refuted",
    "c84_reference",
    "c84_get_face_refuted",
    "c84_ft_refuted",
    "c84_memory_refuted",
    "c84_bytes_refuted",
    "c84_duplicate"
   ],
   "note": "all programs over the counted wrappers; the refuted theorems are defects of the code (get_face without a reference, uncounted FT_Face, memory and bytes), the positive theorems cover every other program"
  },
  {
   "property": "C85",
   "status": "partial",
   "theorems": [
    "c85_utf8",
    "c85_utf16",
    "c85_utf32",
    "c85_surrogate",
    "c85_same_refuted",
    "c85_nul_refuted",
    "c85_same_partial",
    "c85_history",
    "c85_history_kept",
    "c85_clusters",
    "c85_clusters_refuted",
    "c85_indices",
    "c85_direction",
    "c85_reverse",
    "c85_names",
    "c85_names_refuted",
    "c85_first_letter",
    "c85_tag",
    "c85_tag_injective",
    "c85_scripts",
    "c85_tag_refuted",
    "c85_feature",
    "c85_direction_names"
   ],
   "note": "Proved for all texts, buffers, histories and integers. Refuted with witnesses: byte order mark added as a character by add_utf16 and add_utf32, add_utf8 stops at U+0000, clusters of two additions collide, words taken for directions, tags of characters over U+00FF."
  },
  {
   "property": "C86",
   "status": "partial",
   "theorems": [
    "c86_rounding",
    "c86_exact",
    "c86_grid",
    "c86_contains",
    "c86_unite",
    "c86_unite_commutes_partial",
    "c86_unite_commutes_refuted",
    "c86_unite_covers_refuted",
    "c86_unite_covers_partial",
    "c86_exact_size",
    "c86_edge_error",
    "c86_box",
    "c86_intersect",
    "c86_intersect_inside_refuted",
    "c86_intersect_empty_refuted",
    "c86_normalize",
    "c86_normalize_refuted",
    "c86_adjust",
    "c86_adjust_grid",
    "c86_translate",
    "c86_translate_refuted"
   ],
   "note": "Rectangles with a rounding at each addition: laws that survive for every rounding and for 53-digit floats, error bounds, exactness on grids; commutativity, covering, containment of intersections and moving back are refuted with decimal witnesses."
  },
  {
   "property": "C87",
   "status": "partial",
   "theorems": [
    "c87_digits",
    "c87_floats",
    "c87_decimals",
    "c87_written",
    "c87_exact",
    "c87_errors",
    "c87_value",
    "c87_back",
    "c87_back_refuted",
    "c87_convert_equal",
    "c87_compare",
    "c87_equal",
    "c87_sum",
    "c87_commutes_partial",
    "c87_minus_self_partial",
    "c87_commutes_refuted",
    "c87_minus_self_refuted",
    "c87_lost_refuted"
   ],
   "note": "Error bounds for SVGLength conversions, comparisons and sums under Decimal and float rounding; exact laws that rounding breaks are refuted with witnesses, and hold for numbers that are floats."
  },
  {
   "property": "C88",
   "status": "partial",
   "theorems": [
    "c88_exact",
    "c88_error",
    "c88_history",
    "c88_compose",
    "c88_identity",
    "c88_translate",
    "c88_flips",
    "c88_powers",
    "c88_grid",
    "c88_two_d",
    "c88_order",
    "c88_plans_refuted",
    "c88_associative_refuted",
    "c88_back_refuted",
    "c88_rescale_refuted",
    "c88_history_bound",
    "c88_history_point"
   ],
   "note": "For every rounding and every summation plan; laws that floats break are refuted with witnesses."
  }
 ]
}