{
 "claims": [
  {
   "property": "C01",
   "status": "partial",
   "theorems": [
    "C01_divmod",
    "C01_divmodw",
    "C01_divmodx_partial",
    "C01_divmodx_refuted"
   ],
   "note": "divmod and divmodw proved for all inputs. divmodx (not used by the rest of the code) computes its own check in int, so it is undefined for dividends outside int: refuted in general, proved for int dividends."
  },
  {
   "property": "C02",
   "status": "proved",
   "theorems": [
    "C02_divw_rnd",
    "C02_round"
   ],
   "note": "divw_rnd for all dividends and all positive divisors; round for all valid integer-plus-fraction numbers below INT_MAX."
  },
  {
   "property": "C03",
   "status": "proved",
   "theorems": [
    "C03_mul_64x64",
    "C03_mul_64x32",
    "C03_div_96_64",
    "C03_add_96",
    "C03_sub_96",
    "C03_mul_div"
   ],
   "note": "Schoolbook 64x64 and 64x32 multiplication, 96 bit addition and subtraction, Knuth D division step, and their combination mul_div."
  },
  {
   "property": "C04",
   "status": "proved",
   "theorems": [
    "C04_dimif_cmp",
    "C04_vec2if_cmp",
    "C04_vec2if_eq",
    "C04_vec2_vec2if_cmp",
    "C04_antisym",
    "C04_trans"
   ],
   "note": "For both the native 128 bit path and the fall-back path."
  },
  {
   "property": "C05",
   "status": "proved",
   "theorems": [
    "C05_intersect"
   ],
   "note": "All int coordinates: any returned answer is exact, no undefined behaviour, and inside the supported range there is always an answer."
  },
  {
   "property": "C06",
   "status": "proved",
   "theorems": [
    "C06_cmp_edge_rnd",
    "C06_any_direction_refuted"
   ],
   "note": "For edges given from left to right, as the only caller does; the other direction is refuted."
  },
  {
   "property": "C07",
   "status": "proved",
   "theorems": [
    "C07_combine_tables",
    "C07_set_get"
   ],
   "note": "Word-level model of the whole bool-bitmap.c; all sizes with n+m <= 10 (the table capacity)."
  },
  {
   "property": "C08",
   "status": "partial",
   "theorems": [
    "C08_flatten_layer_skip_empty",
    "C08_csg2_flatten_skip_empty",
    "C08_lazy_structure_partial",
    "C08_no_skip_empty_refuted"
   ],
   "note": "Proved for skip-empty on (default) and any max-simultaneous >= 2. With --opt-no-skip-empty the property is false (refuted: an empty minuend yields the subtrahend). The plane sweep is a parameter specified by sweep_correct."
  },
  {
   "property": "C09",
   "status": "proved",
   "theorems": [
    "C09_reduce",
    "C09_region",
    "C09_order"
   ],
   "note": "cq_sweep_reduce on every planar arrangement of closed polygons (edges meet at ends only, rational points quantified): no assertion fails, an edge is kept iff the combination differs just below and above any inner point of it; the kept edges describe the combined region by the even-odd rule at every point that is not above or below an end; the comparison function gives the order the pass needs. Dictionaries as sequences, unbounded integer coordinates."
  },
  {
   "property": "C10",
   "status": "proved",
   "theorems": [
    "C10_face",
    "C10_parity",
    "C10_direction"
   ],
   "note": "Coordinates after conversion to int; qsort_r is any function that sorts."
  },
  {
   "property": "C11",
   "status": "proved",
   "theorems": [
    "C11_slice",
    "C11_drop",
    "C11_result"
   ],
   "note": "Coordinates after conversion to int; qsort_r is any function that sorts."
  },
  {
   "property": "C12",
   "status": "proved",
   "theorems": [
    "C12_heap_history",
    "C12_vec_heap_extract",
    "C12_vec_heap_min",
    "C12_vec_heap_insert"
   ],
   "note": "Object heap (heap.c): every permitted history of calls. Value heap (vec.c): single operations on any heap-ordered vector."
  },
  {
   "property": "C13",
   "status": "proved",
   "theorems": [
    "C13_heap_index_history"
   ],
   "note": "Every permitted history, priorities may change between calls for the element the call is about."
  },
  {
   "property": "C14",
   "status": "partial",
   "theorems": [
    "C14_heap_make_partial",
    "C14_vec_heap_make_partial",
    "C14_heap_make_refuted",
    "C14_vec_heap_make_refuted"
   ],
   "note": "False of the code: for n >= 2 the size becomes n + 1. Proved: the first n places hold the same elements in heap order with right indices."
  },
  {
   "property": "C15",
   "status": "partial",
   "theorems": [
    "reachable_balanced",
    "balanced_height",
    "insert_by_correct",
    "insert_sorted",
    "insert_at_correct",
    "insert_null_correct",
    "insert_update_at_null_refuted"
   ],
   "note": "Insertion by key and at a node: order, balance, height bound, cached extrema, no assertion fails. Refuted for insert_update_at with pos = NULL on a non-empty dictionary: the cached extremum is stale."
  },
  {
   "property": "C16",
   "status": "proved",
   "theorems": [
    "node_position",
    "remove_correct",
    "extract_correct",
    "extract_update_correct"
   ],
   "note": ""
  },
  {
   "property": "C17",
   "status": "proved",
   "theorems": [
    "join3_correct",
    "join2_correct",
    "split_correct"
   ],
   "note": ""
  },
  {
   "property": "C18",
   "status": "proved",
   "theorems": [
    "find_correct",
    "find_root_reference_refuted",
    "traversal_correct",
    "step_correct"
   ],
   "note": "Also: the documented reference for a found root is refuted."
  },
  {
   "property": "C19",
   "status": "proved",
   "theorems": [
    "C19_consistent",
    "C19_merge",
    "C19_split",
    "C19_remove",
    "C19_others",
    "C19_undo",
    "C19_init",
    "C19_each"
   ],
   "note": ""
  },
  {
   "property": "C20",
   "status": "partial",
   "theorems": [
    "C20_insert_other",
    "C20_insert_self_partial",
    "C20_insert_self_fails",
    "C20_insert_self_refuted",
    "C20_copy_self",
    "C20_copy_other",
    "C20_remove",
    "C20_extract",
    "C20_reverse",
    "C20_set_size",
    "C20_ensure_size",
    "C20_clear",
    "C20_bsearch"
   ],
   "note": "Every operation is proved except inserting a part of a vector into the same vector when the ranges overlap: there the assertions of the code always fail (C20_insert_self_fails, C20_insert_self_refuted)."
  },
  {
   "property": "C21",
   "status": "partial",
   "theorems": [
    "C21_calloc",
    "C21_live",
    "C21_success",
    "C21_remalloc",
    "C21_recalloc",
    "C21_interface_alignment",
    "C21_align0_refuted",
    "C21_clone_refuted"
   ],
   "note": "All histories of allocations, reallocations, user writes, clears and finis; calloc of the C library is a parameter. Refuted: passing alignment 0 as documented asserts; CP_CLONE_ARR_ALLOC swaps size and count so a pool clone may be misaligned."
  },
  {
   "property": "C22",
   "status": "partial",
   "theorems": [
    "C22_encode",
    "C22_encode_reject",
    "C22_decode",
    "C22_roundtrip_partial",
    "C22_roundtrip_refuted",
    "C22_reject",
    "C22_reject_refuted",
    "C22_escape",
    "C22_escape_hex",
    "C22_escape_safe",
    "C22_escape_short_partial",
    "C22_escape_refuted"
   ],
   "note": "Encoding is proved. Decoding is right exactly for code points having certain bits (the code does not mask continuation bytes): round trip, rejection of overlong sequences and of hexadecimal escapes lacking the last digit are refuted; memory safety and everything else is proved."
  },
  {
   "property": "C23",
   "status": "proved",
   "theorems": [
    "C23_closed",
    "C23_written"
   ],
   "note": ""
  },
  {
   "property": "C24",
   "status": "proved",
   "theorems": [
    "C24_roundtrip"
   ],
   "note": ""
  },
  {
   "property": "C25",
   "status": "partial",
   "theorems": [
    "C25_text",
    "C25_safe",
    "C25_binary_partial",
    "C25_binary_refuted"
   ],
   "note": "A binary file whose header starts with 'solid' is handled as text (C25_binary_refuted); everything else is proved. Reading text is C58."
  },
  {
   "property": "C26",
   "status": "proved",
   "theorems": [
    "C26_scenes",
    "C26_none",
    "C26_number"
   ],
   "note": "Model of csg2-2js.c without the text format and the rounding of coordinates, which is done per vertex. C26_scenes: for every tree, reading the scenes yields the triangles of the shown polygons in order; all indices are valid; scenes are filled up. C26_number: the number of scenes is minimal."
  },
  {
   "property": "C27",
   "status": "proved",
   "theorems": [
    "C27_append",
    "C27_poly",
    "C27_total",
    "C27_order"
   ],
   "note": "C27_append: the chain of one closed walk. C27_poly: partial correctness without any assumption about the arrangement. C27_total: for edges that meet at ends only, with an even number of edge ends at each point, the construction succeeds, covers each edge once, has no repeated point in a path and at least three points per path, and directs each edge with the inside on its right. C27_order: the order assumed is the one of the comparison function."
  },
  {
   "property": "C28",
   "status": "proved",
   "theorems": [
    "C28_flush",
    "C28_done",
    "C28_area"
   ],
   "note": "Model of the whole of op-trianglify.c and of the vertex functions of op-sweep-internal.h. The theorems are about flush_triangle_ in any well formed ring of vertices (any length, both directions, closed or open): it succeeds, every triangle is clockwise with positive area, and for every odd function of lines (area, winding contributions) the chain before = chain after + triangles. That the whole sweep consumes everything is not proved."
  },
  {
   "property": "C29",
   "status": "proved",
   "theorems": [
    "C29_closed",
    "C29_cube",
    "C29_cylinder",
    "C29_sphere",
    "C29_linext",
    "C29_orientation",
    "C29_cube_volume",
    "C29_cube_corners"
   ],
   "note": "All ring sizes >= 3, ring counts >= 2, apex or not, three triangulation modes, both orientations: no assertion fails, each directed edge occurs once with its reverse, Euler characteristic of a sphere; the four callers; exact numbers for the orientation under transformations (signed volume scales with |det|); the points of the sphere, cylinder and extrusion need trigonometry and are not modelled."
  },
  {
   "property": "C30",
   "status": "partial",
   "theorems": [
    "C30_meaning_partial",
    "C30_accepts",
    "C30_root_partial",
    "C30_root_alone_partial",
    "C30_assert_refuted",
    "C30_empty_refuted",
    "C30_hull_refuted"
   ],
   "note": "Proved for trees where each counting child of an intersection is non-empty and no hull/projection is below a 2D transformation; the three exceptions are refuted (failing assertion, empty operand ignored, lost transformation of hull). Geometry of shapes, extrusion, hull abstract (laws)."
  },
  {
   "property": "C31",
   "status": "partial",
   "theorems": [
    "C31_model_partial",
    "C31_parts_partial",
    "C31_least_partial",
    "C31_small_partial",
    "C31_sphere_refuted"
   ],
   "note": "Proved for trees of polyhedra without spheres: the box contains the model (or all parts), and is the smallest one for the corners of all parts. Refuted for spheres: a later smaller sphere shrinks the box (csg3.c 477)."
  },
  {
   "property": "C32",
   "status": "partial",
   "theorems": [
    "C32_get_arg_partial",
    "C32_unknown_refuted"
   ],
   "note": "get_arg: for all argument lists and parameter tables; exact acceptance, stored values and flags if names are known or unknown names are errors; refuted for unknown names with a warning (the default): later arguments are dropped, mandatory parameters not enforced. The getters are parameters."
  },
  {
   "property": "C33",
   "status": "partial",
   "theorems": [
    "C33_total",
    "C33_line_partial",
    "C33_unknown",
    "C33_caret",
    "C33_line_refuted",
    "C33_eof_refuted"
   ],
   "note": "Line lookup, line table, column and caret, for any set of files. The line is proved right except at line starts and at end of file; the full statement is refuted: the first character of a line may be reported in the previous line, and the end of a file without final line break in a line that does not exist."
  },
  {
   "property": "C34",
   "status": "partial",
   "theorems": [
    "C34_hex",
    "C34_name",
    "C34_unknown_refuted"
   ],
   "note": "Hexadecimal colours and all names of the table are proved; that unknown names are reported is refuted: the result of the lookup is dereferenced without a check for NULL."
  },
  {
   "property": "C35",
   "status": "partial",
   "theorems": [
    "C35_inplace",
    "C35_terminates",
    "C35_fuel",
    "C35_sound",
    "C35_complete",
    "C35_unambiguous",
    "C35_roundtrip_partial",
    "C35_same_tree_partial",
    "C35_integers",
    "C35_modifier_refuted",
    "C35_group_refuted",
    "C35_keyword_refuted",
    "C35_float_refuted",
    "C35_inf_refuted",
    "C35_include_refuted",
    "C35_nul_refuted"
   ],
   "note": "Scanner, parser and printer of SCAD syntax trees are modelled. Proved for all files: the in-place scanner refines a copying one; the parser ends and makes no access outside of the file; it is sound and complete for an independent grammar, which is not ambiguous; printing and reading again yields the tree without modifiers, with each number as its text denotes. Not true of the code and refuted: modifiers, groups without functor, keywords as functors, floats that print without point or as inf. Not modelled: the insertion of files by include (outcome Inc); error texts."
  },
  {
   "property": "C36",
   "status": "partial",
   "theorems": [
    "C36_inplace",
    "C36_sound",
    "C36_complete",
    "C36_terminates_partial",
    "C36_terminates_refuted",
    "C36_hang_tag",
    "C36_hang_comment",
    "C36_hang_attr",
    "C36_null_refuted",
    "C36_text",
    "C36_charref_refuted",
    "C36_nonascii_refuted",
    "C36_comment_refuted"
   ],
   "note": "The in-place parser equals a copying parser on every file (C36_inplace). For ASCII files: what is accepted is a document of an independent grammar, with its tree (C36_sound), and every document of the grammar's strict part is accepted with its tree (C36_complete). C36_text: texts denote what they should. C36_terminates_partial: for every file the run is finite and never accesses memory out of bounds, except that a loop may repeat in the same state forever (outcome Hang) or a null pointer may be used (outcome Null); it does not say which files hang. That files hang is shown by C36_terminates_refuted and C36_hang_*. Namespace declarations without value use a null pointer; numeric references wrap modulo 2^32; text that is not ASCII may change; a comment directly before an end tag is rejected (C36_comment_refuted). Chomp and the check of the document structure are not modelled."
  },
  {
   "property": "C37",
   "status": "proved",
   "theorems": [
    "C37_add_edge",
    "C37_add_poly",
    "C37_closed",
    "C37_overlap",
    "C37_split",
    "C37_pair",
    "C37_phase1"
   ],
   "note": "Edges as added, overlapped, split: parities of coverage preserved for each polygon at each rational point, edges stay closed; whole runs of the first phase (any order of tie-breaking and any tests for intersection) preserve what the polygons cover. A run may still stop at a failing assertion (ev_overlap) if the sweep line is out of order; excluded for overlaps in the geometric sense (C37_overlap). Non-integer crossings (second phase) are not modelled."
  },
  {
   "property": "C38",
   "status": "partial",
   "theorems": [
    "C38_numbers",
    "C38_same_number",
    "C38_same_point_refuted",
    "C38_dedup",
    "C38_exact",
    "C38_paths",
    "C38_paths_same"
   ],
   "note": "Any points: numbers consecutive in order of first occurrence, stored point close to the one entered, imports refer to close points (exactly the same points if no two different ones are close); equal numbers iff close for separated coordinates (also for SVG paths). In general (closeness is not transitive) the same point can get two numbers: refuted. Doubles modelled as integers."
  },
  {
   "property": "C39",
   "status": "proved",
   "theorems": [
    "C39_rotext",
    "C39_both"
   ],
   "note": "All polygons (any paths over existing points, any subset on the axis), all numbers of segments: no assertion fails, each directed edge occurs as often as its reverse; closed (each edge exactly once) if no path point is used twice; volume formula with sign for both modes and all matrices. The polygon, the number of segments and the table of sines are inputs."
  },
  {
   "property": "C40",
   "status": "proved",
   "theorems": [
    "C40_unquote",
    "C40_roundtrip"
   ],
   "note": "Escapes, trailing backslash, round trip, with the character vector underneath."
  },
  {
   "property": "C41",
   "status": "partial",
   "theorems": [
    "C41_sorted_partial",
    "C41_sorted_refuted",
    "C41_even_odd"
   ],
   "note": "Sorted only for lines that do not descend; refuted for descending lines (C41_sorted_refuted). The even-odd coverage is proved for all."
  },
  {
   "property": "C42",
   "status": "proved",
   "theorems": [
    "C42_find",
    "C42_duplicates"
   ],
   "note": "The generator (from the list of keys on) and the printed lookup function, for every table; applied to the table of colours for C34."
  },
  {
   "property": "C43",
   "status": "proved",
   "theorems": [
    "C43_strings",
    "C43_cstr"
   ],
   "note": "realloc is assumed to succeed (the code does not check it); vsnprintf is specified by its output text."
  },
  {
   "property": "C44",
   "status": "proved",
   "theorems": [
    "C44_combination"
   ],
   "note": "Reduction pass and construction of paths, composed; the arrangement of edges, closedness and the order of the dictionary are hypotheses (what the earlier passes establish is C37). Points on vertical lines through vertices are excluded, because the even-odd count is taken along such a line."
  },
  {
   "property": "C45",
   "status": "proved",
   "theorems": [
    "C45_closed"
   ],
   "note": "For polygons without difference data (diff_above and diff_below), given that the outline flags of the triangulation are right."
  },
  {
   "property": "C46",
   "status": "partial",
   "theorems": [
    "C46_hull_partial",
    "C46_exact",
    "C46_sides",
    "C46_order",
    "C46_hull_refuted"
   ],
   "note": "Proved with exact comparisons for every list of at least three points, and with the comparison of the code for all points whose squared distances from the first point differ by at least the tolerance when they are collinear with it. Without that condition it is false of the code: pt_y_angle_cmp compares squared distances with the tolerance for lengths, and a corner may get lost (C46_hull_refuted). Coordinates are integers of a grid."
  },
  {
   "property": "C47",
   "status": "proved",
   "theorems": [
    "C47_circle",
    "C47_regular"
   ],
   "note": "The loop over the points of a circle, for every number of points; with the real sine and cosine (axioms of the real numbers of the standard library), they are the corners of the regular polygon. The rounding of the library functions is not modelled."
  },
  {
   "property": "C48",
   "status": "proved",
   "theorems": [
    "C48_integer",
    "C48_sin",
    "C48_cos"
   ],
   "note": "For every bit pattern of a double. Uses the real numbers of the standard library and their axioms. For all other angles, the code calls the library function, which is not modelled."
  },
  {
   "property": "C49",
   "status": "proved",
   "theorems": [
    "C49_mul",
    "C49_det",
    "C49_inv",
    "C49_homogeneous"
   ],
   "note": "Over the reals: rounding of doubles is not modelled."
  },
  {
   "property": "C50",
   "status": "partial",
   "theorems": [
    "C50_transform_partial",
    "C50_zero_axis_refuted"
   ],
   "note": "Over the reals. Proved for rotations whose axis is not shorter than the tolerance and whose sine and cosine are those of an angle; C50_zero_axis_refuted shows that the full statement is false without the condition on the axis."
  },
  {
   "property": "C51",
   "status": "partial",
   "theorems": [
    "C51_slice_partial",
    "C51_big_sphere_refuted"
   ],
   "note": "Over the reals. Needs that the normal of the plane, seen from the unit sphere, is at least as long as the tolerance, and is vertical or clearly not; without the former it is false (C51_big_sphere_refuted). Missing: normals that are not exactly vertical, but nearly so."
  },
  {
   "property": "C52",
   "status": "partial",
   "theorems": [
    "C52_inv_in_place_partial",
    "C52_inv_refuted",
    "C52_into_z_partial",
    "C52_into_z_refuted",
    "C52_rect_rot_refuted"
   ],
   "note": "Over the reals. In place, and for vectors of sufficient length that are clearly vertical or clearly not; the full statements are refuted."
  },
  {
   "property": "C53",
   "status": "proved",
   "theorems": [
    "C53_multmatrix",
    "C53_2x2_refuted"
   ],
   "note": "Over the reals. The wording of the message (2x2) is refuted."
  },
  {
   "property": "C54",
   "status": "partial",
   "theorems": [
    "C54_snap_rounding_partial",
    "C54_ends",
    "C54_closed"
   ],
   "note": "Proved for all edges, crossings and results of tree searches: routes of hot pixels, result = xor of routes, closedness, no two edges with the same end and direction; the passes end. Half-unit bound if the trees were in order (flag ok of the model). Missing: that they are always in order, that each touched hot pixel is visited, and that edges of the result do not cross."
  },
  {
   "property": "C55",
   "status": "partial",
   "theorems": [
    "C55_reverse",
    "C55_many_edges_refuted"
   ],
   "note": "The loop is proved. The claim for any number of edges is refuted: with assertions enabled, 101 edges through one point fail."
  },
  {
   "property": "C56",
   "status": "proved",
   "theorems": [
    "C56_sums",
    "C56_root",
    "C56_split",
    "C56_join",
    "C56_insert",
    "C56_remove",
    "C56_swap",
    "C56_first_node_refuted"
   ],
   "note": "Proved for all executions of bundle operations (insert, remove, split, join, exchange, in any order on any trees): each node's sum is the xor of its subtree, no edge is in two trees; each operation succeeds on balanced trees, acts on the sequence as without callbacks, and leaves other edges' sums alone. Refuted for a node with a stale sum put into an empty tree (no ADD callback for the first node); the sweep resets the sums before."
  },
  {
   "property": "C57",
   "status": "proved",
   "theorems": [
    "C57_swap",
    "C57_swap_update_root",
    "C57_swap_update_root2",
    "C57_rotate",
    "C57_start",
    "C57_step",
    "C57_root",
    "C57_insert",
    "C57_insert_end",
    "C57_remove",
    "C57_extract",
    "C57_join3",
    "C57_join2",
    "C57_split"
   ],
   "note": "The heap model leaves out the augmentation callbacks and the balance assertions, which only read (they are in C15-C18 and C56); loops have fuel, enough of which is shown to suffice."
  },
  {
   "property": "C58",
   "status": "partial",
   "theorems": [
    "C58_safe",
    "C58_sound",
    "C58_complete_partial",
    "C58_unnamed_refuted",
    "C58_trailing_refuted",
    "C58_roundtrip"
   ],
   "note": "Safety, soundness for a form that is slightly wider than STL files, and the round trip are proved; completeness if something follows 'solid' in the first line. Refuted: without a name the next line is skipped (a triangle there is lost silently, C58_unnamed_refuted); a line after 'endsolid' is skipped, whatever it has (C58_trailing_refuted). strtod, printf and the dictionary of points are parameters."
  },
  {
   "property": "C59",
   "status": "proved",
   "theorems": [
    "C59_layers",
    "C59_counting_up",
    "C59_stacks"
   ],
   "note": "Slicing of single objects, plane sweep, emptiness tests and triangulation are parameters with visible hypotheses (C04, C51, C08, C26 to C28, C54 are about them). Skipping of empty polygons must be on, as by default (C08_no_skip_empty_refuted)."
  },
  {
   "property": "C60",
   "status": "proved",
   "theorems": [
    "C60_no_intersection",
    "C60_any_ints",
    "C60_junctions_refuted",
    "C60_inner_point_refuted",
    "C60_zero_length_refuted"
   ],
   "note": "The header also says that junctions are found and that the point returned for an overlap is inside the other line; both are false of the code (refuted), and a line of length zero fails an assertion (refuted)."
  },
  {
   "property": "C61",
   "status": "partial",
   "theorems": [
    "C61_accepted_partial",
    "C61_points_partial",
    "C61_terminates",
    "C61_signed_exponent_refuted",
    "C61_close_after_move_refuted",
    "C61_stale_control_refuted",
    "C61_nothing_drawn_refuted"
   ],
   "note": "All texts: acceptance is exactly the grammar (both directions), reading ends, and the points are those of the meaning of the commands. Missing: arcs (an outcome of their own in the model); numbers with a sign in the exponent (refuted: not read); closing right after a move and smooth curves behind a line of length zero (refuted: wrong points). strtod is a parameter with the hypothesis that it reads the numbers of the grammar; an exact instance meets it."
  },
  {
   "property": "C62",
   "status": "partial",
   "theorems": [
    "C62_shapes_partial",
    "C62_view_partial",
    "C62_view_general",
    "C62_layer_refuted",
    "C62_commands_refuted",
    "C62_numbers_refuted",
    "C62_view_default_refuted",
    "C62_view_none_refuted",
    "C62_view_align_refuted",
    "C62_view_inverse_refuted"
   ],
   "note": "All trees with valid transform commands, where the element of the wanted layer has a transform attribute: exactly the shapes of the layer, in order, each with the composition of all maps. View boxes: proved for equal proportions and any preserveAspectRatio; in general, C62_view_general says what is done instead and the refuted theorems that it is not the standard. Missing: layers without transform (refuted), the text of transform attributes, the matrices of svg elements are data."
  },
  {
   "property": "C63",
   "status": "partial",
   "theorems": [
    "C63_length_partial",
    "C63_transform_partial",
    "C63_apply_partial",
    "C63_apply_general",
    "C63_rect_partial",
    "C63_radii_partial",
    "C63_terminates",
    "C63_no_unit_refuted",
    "C63_missing_refuted"
   ],
   "note": "Readers of lengths and of transform attributes, both directions, the map that a transform attribute gives, and the dimensions of rectangles; numbers with a sign in the exponent (not read, see C61) and the units em and ex are missing."
  }
 ]
}