{"id": "C01", "title": "Integer division helpers return the exact quotient and a non-negative remainder", "statement": "For every dividend and every non-zero divisor for which the quotient fits the result type, the signed division helpers of the exact-arithmetic layer return a pair (q, m) with a = b*q + m and 0 <= m < |b|, as documented. No intermediate computation overflows a signed type.", "quantifier": "all pairs of fixed-width signed integers (dividend, divisor)", "why_tests_cant": "2^96 input pairs; sign and boundary combinations (INT_MIN, -1, exact multiples) are where C's truncating division goes wrong, and signed overflow is undefined behaviour a test may not observe.", "anchors": ["src/hob3lop/matq.c: cq_divmod, cq_divmodw, cq_divmodx", "include/hob3lop/matq.h: cq_div, cq_mod"]}
{"id": "C02", "title": "Rounding division rounds to nearest", "statement": "The rounding division used when geometry is snapped back to the integer grid returns an integer within 1/2 of the exact quotient, with exact halves resolved in one fixed direction, for every dividend and every positive divisor.", "quantifier": "all dividends and all positive divisors of the fixed-width types", "why_tests_cant": "The input space is 2^96; off-by-one errors only show on exact halves and on negative operands.", "anchors": ["include/hob3lop/matq.h: cq_divw_rnd, cq_round", "src/hob3lop/matq.c"]}
{"id": "C03", "title": "Wide multiplication and division are exact", "statement": "The 64x64->128 bit multiplication and the 96/64 bit division built from 32-bit pieces return exactly the mathematical product (resp. quotient and remainder) of their operands: no carry is ever lost.", "quantifier": "all 64-bit factors, and all dividend/divisor pairs for which the quotient fits", "why_tests_cant": "Lost carries appear for a vanishing fraction of 2^128 operand pairs.", "anchors": ["src/hob3lop/matq.c: cq_udimw_mul_aux, cq_dim_div_ew, cq_udime_*, cq_dimif_mul_div_nww"]}
{"id": "C04", "title": "Comparing exact intersection coordinates is a total order that agrees with the rationals", "statement": "Comparing two coordinates given as integer part plus proper fraction returns the sign of the difference of the rational numbers they denote; in particular the comparison is antisymmetric and transitive, so the sweep's event order is consistent.", "quantifier": "all pairs and triples of mixed fractions with valid (normalised) fraction parts", "why_tests_cant": "A comparison inconsistent on one triple out of 2^288 corrupts a sorted structure; sampling cannot show transitivity.", "anchors": ["include/hob3lop/matq.h: cq_dimif_cmp", "src/hob3lop/matq.c: cq_dimif_cmp_frac_aux"]}
{"id": "C05", "title": "Segment intersection is exact", "statement": "For two segments with integer end points within the supported coordinate range, the intersection routine classifies the pair (parallel, no crossing, crossing) as exact geometry does, and when they cross, the returned integer-plus-fraction coordinates denote exactly the rational intersection point.", "quantifier": "all pairs of segments with end points in the supported coordinate range", "why_tests_cant": "Eight 32-bit coordinates: 2^256 inputs; near-parallel and end-point-touching configurations are measure zero for random tests.", "anchors": ["src/hob3lop/matq.c: cq_vec2if_intersect", "include/hob3lop/matq.h: cq_vec2_intersect"]}
{"id": "C06", "title": "Snapping tolerance test agrees with geometry", "statement": "The test that decides whether a grid point is affected by an edge when the edge is rounded to the grid (is the edge passing within the point's rounding cell, or on which side does it pass) returns the answer of exact rational geometry.", "quantifier": "all edges (given from left to right) and points in the supported coordinate range", "why_tests_cant": "Boundary configurations (edge exactly through the corner of the cell) are measure zero.", "anchors": ["src/hob3lop/matq.c: cq_cmp_edge_rnd"]}
{"id": "C07", "title": "Combination tables denote the boolean function that was composed", "statement": "A combination table over n polygons built by widening (spread/repeat) and combining with add, cut, sub or xor evaluates, for every subset of polygons a point may lie in, to the boolean function obtained by applying that operator to the two operand functions on their own sub-sets of polygons.", "quantifier": "all table sizes up to the maximum, all tables, all operators, all membership vectors", "why_tests_cant": "There are 2^1024 tables; the word-level tricks differ for sizes below and above one machine word.", "anchors": ["src/hob3lbase/bool-bitmap.c: cp_bool_bitmap_spread, cp_bool_bitmap_repeat, cp_bool_bitmap_combine", "include/hob3lbase/bool-bitmap.h"]}
{"id": "C08", "title": "Lazy 2D boolean evaluation has the semantics of the CSG tree", "statement": "For every CSG tree of unions, intersections, differences and xors over polygons, every limit on simultaneously processed polygons >= 2 and every optimisation setting, the polygon set and combination table produced by flattening denote, at every point, exactly the boolean value of the tree at this point, no matter where intermediate results were materialised.", "quantifier": "all CSG trees (any depth and width), all points, all max-simultaneous settings, optimisation on and off", "why_tests_cant": "Trees are unbounded; the choice of which operand is materialised depends on sizes along the whole tree.", "anchors": ["src/hob3l/csg2-bool.c: cp_csg2_op_lazy, cp_csg2_op_flatten_layer, cp_csg2_flatten", "src/hob3l/opt.switch: max-simultaneous, opt-no-skip-empty"]}
{"id": "C09", "title": "The reduction pass keeps exactly the edges on the boundary of the combined region", "statement": "Given a planar arrangement of edges labelled with the set of polygons they belong to, the reduction pass keeps an edge if and only if the combined boolean function has different values immediately below and above this edge, where membership below an edge is the parity of the edges beneath it.", "quantifier": "all arrangements satisfying the pass's ordering precondition, all combination tables", "why_tests_cant": "The property relates each edge to all edges below it at every sweep position; the space of arrangements is unbounded.", "anchors": ["src/hob3lop/op-sweep-reduce.c: cq_sweep_reduce"]}
{"id": "C10", "title": "Slicing a face yields an even number of cut points and never trips the parity assertion", "statement": "Cutting any face (any closed vertex cycle) at any height produces an even number of cut points, and the cut point computed for an edge does not depend on the direction in which the edge is traversed.", "quantifier": "all vertex cycles of any length, all cut heights", "why_tests_cant": "Faces have unbounded vertex counts; vertices exactly on the cutting plane are the difficult case.", "anchors": ["src/hob3lop/op-slice.c: cq_slice_add_face, cq_slice_polyline_int, cq_slice_interpol"]}
{"id": "C11", "title": "The slice of a closed polyhedron is a closed set of lines", "statement": "If every edge of a polyhedron is shared by an even number of face boundaries, then the collection of line segments produced by slicing all faces at any height has an even number of segment ends at every point (so it bounds a region), and dropping zero-length segments preserves this.", "quantifier": "all closed polyhedra, all cut heights", "why_tests_cant": "Unbounded meshes; failures occur only for degenerate positions (vertices, edges or faces in the cutting plane).", "anchors": ["src/hob3lop/op-slice.c: cq_slice_add_face, cq_slice_fini"]}
{"id": "C12", "title": "Heap operations keep the minimum on top and lose no element", "statement": "After any sequence of insert, remove-by-index, replace, update-after-priority-change and extract operations, the heap contains exactly the elements inserted and not yet removed, extract returns an element no larger than any other one, and the reported minimum is a minimum.", "quantifier": "all total preorders as comparison function and all operation sequences of any length", "why_tests_cant": "Unbounded histories; errors appear only for particular tree shapes.", "anchors": ["src/hob3lbase/heap.c: cp_heap_insert, cp_heap_remove, cp_heap_replace, cp_heap_extract, cp_heap_update, cp_heap_min"]}
{"id": "C13", "title": "Each heap element always knows its own position", "statement": "After every heap operation each contained element's embedded index equals its position in the heap and each removed element carries the 'not in heap' mark, so that an element can be removed or updated directly at any time.", "quantifier": "all operation histories", "why_tests_cant": "The relation must hold after every step of unbounded histories, for all elements at once.", "anchors": ["src/hob3lbase/heap.c: cp_heap_swap_, cp_heap_insert, cp_heap_remove, cp_heap_replace"]}
{"id": "C14", "title": "Making a heap out of a vector preserves the vector's contents", "statement": "Turning an arbitrary vector into a heap in place results in a heap with the same elements and the same number of elements.", "quantifier": "all vectors of any size", "why_tests_cant": "Sizes are unbounded, and reading one element past the end usually goes unnoticed in a test.", "anchors": ["src/hob3lbase/heap.c: cp_heap_make_", "src/hob3lbase/vec.c: cp_v_heap_make_"]}
{"id": "C15", "title": "Dictionary insertion keeps order and balance", "statement": "Inserting a node in a balanced search tree (with or without duplicates) yields a tree whose in-order sequence is the previous one with the new node inserted at its place, which is again balanced (height at most 2*log2(n+1)+1), and the cached minimum and maximum are correct.", "quantifier": "all trees reachable by operations, all keys, all comparison functions that are total preorders", "why_tests_cant": "Unbounded trees; rebalancing has many shape-dependent cases, each with a mirror image.", "anchors": ["src/hob3lbase/dict.c: cp_dict_insert_ref_aug, _balance_insert, rb_rotate", "include/hob3lbase/dict.h"]}
{"id": "C16", "title": "Dictionary removal keeps order and balance", "statement": "Removing any node from a balanced search tree yields a balanced tree whose in-order sequence is the previous one without this node; all other nodes keep their identity.", "quantifier": "all trees reachable by operations, all nodes in them", "why_tests_cant": "Unbounded trees; removal has the largest number of shape cases and needs rare black-sibling patterns.", "anchors": ["src/hob3lbase/dict.c: cp_dict_remove_aug, balance_remove, swap_remove_u, remove_u"]}
{"id": "C17", "title": "Joining and splitting dictionaries", "statement": "Joining two dictionaries around a middle node yields a balanced tree with the concatenated sequence; splitting a dictionary at a key yields two balanced trees whose sequences are exactly the elements before and after the split point.", "quantifier": "all balanced trees of any (different) heights, all split keys", "why_tests_cant": "Unbounded trees with arbitrary height differences.", "anchors": ["src/hob3lbase/dict.c: cp_dict_join3_aug, cp_dict_join2_aug, cp_dict_split_aug_"]}
{"id": "C18", "title": "Dictionary lookup finds an element iff it is there", "statement": "Searching a key returns a node iff the dictionary contains one comparing equal; in the presence of duplicates the requested first/last one is returned; traversal visits every node exactly once in order.", "quantifier": "all search trees, all keys, all duplicate policies", "why_tests_cant": "Unbounded trees and key distributions.", "anchors": ["src/hob3lbase/dict.c: cp_dict_find_ref_, cp_dict_start, cp_dict_step"]}
{"id": "C19", "title": "Ring list operations split and merge rings", "statement": "Chaining two ring nodes merges their rings if they are in different rings and splits the ring if they are in the same one; applying it twice restores the original; removal leaves a consistent ring and a singleton; prev and next stay mutually inverse.", "quantifier": "all heaps of disjoint rings of any size, all pairs of nodes", "why_tests_cant": "Pointer structures of unbounded size, including aliasing (same node, adjacent nodes).", "anchors": ["src/hob3lbase/list.c", "include/hob3lbase/list.h: cp_list_init, cp_list_chain, cp_list_remove"]}
{"id": "C20", "title": "Vector insertion, removal, reversal and search", "statement": "Inserting an array into a vector yields prefix ++ inserted ++ suffix even when the inserted array is part of the same vector; removal, reversal and extraction act on exactly the requested range; binary search on a sorted vector finds an equal element iff one exists.", "quantifier": "all vectors, positions, sizes, and all aliasing situations", "why_tests_cant": "Self-aliasing insertions have five relative placements of unbounded sizes; wrong copies corrupt memory silently.", "anchors": ["src/hob3lbase/vec.c: cp_v_insert_arr_, cp_v_copy_arr_, cp_v_remove_, cp_v_reverse_, cp_v_extract_, cp_bsearch"]}
{"id": "C21", "title": "Pool allocations are disjoint, aligned, zeroed and in bounds", "statement": "Every block returned by the pool allocator is aligned as requested, lies within memory the pool owns, does not overlap any other block handed out since the last clear, and is zeroed, for every allocation sequence, including after the pool is cleared and reused.", "quantifier": "all sequences of allocation requests (sizes and alignments) and clears", "why_tests_cant": "Unbounded histories; overlap needs specific fill levels at block boundaries.", "anchors": ["src/hob3lbase/pool.c", "include/hob3lbase/pool.h"]}
{"id": "C22", "title": "UTF-8 encoding and decoding", "statement": "Decoding the encoding of any code point yields this code point and consumes exactly its bytes; malformed sequences (truncated, stray continuation, overlong, out of range) are rejected; the decoder never reads outside the given buffer.", "quantifier": "all code points, all byte strings", "why_tests_cant": "All byte strings of any length; typical tests use ASCII and a few code points.", "anchors": ["src/hob3lbase/utf8.c: cp_utf8_decode, cp_utf8_encode, cp_utf8_take, cp_utf8_escaped_next", "include/hob3lbase/utf8.h"]}
{"id": "C23", "title": "The STL output of a layer is a closed, consistently oriented mesh", "statement": "For every triangulated polygon whose non-outline triangle edges cancel pairwise, the triangles written for a layer of positive thickness form a closed orientable surface: every directed edge is balanced by the same number of its reverse.", "quantifier": "all triangulated polygons (any number of triangles, any flags satisfying the precondition), all layer heights", "why_tests_cant": "Unbounded triangulations; a slicer or printer depends on watertightness of every output.", "anchors": ["src/hob3l/csg2-2stl.c: poly_put_stl, poly_put_stl_outline_edge, triangle_put_stl"]}
{"id": "C24", "title": "Binary STL output is well-formed and can be read back", "statement": "The binary STL output is 84 + 50*n bytes long with n equal to the count stored in the header, and parsing it with the program's own STL reader yields the written triangles in order.", "quantifier": "all lists of triangles (with 32-bit float coordinates)", "why_tests_cant": "Unbounded lists; header count is computed in a separate pass from the one writing the facets.", "anchors": ["src/hob3l/csg2-2stl.c", "src/hob3l/stl-parse.c: parse_bin, cp_stl_parse"]}
{"id": "C25", "title": "STL format detection", "statement": "A file is handled as ASCII STL iff it is one, and every well-formed binary STL file is recognised as binary and read completely and only within its bounds.", "quantifier": "all file contents", "why_tests_cant": "All byte strings; the detection relies on a prefix and on a modular size check.", "anchors": ["src/hob3l/stl-parse.c: cp_stl_parse, parse_bin, bin_*"]}
{"id": "C26", "title": "JavaScript output batching loses no triangle", "statement": "Decoding the scenes of the JavaScript output (delta-coded indices, 16-bit limits on vertices and triangles per scene) yields the sequence of triangles given to the writer, and every index refers to a vertex in the same scene.", "quantifier": "all triangle sequences of any length", "why_tests_cant": "Batch boundaries are at 65535 vertices; sequences are unbounded.", "anchors": ["src/hob3l/csg2-2js.c"]}
{"id": "C27", "title": "Path reconstruction emits simple closed paths covering the edges", "statement": "When edge chains are turned into polygon paths, a chain visiting a point repeatedly is cut into paths in which no point occurs twice, every path is closed, and the multiset of undirected edges of all paths is the one of the chain.", "quantifier": "all vertex chains of any length", "why_tests_cant": "Unbounded chains with arbitrary repetitions; the implementation reuses stale index marks across chains.", "anchors": ["src/hob3lop/op-poly.c: cq_sweep_poly_append, cq_sweep_poly"]}
{"id": "C28", "title": "Monotone triangulation conserves area and orientation", "statement": "Each triangle emitted has positive area, and the total area of the triangles emitted while flushing a monotone chain plus the area left under the remaining chain equals the area under the original chain.", "quantifier": "all monotone chains of any length", "why_tests_cant": "Unbounded chains; area equality is a global statement.", "anchors": ["src/hob3lop/op-trianglify.c"]}
{"id": "C29", "title": "Generated solids are closed oriented polyhedra", "statement": "The polyhedra generated for cubes, cylinders, cones, spheres and linear extrusions (any number of sides and slices, with or without apex, each side triangulation mode, either orientation) have every directed edge balanced by exactly one reversed edge.", "quantifier": "all side counts >= 3, all slice counts >= 2, apex or not, all triangulation modes, both orientations", "why_tests_cant": "Unbounded parameters; index arithmetic with wrap-around.", "anchors": ["src/hob3l/csg3.c: faces_n_edges_from_tower, face_from_poly_lid, face_init_from_point_ref"]}
{"id": "C30", "title": "Conversion of SCAD operators to the CSG tree preserves meaning", "statement": "For every SCAD statement tree of unions, differences and intersections over shapes, the CSG tree built from it denotes, at every point, the same boolean value as the SCAD semantics (first non-ignored child minus the rest; intersection of all non-empty children), and the conversion never hits an internal assertion.", "quantifier": "all SCAD trees with ignored and empty children, all points", "why_tests_cant": "Unbounded trees; special cases (nested differences being merged, empty children) interact.", "anchors": ["src/hob3l/csg3.c: csg3_from_difference, csg3_from_intersection, csg3_cut_push_add, csg3_from_scad"]}
{"id": "C31", "title": "The bounding box of a model contains the model", "statement": "The bounding box computed for a CSG tree, which determines the range of slices, contains every point of every object that is not subtracted (respectively of every object if subtracted ones are requested, too).", "quantifier": "all CSG trees of polyhedra and spheres in any order", "why_tests_cant": "Unbounded trees and orders of updates.", "anchors": ["src/hob3l/csg3.c: cp_csg3_tree_minmax, get_bb_*, csg3_sphere_minmax1"]}
{"id": "C32", "title": "Module arguments are matched by position and name", "statement": "Every argument of a SCAD module call is stored in the parameter it names (or its position denotes), a parameter is reported as given iff an argument for it was given, mandatory parameters are enforced, and an unknown parameter name that is only warned about has no effect on the other arguments.", "quantifier": "all argument lists and parameter tables", "why_tests_cant": "Unbounded argument lists in any order and with unknown names in any place.", "anchors": ["src/hob3l/scad.c: get_arg"]}
{"id": "C33", "title": "Error locations name the right line", "statement": "The line number reported for a position in a source file is one plus the number of line breaks before this position, and the reported line text is this line.", "quantifier": "all file contents and positions in them", "why_tests_cant": "Depends on the binary search's probe sequence for every number of lines.", "anchors": ["src/hob3l/syn-msg.c: cp_syn_get_loc, cmp_line", "src/hob3l/syn.c: read_file"]}
{"id": "C34", "title": "Colour names", "statement": "Colour strings of the form #rgb and #rrggbb are translated to exactly the denoted components, everything else is looked up by name, and an unknown string is reported as a failure without side effect.", "quantifier": "all strings", "why_tests_cant": "All strings of any length.", "anchors": ["src/hob3l/gc.c: cp_color_by_name"]}
{"id": "C35", "title": "Dumping the syntax tree yields equivalent SCAD source", "statement": "Printing a parsed syntax tree and parsing the output again yields the same syntax tree.", "quantifier": "all syntax trees producible by the parser", "why_tests_cant": "Unbounded nesting of values and statements; must hold for every identifier, string and number.", "anchors": ["src/hob3l/syn.c: cp_syn_parse", "src/hob3l/syn-2scad.c: cp_syn_tree_put_scad"]}
{"id": "C36", "title": "XML parsing terminates and decodes text in place safely", "statement": "The XML parser terminates on every input; decoding character data in place never writes beyond the data already read; entity references decode to the characters they denote.", "quantifier": "all byte strings", "why_tests_cant": "Non-termination and overwriting need specific malformed inputs.", "anchors": ["src/hob3l/xml-parse.c: parse_text, skip_comment, parse_content, lex_next"]}
{"id": "C37", "title": "Adding, splitting and overlapping edges preserves polygon coverage", "statement": "Normalising an edge when it is added, splitting an edge at a point on it and resolving two overlapping collinear edges all preserve, for each polygon, the parity with which each point of the plane is covered by the polygon's edges, so that the regions described by the edges stay the same.", "quantifier": "all edges, polygon memberships and overlap situations", "why_tests_cant": "Overlaps have many relative end point orders; membership sets are arbitrary.", "anchors": ["src/hob3lop/op-sweep.c: cq_sweep_add_edge, ev_overlap, ev_split"]}
{"id": "C38", "title": "Point deduplication numbers points consistently", "statement": "Entering a sequence of points into a point dictionary gives equal points the same number and different points different numbers, numbers are consecutive starting from 0 in order of first occurrence, and the point stored at a number is the point entered.", "quantifier": "all sequences of points", "why_tests_cant": "Unbounded sequences.", "anchors": ["src/hob3l/vec3-dict.c", "src/hob3l/stl-parse.c", "src/hob3lop/op-sweep-internal.h: point_idx_get"]}
{"id": "C39", "title": "Rotational extrusion yields closed polyhedra", "statement": "The polyhedra generated for rotate_extrude (any closed paths, any number of slices, any subset of points on the axis) have every directed edge balanced by its reverse.", "quantifier": "all sets of closed paths, all partitions in axis and non-axis points, all slice counts >= 2", "why_tests_cant": "Unbounded paths; quads collapse to triangles or disappear where points are on the axis.", "anchors": ["src/hob3l/csg3.c: rotext_arc, poly3_push_face4, rotext_idx"]}
{"id": "C40", "title": "String literals are unquoted correctly", "statement": "Unquoting a string literal yields the characters it denotes, is the inverse of quoting, and unsupported escapes are rejected.", "quantifier": "all strings", "why_tests_cant": "All strings of any length, including an escape character at the end.", "anchors": ["src/hob3l/scad.c: string_unquote"]}
{"id": "C41", "title": "Cut points of a face are sorted along the cut line", "statement": "The cut points of a planar face are ordered along the cut line (the code's comment: by x, then y), so that pairing consecutive points yields exactly the parts of the line inside the face; in any case, every position on the line is covered by an odd number of the resulting lines iff it is inside the face by the even-odd rule.", "quantifier": "all faces, all heights, any conforming qsort", "why_tests_cant": "Concave faces with four or more cut points on lines of every direction; the sort order of ties is implementation defined.", "anchors": ["src/hob3lop/op-slice.c: cq_slice_add_face, vec2_cmp"]}
{"id": "C42", "title": "Generated keyword tables find exactly their keywords", "statement": "For every keyword table without duplicate keys, the generator makes a lookup function that returns the value of a keyword for exactly the keywords of the table, reading neither past the given string nor outside of its tables.", "quantifier": "all keyword tables and all strings", "why_tests_cant": "The tables are generated: a test looks up some words in the three tables of the program, not every word in every table.", "anchors": ["script/mksieve", "src/hob3l/gc-color.sieve", "src/hob3l/scad-cmd.sieve", "src/hob3l/svg-elem.sieve"]}
{"id": "C43", "title": "Character vectors hold terminated strings", "statement": "Every sequence of operations on a character vector (append, push, print, pop, clear, C string) has the effect on the string that it names, leaves the string terminated by a zero byte, and never writes outside of the allocated memory.", "quantifier": "all sequences of operations, all strings", "why_tests_cant": "Reallocation happens at sizes that depend on the whole history, and new memory has arbitrary content.", "anchors": ["src/hob3lbase/vchar.c", "include/hob3lbase/vchar.h"]}
{"id": "C44", "title": "The polygon of a boolean combination has the right inside", "statement": "For the edges of closed polygons that meet at ends only, the reduction pass followed by the construction of paths succeeds, and the paths that it constructs have winding number 1 around each point that is in the boolean combination of the polygons, and 0 around every other point.", "quantifier": "all planar arrangements of edges of any number of closed polygons, all boolean combinations, all points off the vertical lines through vertices", "why_tests_cant": "Tests render a few examples; orientation and nesting of holes, touching corners and coincident edges occur in unboundedly many arrangements.", "anchors": ["src/hob3lop/op-reduce.c: cq_sweep_reduce", "src/hob3lop/op-poly.c: cq_sweep_poly", "src/hob3lop/op-sweep.c: cq_sweep_result_vertex_cmp"]}
{"id": "C45", "title": "The surface written for a layer is closed", "statement": "The triangles that the JavaScript output writes for the top, the bottom and the outline of a layer polygon form a closed surface: every directed edge occurs as often as its reverse, if the triangulation marks as outline all sides that are not shared by two triangles.", "quantifier": "all layer polygons with any triangulation", "why_tests_cant": "Every combination of shared and outline sides matters and the number of triangles is unbounded.", "anchors": ["src/hob3l/csg2-2js.c: poly_put_js, poly_put_js_outline_edge"]}
{"id": "C46", "title": "hull yields the convex hull", "statement": "For every list of at least three points, the two-dimensional hull is a strictly convex polygon whose corners are points of the input, in clockwise order, and every point of the input lies in it.", "quantifier": "all finite lists of points with integer coordinates, with collinear and coincident points, all correct sorting functions", "why_tests_cant": "The scan depends on ties in the order by angle, and on points that are nearly equal; there are unboundedly many arrangements.", "anchors": ["src/hob3l/csg2-hull.c: cp_csg2_hull, pt_y_angle_cmp", "src/hob3l/csg3.c: csg3_from_hull"]}
{"id": "C47", "title": "Circles have each of their points once", "statement": "The loop over the points of a circle with n points visits each index from 0 to n-1 exactly once, with the coordinates of the regular polygon with n corners, and the points k and n-k are exact mirror images.", "quantifier": "all numbers n of points", "why_tests_cant": "The order of the visits depends on the parity of n, and mirroring must hold for every n.", "anchors": ["src/hob3lmat/algo.c: cp_circle_iter_step", "include/hob3lmat/algo.h: cp_circle_each"]}
{"id": "C48", "title": "Sines of special angles are exact", "statement": "A double is recognised as an integer exactly if its value is one, is not 0, and is less than 2^53. The sine and cosine of an angle in degrees are taken from the table exactly if twice the real sine or cosine of that integer is an integer, and are then equal to the real value.", "quantifier": "all 2^64 bit patterns of doubles", "why_tests_cant": "There are 2^64 patterns; the decoding has special cases for subnormal numbers, infinities and large exponents, and angles may be negative or many turns.", "anchors": ["src/hob3lmat/algo.c: split_float, cp_f_get_int, exact_sin, cp_sin_deg, cp_cos_deg"]}
{"id": "C49", "title": "Matrix products, determinants and inverses", "statement": "The product of two matrices transforms as the second matrix followed by the first; the determinant is that of Laplace's expansion and is multiplicative; the inverse is a two-sided inverse exactly unless the determinant is about zero, and then the result is the zero matrix and 0 is returned.", "quantifier": "all matrices of the five kinds (2x2, 2x3, 3x3, 3x4, 4x4), real entries", "why_tests_cant": "The formulas are polynomials in up to 32 variables with index permutations; a wrong index shows only for matrices without symmetry.", "anchors": ["src/hob3lmat/algo.c: cp_mat4_det, cp_mat4_inv, cp_mat3_det, cp_mat3_inv, cp_mat2_det, cp_mat2_inv, cp_mat3w_inv, cp_mat2w_inv", "src/hob3lmat/mat_gen_ext.c: cp_mat*_mul, cp_vec*_xform"]}
{"id": "C50", "title": "Nested transformations act innermost first", "statement": "Below any nest of translate, rotate, mirror, scale and multmatrix, the matrix used for a primitive does to a point what the transformations do one after the other, innermost first; the stored inverse and determinant belong to the matrix; an error is reported exactly if some transformation flattens.", "quantifier": "all lists of transformations with real parameters", "why_tests_cant": "Nests are arbitrarily deep, and parameters are continuous; the inverse is computed by its own formulas along the way.", "anchors": ["src/hob3l/csg3.c: csg3_from_translate, csg3_from_mirror, csg3_from_scale, csg3_from_multmatrix, csg3_from_rotate", "src/hob3lmat/algo.c: cp_dim3_rot_unit, cp_dim3_mirror_unit"]}
{"id": "C51", "title": "The slice of an ellipsoid is its exact ellipse", "statement": "For a sphere under any transformation, the ellipse added to a layer contains exactly the points of the ellipsoid at the height of the layer, and nothing is added only if the plane misses the ellipsoid (up to the tolerance).", "quantifier": "all invertible transformations and all heights", "why_tests_cant": "The plane is rotated in the space of the unit sphere, with tolerances on the way; the failure depends on the size of the sphere and on the rotation together.", "anchors": ["src/hob3l/csg2-layer.c: csg2_add_layer_sphere", "src/hob3lmat/mat_gen_ext.c: cp_mat3wi_rot_into_z", "src/hob3lmat/algo.c: cp_vec3_right_normal3"]}
{"id": "C52", "title": "Single functions of the matrix library", "statement": "Inverting a matrix that carries its inverse exchanges the two and inverts the determinant; rotating a vector into the z direction is a rotation that does so; the check for rotations by multiples of 90 degrees accepts exactly those.", "quantifier": "all matrices and vectors with real entries", "why_tests_cant": "Special directions and short vectors take other branches.", "anchors": ["src/hob3lmat/mat_gen_ext.c: cp_mat3wi_inv, cp_mat3wi_rot_into_z", "src/hob3lmat/algo.c: cp_dim3_rot_unit_into_z", "src/hob3lmat/mat_is_rot.c: cp_mat3_is_rect_rot"]}
{"id": "C53", "title": "The argument of multmatrix", "statement": "The argument is accepted exactly if it is a list of 2 to 4 rows of 3 or 4 numbers whose last row is about that of the unit matrix; what is missing is taken from the unit matrix.", "quantifier": "all values of the syntax tree", "why_tests_cant": "Values nest arbitrarily and rows may have different lengths.", "anchors": ["src/hob3l/scad.c: get_mat4, get_mat3w", "src/hob3lmat/algo.c: cp_mat3w_from_mat4"]}
{"id": "C54", "title": "Snap rounding replaces each edge by a polyline near it", "statement": "In the second phase of the polygon sweep each edge becomes a polyline of hot pixels (ends of edges and rounded crossings) from its left end to its right end; the result consists of exactly the edges of these polylines, merged by xor of the polygons where they coincide; ends of edges remain closed for each polygon; each edge touches the pixels its polyline visits and so moves by at most half a unit; edges of the result meet only at their ends.", "quantifier": "all sets of edges and crossings, all shapes of the trees", "why_tests_cant": "Bundles are split, moved and merged in two passes with different orders; whether an edge is lost or counted twice depends on the arrangement of all edges and on the shape of the trees.", "anchors": ["src/hob3lop/op-sweep.c: sweep_phase2_snap_round, sweep_phase2_pass, bundle_new_from_agenda, agenda_next_event_cmp", "src/hob3lop/op-sweep-internal.h: bundle_split, bundle_edge_new, result_insert"]}
{"id": "C55", "title": "Edges that meet at a point are reversed", "statement": "At a crossing, the loop that exchanges edges from outside to inside ends and reverses exactly the range of edges that meet there, for any number of edges.", "quantifier": "all sequences of edges and ranges in them", "why_tests_cant": "The loop has two exits for even and odd numbers of edges, and a fixed limit for the number of steps that only large numbers of edges reach.", "anchors": ["src/hob3lop/op-sweep.c: sweep_phase2_edge_reverse, ev_clear_and_reverse"]}
{"id": "C56", "title": "Sums kept in the trees of bundles are right", "statement": "In each node of the tree of a bundle, sum_member is the exclusive or of the member masks of the edges in its subtree, after any sequence of insertions, removals, splits, joins and exchanges; so an output edge gets the exclusive or over its whole bundle. The operations do not fail, and they leave other bundles alone.", "quantifier": "all sequences of operations on any number of bundles, all masks", "why_tests_cant": "The sums are updated by callbacks at each rotation and each step up in the balancing; a missing update shows only for certain shapes of the trees and only in the membership of a later output edge.", "anchors": ["src/hob3lbase/dict.c: augment, rb_rotate, _balance_insert, balance_remove, cp_dict_remove_aug, cp_dict_join3_aug, cp_dict_split_aug_", "src/hob3lop/op-sweep.c: cq_sweep_bundle_aug_ev", "src/hob3lop/op-sweep-internal.h: cq_sweep_bundle_update_sum_member_rec, bundle_edge_swap, bundle_edge_insert, bundle_edge_remove, bundle_split, bundle_join"]}
{"id": "C57", "title": "The pointer code of the trees implements the operations", "statement": "On nodes with parent and child pointers, rotation, exchange of two nodes, walking, insertion, removal, extraction, join and split change exactly the pointers that are needed: the memory holds again a tree (or two) whose nodes point to their children and back to their parents, with the expected sequence of nodes, balanced, and with the right root pointer; nodes of other trees are not touched; a removed node is unlinked; no NULL pointer is used and no assertion on pointers fails.", "quantifier": "all memories, all balanced trees in them, all nodes", "why_tests_cant": "A forgotten parent pointer shows only when a later operation climbs through that node, and the special cases (neighbours exchanged, the successor is the right child, the removed node is the root) depend on the shape of the tree.", "anchors": ["src/hob3lbase/dict.c: rb_rotate, cp_dict_collapse_edge, cp_dict_start, cp_dict_root, cp_dict_step, _balance_insert, cp_dict_insert_ref_aug, swap_remove_u, remove_u, balance_remove, cp_dict_remove_aug, cp_dict_swap, cp_dict_swap_update_root, cp_dict_swap_update_root2, cp_dict_join3_aug, cp_dict_join2_aug, cp_dict_split_aug_", "src/hob3lbase/dict.h: cp_dict_extract_start_aug"]}
{"id": "C58", "title": "STL files in text format", "statement": "Reading an STL file in text format, which overwrites the file's content while reading, never accesses memory outside of it and ends; everything that is a text STL file is accepted with exactly its triangles in order, everything that is accepted is one, and what the program writes as text is read back with all triangles.", "quantifier": "all file contents, all dictionaries of points, all written trees", "why_tests_cant": "All byte strings; the reader is in place, so that each token changes the memory that later ones are read from, and two functions skip characters depending on the previous token.", "anchors": ["src/hob3l/stl-parse.c: lex_next, tok_next, tok_next_line, sieve_id, parse_float, parse_facet, parse_solid, parse_text", "src/hob3l/csg2-2stl.c: triangle_put_stl, cp_csg2_tree_put_stl"]}
{"id": "C59", "title": "Each output layer is the cut of the 3D tree at its height", "statement": "Copying the 3D tree into a tree of layer stacks, filling the stacks layer by layer (without slicing what is subtracted from an empty layer) and flattening each layer into the output stack fails no assertion and yields, for each layer, exactly the cut of the 3D tree at the height of this layer, flagged as non-empty exactly if it has a polygon; in whatever order the layers are processed.", "quantifier": "all 3D trees, all numbers and heights of layers, all orders of processing, all limits of simultaneous polygons", "why_tests_cant": "Trees are unbounded and processed in place, layer after layer; the shortcut for differences leaves stacks in a mixed state that later code has to read correctly.", "anchors": ["src/hob3l/csg2-tree.c", "src/hob3l/csg2-layer.c", "src/hob3l/csg2-bool.c", "src/hob3l/main.c"]}
{"id": "C60", "title": "The slow check for intersections is exact", "statement": "For lines of non-zero length in the coordinate range, cq_has_intersect never fails, returns 0 exactly if no two different lines have a common inner point (crossing or overlap; the same line twice, in either direction, does not count), and otherwise returns two such lines and either an exact common inner point or, for overlaps, an end point of one of the lines.", "quantifier": "all lists of lines with coordinates in range", "why_tests_cant": "This function is the oracle of the project's random tests of the sweep; its own correctness is a statement about all pairs of lines, including vertical, parallel and collinear ones at any coordinates.", "anchors": ["src/hob3lop/op-sweep.c", "include/hob3lop/op-sweep.h", "include/hob3lop/matq.h"]}
{"id": "C61", "title": "Path data of SVG files is read as the standard says", "statement": "The path reader accepts exactly the texts of the SVG path grammar (without arcs and signed exponents; with lenient separators), ends for every text, and hands over exactly the points of the subpaths that the commands draw: absolute and relative commands, repeated arguments, implicit lines after a move, smooth curves that mirror the control point, and closing, each point with the number of its subpath and its number in there.", "quantifier": "all texts; all number types and operations; all strtod functions that read the numbers of the grammar; all subdivisions of Bezier curves", "why_tests_cant": "Path data is a compact language without mandatory separators ('1.5.5-3', '1e0z'); which texts are accepted and what they draw depends on unbounded combinations of commands, repetitions and number forms.", "anchors": ["src/hob3l/svg-parse.c"]}
{"id": "C62", "title": "The shapes of an SVG file are drawn where the document says, and only those of the wanted layer", "statement": "All shapes inside the element whose id is the wanted layer (or all, without layer) are drawn, in document order, and no others; each point is mapped by the composition of the transform attributes of all enclosing elements (translate, scale, rotate, skew, matrix; innermost first), view boxes, the reflection of the y axis, and the outer matrix. A view box is mapped to the view as preserveAspectRatio says.", "quantifier": "all element trees, transform lists, layers, matrices, view boxes", "why_tests_cant": "Order of composition and selection of the layer are statements about trees of any depth; wrong orders agree on simple files (pure translations, single level).", "anchors": ["src/hob3l/svg-parse.c", "src/hob3l/svg-elem.sieve", "src/hob3lmat/mat_gen_ext.c"]}
{"id": "C63", "title": "Lengths and transform attributes of SVG files are read as their grammar says", "statement": "A text is accepted as length exactly if it is a number with one of the units in, cm, mm, pt, pc, px, %, or none, with white space around; its value is the number times the size of the unit in px. A transform attribute is read to its end exactly if it is a list of named commands with one to eight numbers in brackets, and exactly these commands are read, in order, with all their numbers; the matrix is then multiplied by their matrices in that order, up to the first command that is not understood. A rectangle has the position and size of its attributes, and radii of at most half its size; attributes that are missing are 0. Reading ends for every text.", "quantifier": "all texts, all perc100 and unit1, every strtod that reads the numbers of the grammar", "why_tests_cant": "Accepting exactly a grammar is a statement about all texts, including those with missing separators, commas at odd places, and characters that may or may not continue a number (1e2pc, 3em).", "anchors": ["src/hob3l/svg-parse.c", "src/hob3l/syn.c"]}
