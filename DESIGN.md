# Formal model of hob3l in Rocq (Coq 8.16.1)

## Layout

* `rocq/theories/X_model.v`   Gallina model of one part of the code. Every definition cites
  file and lines in `/repo` and says what is simplified.
* `rocq/theories/X_spec.v`    specification vocabulary, written without the model.
* `rocq/theories/X_proofs.v`  lemmas.
* `rocq/theories/X_props.v`   the theorems for the properties: statement, `exact lemma`,
  a concrete case (`Example`), and `Print Assumptions`.

Names: `..._refuted` is a machine-checked counterexample to a property as stated
(a bug in the code, reproduced by the model); `..._partial` proves only a part of the
property, and the comment at the theorem says what is missing.

## Conventions of the models

* C integers are `Z` (or `N`/`nat` for sizes). Where the property is about machine
  arithmetic, the range of each intermediate result is tracked: signed overflow, division by zero,
  a failing `assert`, NULL dereference and an access outside of a buffer are distinct outcomes
  (`None` or an error constructor), unsigned wrap-around is written with `mod`.
* Pointers to nodes become indices or identities; heaps are functions or finite maps.
* Floating point computations are not modelled numerically. Where code moves floats around
  (STL, JS), they are opaque values; where it computes with them, the property is stated for
  the combinatorial part only, or over exact rationals / reals as said in the model's comment.
* Loops become structural recursion where possible, else recursion with fuel; running out of fuel
  is an error outcome that theorems exclude.

## Method for each property

| id | files | method |
|----|-------|--------|
| C01-C06 | `Matq_*` | limb algebra, floor division, determinant identities over Z |
| C07 | `Bitmap_*` | bitwise lemmas on words |
| C08 | `Lazy_*` | induction over trees; the plane sweep is a parameter with a specification |
| C09 | `Reduce_*` | sweep line invariant, order of edges at a vertical line |
| C10, C11, C41 | `Slice_*` | parity of sign changes in a cycle, chains mod 2 |
| C12-C14 | `Heap_*` | heap with a hole, histories by induction |
| C15-C18 | `Dict_*` | in-order sequence, colour and height invariants, zipper |
| C19 | `List_*` | rings as cycles of the next function |
| C20 | `Vec_*` | memory as list, ranges of memmove |
| C21 | `Pool_*` | invariant over histories, disjointness |
| C22 | `Utf8_*` | case analysis on bytes |
| C23, C24, C25 | `Stl_*` | cancellation of directed edges; round trip |
| C26, C45 | `Js_*` | batching state machine, decoder, chains |
| C27, C44 | `Poly_*` | invariant of the loop cutting; composition with `Reduce_*` |
| C28 | `Tri_*` | invariant of the ring of vertices, odd chains |
| C29 | `Mesh_spec`, `Tower_*` | cancellation, exact counting, Euler characteristic |
| C30 | `Csg3_*` | denotational semantics |
| C31 | `Bb_*` | containment by induction |
| C32 | `Arg_*` | last matching argument |
| C33 | `Loc_*` | binary search, line table |
| C34, C40, C43 | `Str_*`, `Color_table` | automaton, round trip, histories |
| C35 | `Syn_*` | in-place refinement, grammar (sound, complete, unambiguous), round trip |
| C36 | `Xml_*` | in-place refinement, grammar (sound, complete for the strict part) |
| C37 | `Sweep_*` | coverage mod 2 under split and overlap, runs by induction |
| C38 | `Dedup_*` | find or insert, histories |
| C39 | `Rot_*` | cancellation, volume as polynomial |
| C42 | `Sieve_*` | generated lookup = membership in the table |
| C46 | `Hull_*` | Graham scan invariant, convex combinations as integer weights |
| C47, C48 | `Circle_*` | closed form of the iteration; decoding of doubles; real trigonometry |
| C49, C50, C52, C53 | `Lin_*` | polynomial identities over the reals, induction over nested transformations |
| C51 | `Ball_*` | geometry of the unit sphere over the reals |
| C54, C55 | `Snap_*` | invariant over pixels: routes of edges, xor of their links |
| C56 | `Aug_*` | local equation of the sums, repaired along paths; refinement to `Dict_*`; invariant over executions |
| C57 | `Ptr_*` | heap of nodes with parent and child pointers; representation predicate; refinement to `Dict_*` |
| C58 | `Stltext_*` | reader for text STL on the bytes of the file, which it overwrites; grammar of words and blanks as relation; writer for text |
| C59 | `Layer_*` | relation of 3D trees and trees of stacks; invariant over the layers processed; uses C08 |
| C60 | `Meet_*` | exact rational geometry of two segments; uses C05 |
| C61 | `Svgpath_*` | grammar of path data as relation, both directions by induction; simulation of the pen state by the reader state |
| C62 | `Svgdoc_*` | induction over the element tree, Forall2 with the list of shapes in document order; affine maps over Q |
| C63 | `Svgattr_*` | grammar of lengths and of transform lists, soundness and completeness of the readers, on top of the number lemmas of C61 |

## Trusted base

* Coq's kernel, version 8.16.1, with its virtual machine (`vm_compute` is used for examples and finite case checks).
* Axioms. Every `_props` file ends with `Print Assumptions` for each of its theorems. All theorems are
  "closed under the global context", except `C47_regular`, `C48_sin` and `C48_cos`, which speak of the real
  sine and cosine, and those of `Lin_props.v` and `Ball_props.v` (C49 to C53), whose numbers are real numbers. They use the axioms of the real numbers of the standard library,
  `ClassicalDedekindReals.sig_not_dec`, `ClassicalDedekindReals.sig_forall_dec` and
  `FunctionalExtensionality.functional_extensionality_dep`.
* The correspondence between the C code and the model, which is by reading: each definition cites the lines.
* Functions of the C library are parameters with hypotheses that are visible in the statements or in the
  comments: `qsort_r` (any function that sorts), `calloc` (any fresh block), `strtod` and the `%g` of `printf`
  (opaque functions between texts and values, with the hypotheses in the theorem), `vsnprintf`, `sin`, `cos`.

## What is modelled

Line numbers are in the comments at each definition; this table names the functions.

| code | modelled | not modelled |
|------|----------|--------------|
| hob3lbase/bool-bitmap.c | all | |
| hob3lbase/dict.c, dict.h | insertion, removal, search, iteration, cached extrema, join, split, augmentation callbacks on trees as terms (`Dict_*`, `Aug_*`); the same on a heap of nodes with pointers: rotation, exchange, walking, insertion, removal, join, split (`Ptr_*`) | printing; on the heap: search by key (it only follows child pointers), callbacks, and the assertions on the balance (they only read; they are in `Dict_*`) |
| hob3lbase/heap.c | all | |
| hob3lbase/vec.c, vec.h | growth, insert, copy, remove and the other functions cited; binary search, heap functions | |
| hob3lbase/list.c | all | |
| hob3lbase/pool.c, alloc.h, base-def.h (alignment) | all | |
| hob3lbase/vchar.c, utf8.c | all | locale |
| hob3lbase/alloc.c, obj.c, panic.c, stream.c, qsort.c | | wrappers |
| hob3lmat/algo.c | equality with tolerance, circle iteration, decoding of integers, exact sines; determinants, inverses, rotations, mirroring, normals (`Lin_*`, over the reals) | rounding; conversions between kinds of matrices except the cited ones; `cp_vec2_in_line`, `cp_vec3_in_line`, `cp_vec2_nearest`, `cp_mat3w_xform_into_zx_2` |
| hob3lmat/mat_gen_ext.c, mat_gen_inl.h, mat_is_rot.c | products, transformation of vectors, rotations, translation, scaling, mirroring, units, `cp_mat3_is_rect_rot` | the repetitions of these for the other kinds of matrices |
| hob3lop/matq.c, matq.h | all but conversion to double | |
| hob3lop/op-slice.c, gon.c | all, on integers | conversion of doubles to integers |
| hob3lop/op-sweep.c | first phase: adding, overlap, split, order of runs (`Sweep_*`); second phase, snap rounding (`Snap_*`), with the results of searches in trees as parameter; the sums of members in the trees (`Aug_*`); `cq_has_intersect` (`Meet_*`) | that the trees of the second phase are in the order that searches need; tracing |
| hob3lop/op-sweep-reduce.c, op-poly.c | all | |
| hob3lop/op-trianglify.c | all; theorems are about `flush_triangle_` and its ring | that a whole run consumes everything |
| hob3l/csg2-bool.c | lazy flattening | calls of the sweep (specified) |
| hob3l/csg2-2stl.c, stl-parse.c | writer; reader for binary files, detection of the format (`Stl_*`); reader and writer for text (`Stltext_*`) | strtod, printf; texts and locations of messages |
| hob3l/csg2-2js.c | all but the text of numbers | |
| hob3l/csg2-hull.c | all, on integers | |
| hob3l/csg3.c | conversion of the tree, transformations, bounding box, faces of towers and of rotations | points of spheres, cylinders and extrusions; checks of polyhedra that are input |
| hob3l/scad.c | `get_arg`, unquoting of strings, matrices | the table of modules |
| hob3l/syn.c, syn-2scad.c, syn-msg.c | scanner, parser, printer, locations | include files, texts of errors |
| hob3l/xml-parse.c | all but chomp and the structure check | |
| hob3l/svg-parse.c | numbering of the points of a path; reading path data (numbers, separators, all commands except arcs), with strtod and the inner points of Bezier curves as parameters; choice and placement of shapes (tree, layer, transform commands, view box) over exact rationals; text of transform attributes; lengths with units, position, size and radii of rectangles | arcs, use of lengths in the other shapes, styles, points of rect/circle/ellipse, white space outside of ASCII |
| hob3l/gc.c, gc-color.sieve, script/mksieve | all | |
| hob3l/csg2-tree.c, csg2-layer.c | all (`Layer_*`, slicing of single objects in `Slice_*` and `Ball_*`) | `cp_csg2_layer_thickness` |
| hob3l/main.c | the loop over the layers (`Layer_*`) | options, reading of files, choice of output |
| hob3l/csg2.c, ps.c, csg2-2ps.c, csg2-2scad.c, csg3-2scad.c, scad-2scad.c | single functions as cited | the rest |
| hob3l/iterate.c, csg2-xor.c | | dead code (not built, or disabled) |

## Findings

Statements that are false of the code, each with a machine-checked counterexample in the model:

* `C01_divmodx_refuted`: `cq_divmodx` checks its result in `int`; undefined for larger dividends.
* `C06_any_direction_refuted`: `cq_cmp_edge_rnd` is wrong for an edge given from right to left (no caller does that).
* `C08_no_skip_empty_refuted`: with `--opt-no-skip-empty`, an empty minuend yields the subtrahend.
* `C14_heap_make_refuted`, `C14_vec_heap_make_refuted`: building a heap of n >= 2 elements leaves n + 1 as the size.
* `C56_first_node_refuted`: the callback for an added leaf is not made for the first node of a tree, so a removed node put into an empty tree has a stale sum (the sweep does not do this).
* `insert_update_at_null_refuted` (C15): a cached extremum is stale. `find_root_reference_refuted` (C18).
* `C20_insert_self_refuted`: assertions fail when a vector gets a part of itself.
* `C21_align0_refuted`, `C21_clone_refuted`: alignment 0; `CP_CLONE_ARR_ALLOC` swaps size and count.
* `C22_roundtrip_refuted`, `C22_reject_refuted`, `C22_escape_refuted`: continuation bytes are not masked, overlong sequences accepted, truncated escapes.
* `C25_binary_refuted`: a binary STL whose header starts with `solid` is read as text.
* `C30_assert_refuted`, `C30_empty_refuted`, `C30_hull_refuted`: failing assertion; an empty operand of an intersection is ignored; a transformation of a hull is lost.
* `C31_sphere_refuted`: a later smaller sphere shrinks the bounding box.
* `C32_unknown_refuted`: after an unknown argument name, later arguments are dropped.
* `C33_line_refuted`, `C33_eof_refuted`: wrong line in messages.
* `C34_unknown_refuted`: an unknown colour name dereferences NULL.
* `C35_*_refuted`: modifiers are not printed; groups print as text that is rejected; `#use(1)`, `1.0`, infinities and `include` are not read back; a NUL byte silently ends a file.
* `C36_*_refuted`: unterminated tags and comments hang; `xmlns` without value dereferences NULL; numeric references wrap; a comment before an end tag is rejected.
* `C38_same_point_refuted`: closeness is not transitive, so one point may get two numbers.
* `C41_sorted_refuted`: descending lines are not sorted.
* `C46_hull_refuted`: squared distances are compared with the tolerance for lengths; the hull may lose a corner.
* `C50_zero_axis_refuted`: a rotation around a vector of length zero is not refused; by 90 degrees it moves everything into the origin.
* `C51_big_sphere_refuted`: the normal of the plane is lost for spheres of radius above about 181 that are rotated (a length between the two
  tolerances counts as non-zero in `cp_vec3_unit`, but as zero in `cp_div0`), so that a rotated sphere of radius 300 is cut as an ellipse.
* `C52_inv_refuted`, `C52_into_z_refuted`, `C52_rect_rot_refuted`: `cp_mat3wi_inv` into another structure uses the old determinant of that structure (the only
  caller works in place); `cp_mat3wi_rot_into_z` for (0,0,-1) is a reflection with determinant 1, and flattens for short vectors;
  `cp_mat3_is_rect_rot` (without caller) rejects the unit matrix and accepts the zero matrix.
* `C53_2x2_refuted`: 2x2 matrices are rejected although the message says they are expected; a number as argument fails an assertion (if compiled in).
* `C55_many_edges_refuted`: with assertions compiled in, snap rounding stops if more than 100 edges meet at one point that is not an end of them.
* `C58_unnamed_refuted`, `C58_trailing_refuted`: in a text STL file whose first line is just `solid`, the second line is skipped: a triangle there is lost without a message, and a file with the usual line breaks is rejected; the line after `endsolid` is skipped, whatever it has.
* `C60_junctions_refuted`: `cq_has_intersect` does not find ends of lines on the inside of others, although its description says so.
* `C60_inner_point_refuted`: the point it returns for an overlap need not be on the other line (ends are swapped for the test, but not for the result).
* `C60_zero_length_refuted`: a line of length zero fails an assertion in it.
* `C61_signed_exponent_refuted`: path data with a number like `1e-1` is cut off there, although the comment in the code says such numbers are read (svg-parse.c 918 looks for the sign at the wrong pointer).
* `C61_close_after_move_refuted`: in `M5 5zh1`, closing goes to the start of the subpath before (or 0,0), not to 5,5.
* `C61_stale_control_refuted`: a line of length zero between curves does not reset the control point for a smooth curve.
* `C61_nothing_drawn_refuted`: path data that draws nothing (`d=""`, `d="M1 2"`) fails the assertion in `path_uniquify` (svg-parse.c 311).
* `C62_layer_refuted`: an SVG layer (element with the wanted id) that has no `transform` attribute is not found: `process_std_attr` returns before it looks at the id (svg-parse.c 1454).
* `C62_commands_refuted`, `C62_numbers_refuted`: any non-empty prefix of the name of a transform command is taken as the command (`s(2)` scales), and missing numbers are 0 (`matrix(2)`).
* `C62_view_default_refuted`, `C62_view_none_refuted`, `C62_view_align_refuted`: in `svg_xform` the test for alignment is inverted (line 1029): `none` and the default scale uniformly and shift by -1 times the gap; with an alignment the view box is stretched.
* `C62_view_inverse_refuted`: the inverse matrix stored by `svg_xform` has the wrong sign in its translation (lines 1054, 1055).
* `C63_no_unit_refuted`: the comment of `s_unit_dim` says that a missing unit gives 1.0, i.e., px; it gives the `unit1` of the caller (svg-parse.c 801-850).
* `C63_missing_refuted`: a rectangle (or circle, ellipse) that has `y` (`cy`) but no `x` (`cx`) is drawn at y = 0: `s_attr_coord` does not read the second attribute if the first one is missing (svg-parse.c 1108-1110).

## Seeded changes

`seeded/LOG.jsonl` has one line for each wrong program that was tried. How to read it:

* The tool that produced the lines replaces the proof of each lemma that fails by `Admitted` (in a scratch
  copy) and lists the theorems that depend on one of them, as `Print Assumptions` shows. So
  `theorems_failed` means: the proof of the theorem does not go through for the changed program.
  This is weaker than: the theorem is false of the changed program. An edit may break a proof script
  although the statement still holds, in particular if the edited definition is also used by the statement.
* The lines for `Xml_model.v` are stricter: there, `theorems_failed` has only theorems that a computed
  counterexample falsifies (or that are decided by computation), `proof_scripts_failed` has the others.
  This separation showed three survivors (`expect`, `read_num`, `entity`), which led to the theorem
  `C36_sound`. The other lines have not been audited in this way.
* `note` says whether an edit survived, is equivalent, or could not be checked to the end
  (e.g. because the file ran out of memory under the edit). Until the lines for `Xml_model.v`, the tool dropped
  attempts without any result; those that could be found in saved output have been added at the end.
