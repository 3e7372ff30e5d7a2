{
 "claims": [
  {
   "property": "C01",
   "status": "proved",
   "theorems": [
    "C01_area_exact",
    "C01_area_and_winding",
    "C01_small_coordinates"
   ],
   "note": "Exact for every ring, both modes, when the listed intermediate values fit an i64; C01_small_coordinates gives a checkable condition."
  },
  {
   "property": "C02",
   "status": "proved",
   "theorems": [
    "C02_release_modulo",
    "C02_release_exact",
    "C02_debug_signed",
    "C02_debug_ring"
   ],
   "note": "Release: congruent modulo 2^64. Debug: exact value or overflow panic, with the exact condition."
  },
  {
   "property": "C03",
   "status": "partial",
   "theorems": [
    "C03_winding_u32_refuted",
    "C03_winding_u32_partial"
   ],
   "note": "REFUTED as stated: the square covering the u32 plane is reported counter-clockwise. Proved for all rings whose doubled area fits an i64."
  },
  {
   "property": "C04",
   "status": "proved",
   "theorems": [
    "C04_reverse",
    "C04_reverse_signed",
    "C04_release_returns"
   ],
   "note": "For every point list and mode, except totals congruent to 2^63 modulo 2^64 (the i64 without a negation)."
  },
  {
   "property": "C05",
   "status": "proved",
   "theorems": [
    "C05_rotate",
    "C05_rotate_signed",
    "C05_rotate_release"
   ],
   "note": "For every cycle and every rotation."
  },
  {
   "property": "C06",
   "status": "proved",
   "theorems": [
    "C06_edges_points_agree",
    "C06_ring_edges_agree",
    "C06_ring_points_agree",
    "C06_release",
    "C06_signed_sum"
   ],
   "note": "For every connected edge list; unconditional in release builds."
  },
  {
   "property": "C07",
   "status": "proved",
   "theorems": [
    "C07_edges_of_points",
    "C07_edges_of_edges"
   ],
   "note": "For every ring."
  },
  {
   "property": "C08",
   "status": "partial",
   "theorems": [
    "C08_points_refuted",
    "C08_points_partial"
   ],
   "note": "REFUTED as stated: junction points are repeated. Proved: same points up to repetition, and the exact number of repetitions."
  },
  {
   "property": "C09",
   "status": "proved",
   "theorems": [
    "C09_build_reads_back",
    "C09_has_area_exact"
   ],
   "note": "For every list of regions, in both modes, when the build returns. Zero area means zero modulo 2^64, which is zero in the exact range (C09_has_area_exact)."
  },
  {
   "property": "C10",
   "status": "proved",
   "theorems": [
    "C10_stored_once"
   ],
   "note": "For every list of regions."
  },
  {
   "property": "C11",
   "status": "proved",
   "theorems": [
    "C11_shared",
    "C11_shared_same_direction"
   ],
   "note": "For every two directed edges of a built topology that read as a path and its reverse (or the same path twice)."
  },
  {
   "property": "C12",
   "status": "partial",
   "theorems": [
    "C12_closed_canonical_refuted",
    "C12_closed_canonical_partial"
   ],
   "note": "REFUTED as stated: a zero-area loop and its reverse are stored twice. Proved for all loops of non-zero area."
  },
  {
   "property": "C13",
   "status": "proved",
   "theorems": [
    "C13_references"
   ],
   "note": "For every list of regions; every slot is characterised exactly."
  },
  {
   "property": "C14",
   "status": "proved",
   "theorems": [
    "C14_into_topology",
    "C14_build_panics",
    "C14_add_regions"
   ],
   "note": "Both directions, plus: add_region only fails by debug overflow."
  },
  {
   "property": "C15",
   "status": "proved",
   "theorems": [
    "C15_iteration_order"
   ],
   "note": "For every permutation of the map entries."
  },
  {
   "property": "C16",
   "status": "proved",
   "theorems": [
    "C16_test_classifies"
   ],
   "note": "For all masks and points."
  },
  {
   "property": "C17",
   "status": "proved",
   "theorems": [
    "C17_intersect"
   ],
   "note": "For all u32 segments with |dx|*|dy| < 2^63, both modes."
  },
  {
   "property": "C18",
   "status": "partial",
   "theorems": [
    "C18_intersect_refuted",
    "C18_intersect_partial",
    "C18_between_partial"
   ],
   "note": "REFUTED as stated: on a segment of extent 3*2^30 the release build is more than 2^30 units off and the debug build panics. Proved: a u32 point of the mask line or a debug overflow panic, exactness under a weaker size condition than C17, and (C18_between_partial) the release point lies between the ends of the segment in every case."
  },
  {
   "property": "C19",
   "status": "proved",
   "theorems": [
    "C19_points",
    "C19_insideb",
    "C19_returns"
   ],
   "note": "For all edges and masks; C19_returns: release never panics, debug only by overflow."
  },
  {
   "property": "C20",
   "status": "proved",
   "theorems": [
    "C20_path"
   ],
   "note": "The output equals the segment-by-segment clip written down independently; up to repetitions it lists the kept parts, which touch or are joined along the mask line."
  },
  {
   "property": "C21",
   "status": "proved",
   "theorems": [
    "C21_inside_identity",
    "C21_twice"
   ],
   "note": "For all edges and masks."
  },
  {
   "property": "C22",
   "status": "partial",
   "theorems": [
    "C22_reverse_refuted",
    "C22_repetition_refuted",
    "C22_reverse_partial",
    "C22_reverse_exact_partial"
   ],
   "note": "REFUTED as stated: rounding goes towards the first point, and a point of the line can be listed twice in one direction only. Proved up to repetitions when crossings are computed alike in both directions, in particular for crossings at integer points."
  },
  {
   "property": "C23",
   "status": "proved",
   "theorems": [
    "C23_closed"
   ],
   "note": "For every topology (rings closed or not), mask and mode."
  },
  {
   "property": "C24",
   "status": "proved",
   "theorems": [
    "C24_inside"
   ],
   "note": "For every edge of the result, including edges without ring."
  },
  {
   "property": "C25",
   "status": "proved",
   "theorems": [
    "C25_kept",
    "C25_clips_unique",
    "C25_area"
   ],
   "note": "The whole result reads back as the clipped topology written down independently; kept means non-zero area modulo 2^64, which is non-zero in the exact range (C25_area)."
  },
  {
   "property": "C26",
   "status": "proved",
   "theorems": [
    "C26_shared",
    "C26_edges"
   ],
   "note": "Two directed edges of the result use the same edge iff they come from the same input edge or close the same gap; directions are kept; gap lines are stored once."
  },
  {
   "property": "C27",
   "status": "proved",
   "theorems": [
    "C27_identity",
    "C27_returns"
   ],
   "note": "Any returned topology equals the input; release always returns it, debug may only stop by area overflow."
  },
  {
   "property": "C28",
   "status": "partial",
   "theorems": [
    "C28_used_refuted",
    "C28_simplify_refuted",
    "C28_used_partial"
   ],
   "note": "REFUTED as stated: a tip that becomes flat by rounding leaves edges without ring, and a later simplify can panic. Proved when every ring with a visible part is kept."
  },
  {
   "property": "C29",
   "status": "proved",
   "theorems": [
    "C29_outcome",
    "C29_release",
    "C29_references"
   ],
   "note": "All outcomes for every topology with u32 coordinates and valid references; release: returns iff no key is used more than twice."
  },
  {
   "property": "C30",
   "status": "proved",
   "theorems": [
    "C30_rings_kept"
   ],
   "note": "For every valid topology (correct references, closed non-empty rings, edges that go somewhere; built topologies of closed rings are valid: built_valid). Stated per region on what is read back from the result; regions without outer rings are left out."
  },
  {
   "property": "C31",
   "status": "proved",
   "theorems": [
    "C31_winding"
   ],
   "note": "Hypothesis: every ring's doubled area is below 2^63 in absolute value (in release builds the winding is decided by the wrapped sum)."
  },
  {
   "property": "C32",
   "status": "proved",
   "theorems": [
    "C32_starts"
   ],
   "note": "For every valid topology, also when rings are merged. 'Nodes' are the start points of the ring's edges."
  },
  {
   "property": "C33",
   "status": "proved",
   "theorems": [
    "C33_fewest"
   ],
   "note": "Full description of the result: rings without redundant edges in normal form, rings put together from the useful edges of the others, rings of area zero dropped; fewest edges with respect to the regions of the topology that was normalized (see C71 for the result's own regions)."
  },
  {
   "property": "C34",
   "status": "proved",
   "theorems": [
    "C34_merge",
    "C34_returns"
   ],
   "note": "C34_returns characterises exactly when merging returns: no two useful edges leave one point and the useful edges' starts are a permutation of their ends; otherwise one of the two explicit panics."
  },
  {
   "property": "C35",
   "status": "partial",
   "theorems": [
    "C35_refuted",
    "C35_total_area_partial",
    "C35_outer_partial"
   ],
   "note": "REFUTED: two C-shaped outer rings around a hole are merged into the outer boundary and, as a second OUTER ring, the counter-clockwise boundary of the hole. Partial: total area is kept if each redundant edge is passed in both directions; without redundant edges all outer rings are clockwise."
  },
  {
   "property": "C36",
   "status": "partial",
   "theorems": [
    "C36_refuted",
    "C36_returns_partial",
    "C36_followable_partial",
    "C36_plain_partial"
   ],
   "note": "REFUTED with two witnesses: two kites of one region touching at a point; an island in a hole that shares an edge with the hole. Partial: returns for valid topologies of bounded size whose segments lie between at most two rings, if the useful edges form disjoint cycles (or there are no redundant edges)."
  },
  {
   "property": "C37",
   "status": "partial",
   "theorems": [
    "C37_merged_partial",
    "C37_refuted",
    "C37_simple_partial"
   ],
   "note": "REFUTED: region 1 joins two edges into one where region 2, whose two rings touch in between, keeps two; afterwards no edge is shared. Proved (C37_simple_partial) when no region passes a point twice, has two rings along one edge, or lacks an outer ring, and ring areas fit i64: the regions keep their indices and every adjacency survives. C37_merged_partial also covers regions whose rings are merged, if the merged outline does not touch itself and no segment lies on two edges; then regions are adjacent after normalizing if and only if they were before. Missing: outlines that touch themselves, regions that vanish, mergeable rings with segments on two edges."
  },
  {
   "property": "C38",
   "status": "proved",
   "theorems": [
    "C38_subsequence"
   ],
   "note": "For all edges, thresholds and modes; the end points are kept."
  },
  {
   "property": "C39",
   "status": "proved",
   "theorems": [
    "C39_ring"
   ],
   "note": "For all closed edges; the ring fix-up picks two points in index order."
  },
  {
   "property": "C40",
   "status": "proved",
   "theorems": [
    "C40_only_points",
    "C40_rings",
    "C40_references"
   ],
   "note": "Regions, rings and back references are untouched; closed rings stay closed chains of subsequences."
  },
  {
   "property": "C41",
   "status": "proved",
   "theorems": [
    "C41_release",
    "C41_debug",
    "C41_rejects",
    "C41_topology"
   ],
   "note": "Release always returns (no null or out-of-range access, no endless loop); debug only overflows; the assertions reject exactly short edges."
  },
  {
   "property": "C42",
   "status": "proved",
   "theorems": [
    "C42_identity",
    "C42_topology"
   ],
   "note": "For edges and whole topologies."
  },
  {
   "property": "C43",
   "status": "partial",
   "theorems": [
    "C43_weight_refuted",
    "C43_lost_refuted",
    "C43_weight_partial"
   ],
   "note": "REFUTED as stated: area2 multiplies b.x * a.x instead of subtracting, so a straight-line point can have weight 2 and a proper triangle weight 0. Proved: the exact formula, and when it equals the doubled area."
  },
  {
   "property": "C44",
   "status": "partial",
   "theorems": [
    "C44_monotone_refuted",
    "C44_smallest_refuted",
    "C44_first_partial"
   ],
   "note": "REFUTED as stated: sift_down compares with heap[start] and heap indices are stale, so later pops need not be minimal and a larger threshold can keep a point a smaller one drops. Proved: the first point popped is one of smallest weight."
  },
  {
   "property": "C45",
   "status": "proved",
   "theorems": [
    "C45_roundtrip"
   ],
   "note": "For every polygon record that fits the format: any coordinate bit pattern, any ring starts, any reader behaviour after a failed read."
  },
  {
   "property": "C46",
   "status": "proved",
   "theorems": [
    "C46_accept",
    "C46_errors",
    "C46_form",
    "C46_short"
   ],
   "note": "Accepted iff the 100 bytes have the given form; each error characterised."
  },
  {
   "property": "C47",
   "status": "proved",
   "theorems": [
    "C47_file"
   ],
   "note": "For every list of well-formed records; null-type-free, followed by arbitrary many None."
  },
  {
   "property": "C48",
   "status": "proved",
   "theorems": [
    "C48_accept",
    "C48_sizes"
   ],
   "note": "For every byte string; the record holds its own points, no ring index out of range."
  },
  {
   "property": "C49",
   "status": "partial",
   "theorems": [
    "C49_panic_refuted",
    "C49_new_partial",
    "C49_next_partial"
   ],
   "note": "REFUTED as stated: a short record content or ring index panics. Proved: exactly which inputs make new and next panic."
  },
  {
   "property": "C50",
   "status": "partial",
   "theorems": [
    "C50_ends_refuted",
    "C50_settles_partial",
    "C50_records_partial"
   ],
   "note": "REFUTED as stated: a read error is repeated for ever and a reader may keep returning an error. Proved: the outcomes settle after finitely many calls, and the number of records is bounded by the size of the file."
  },
  {
   "property": "C51",
   "status": "proved",
   "theorems": [
    "C51_file",
    "C51_fields",
    "C51_accepted"
   ],
   "note": "For every list of descriptors and records; also: every accepted file has this form."
  },
  {
   "property": "C52",
   "status": "proved",
   "theorems": [
    "C52_items"
   ],
   "note": "For every byte string accepted by new, truncated or not."
  },
  {
   "property": "C53",
   "status": "proved",
   "theorems": [
    "C53_numeric"
   ],
   "note": "iff, for every field value."
  },
  {
   "property": "C54",
   "status": "proved",
   "theorems": [
    "C54_character",
    "C54_form"
   ],
   "note": "For every field value and every decoder."
  },
  {
   "property": "C55",
   "status": "proved",
   "theorems": [
    "C55_found",
    "C55_missing",
    "C55_shapefile"
   ],
   "note": "iff, for every field list."
  },
  {
   "property": "C56",
   "status": "partial",
   "theorems": [
    "C56_panic_refuted",
    "C56_new_partial",
    "C56_read_string_partial",
    "C56_fields_partial"
   ],
   "note": "REFUTED as stated: header length below 32, fields beyond the record, short Long fields and unsupported field types panic. Proved: these are exactly the panics."
  },
  {
   "property": "C57",
   "status": "proved",
   "theorems": [
    "C57_file"
   ],
   "note": "For every well-formed pair of files, with any bytes after the records."
  },
  {
   "property": "C58",
   "status": "partial",
   "theorems": [
    "C58_kept",
    "C58_split_refuted",
    "C58_regions_partial",
    "C58_debug_partial"
   ],
   "note": "REFUTED as stated: areas overflow in a release build, so a clockwise ring can become an inner ring; a debug build panics. Proved: nothing is lost; the split is right if no area overflows, and whenever a debug build returns."
  },
  {
   "property": "C59",
   "status": "proved",
   "theorems": [
    "C59_position",
    "C59_range",
    "C59_borders",
    "C59_monotone"
   ],
   "note": "f64 arithmetic is Flocq's binary64; uses the axioms of the standard library of reals."
  },
  {
   "property": "C60",
   "status": "partial",
   "theorems": [
    "C60_rectangle_refuted",
    "C60_small_partial"
   ],
   "note": "REFUTED for every rectangle that covers its bounding box: a release build takes it for a hole, a debug build panics. Proved: rectangles covering at most 24% survive in a release build."
  },
  {
   "property": "C61",
   "status": "proved",
   "theorems": [
    "C61_closed_rings"
   ],
   "note": "For every list of regions with closed rings."
  },
  {
   "property": "C62",
   "status": "proved",
   "theorems": [
    "C62_iteration_order"
   ],
   "note": "For every permutation of the map entries."
  },
  {
   "property": "C63",
   "status": "proved",
   "theorems": [
    "C63_unchanged",
    "C63_changed"
   ],
   "note": "Weights as computed by the code; the second half needs the heap minimum."
  },
  {
   "property": "C64",
   "status": "proved",
   "theorems": [
    "C64_long",
    "C64_unique"
   ],
   "note": "For every Long field of at least four bytes."
  },
  {
   "property": "C65",
   "status": "proved",
   "theorems": [
    "C65_display",
    "C65_first_error",
    "C65_printed"
   ],
   "note": "For every field list and record."
  },
  {
   "property": "C66",
   "status": "proved",
   "theorems": [
    "C66_join",
    "C66_panic"
   ],
   "note": "For any two readers."
  },
  {
   "property": "C67",
   "status": "proved",
   "theorems": [
    "C67_new",
    "C67_new_error",
    "C67_open_new",
    "C67_missing"
   ],
   "note": "For any two byte strings."
  },
  {
   "property": "C68",
   "status": "proved",
   "theorems": [
    "C68_x",
    "C68_y"
   ],
   "note": "Uses the axioms of the standard library of reals."
  },
  {
   "property": "C69",
   "status": "proved",
   "theorems": [
    "C69_x",
    "C69_y"
   ],
   "note": "Uses the axioms of the standard library of reals."
  },
  {
   "property": "C70",
   "status": "proved",
   "theorems": [
    "C70_flat",
    "C70_infinite"
   ],
   "note": "The limit for infinite lengths is sharp. Uses the axioms of the standard library of reals."
  },
  {
   "property": "C71",
   "status": "partial",
   "theorems": [
    "C71_hole_refuted",
    "C71_merged_partial",
    "C71_built_merged_partial",
    "C71_refuted",
    "C71_simple_partial",
    "C71_overflow_partial",
    "C71_built_partial"
   ],
   "note": "REFUTED by the witness of C37: after the first normalization the regions no longer share edges, so the second one joins more. Proved (C71_simple_partial; C71_built_partial for topologies built from rings of points) when no region passes a point twice, has two rings along one edge or lacks an outer ring, no segment lies on two edges, and ring areas can be summed in an i64: the second normalization returns an equal topology. For larger coordinates (C71_overflow_partial) a debug build may overflow instead. C71_merged_partial and C71_built_merged_partial also cover regions whose rings are merged, if the merged outline does not touch itself and its rings wind like the rings they come from; C71_hole_refuted shows that the latter is needed (a hole between two merged rings becomes an outer ring, which the second run reverses). Missing: outlines that touch themselves, regions that vanish, and segments lying on two edges."
  },
  {
   "property": "C72",
   "status": "proved",
   "theorems": [
    "C72_panics"
   ],
   "note": "For every valid topology; each panic is traced to its cause."
  },
  {
   "property": "C73",
   "status": "proved",
   "theorems": [
    "C73_build",
    "C73_normalize",
    "C73_clip",
    "C73_simplify"
   ],
   "note": "valid = exact references, rings closed, no edge without length."
  },
  {
   "property": "C74",
   "status": "proved",
   "theorems": [
    "C74_masks",
    "C74_rectangle"
   ],
   "note": "Both build modes, any order of masks; no assumption that the interpolation does not overflow."
  },
  {
   "property": "C75",
   "status": "proved",
   "theorems": [
    "C75_ok",
    "C75_err",
    "C75_file",
    "C75_length"
   ],
   "note": "Iff-characterisation of success and errors for all byte lists, and the result for well-formed files."
  },
  {
   "property": "C76",
   "status": "proved",
   "theorems": [
    "C76_counts",
    "C76_uses",
    "C76_unused",
    "C76_built",
    "C76_normalized"
   ],
   "note": ""
  },
  {
   "property": "C77",
   "status": "proved",
   "theorems": [
    "C77_import",
    "C77_cat",
    "C77_show",
    "C77_cat_panic"
   ],
   "note": "The loop of the model has as much fuel as the .shp file has bytes; PFuel is excluded."
  },
  {
   "property": "C78",
   "status": "proved",
   "theorems": [
    "C78_edges",
    "C78_simplify"
   ],
   "note": "For rings of points. After clipping it is false (C28_simplify_refuted)."
  },
  {
   "property": "C79",
   "status": "proved",
   "theorems": [
    "C79_normalize",
    "C79_simplify",
    "C79_clip"
   ],
   "note": ""
  },
  {
   "property": "C80",
   "status": "proved",
   "theorems": [
    "C80_any_ray",
    "C80_far_away",
    "C80_direction",
    "C80_start",
    "C80_build"
   ],
   "note": "Places are rational points, winding numbers by counting crossings of a ray; the four rays are proved equivalent."
  },
  {
   "property": "C81",
   "status": "proved",
   "theorems": [
    "C81_covered",
    "C81_plain"
   ],
   "note": "Even-odd rule, because normalize turns rings around. Regions left out because no outer ring has an area are not compared."
  },
  {
   "property": "C82",
   "status": "proved",
   "theorems": [
    "C82_inside",
    "C82_ring",
    "C82_outside"
   ],
   "note": "Exact for both builds. C82_rounding shows that the distance of one unit is needed: crossing points are rounded."
  },
  {
   "property": "C83",
   "status": "proved",
   "theorems": [
    "C83_pipeline"
   ],
   "note": "pipeline from input regions to a clipped topology"
  },
  {
   "property": "C84",
   "status": "proved",
   "theorems": [
    "C84_number",
    "C84_format",
    "C84_point",
    "C84_edge",
    "C84_ring",
    "C84_region"
   ],
   "note": "Writing to the formatter is assumed to succeed."
  },
  {
   "property": "C85",
   "status": "proved",
   "theorems": [
    "C85_messages",
    "C85_open",
    "C85_read",
    "C85_text"
   ],
   "note": "The texts of io errors, of the decoder and the encoding's name are parameters."
  },
  {
   "property": "C86",
   "status": "partial",
   "theorems": [
    "C86_list_refuted",
    "C86_list_partial",
    "C86_text_partial"
   ],
   "note": "REFUTED: a .dbf file with a date field makes cat-shp panic with unimplemented!(). The partial theorem covers files whose fields are characters, numbers and longs of at least four bytes, inside the record."
  },
  {
   "property": "C87",
   "status": "proved",
   "theorems": [
    "C87_panics",
    "C87_result",
    "C87_built"
   ],
   "note": "Rings may be unclosed or empty; exact_references and edges with length are the only hypotheses."
  },
  {
   "property": "C88",
   "status": "proved",
   "theorems": [
    "C88_text",
    "C88_zero",
    "C88_one",
    "C88_crash",
    "C88_panics",
    "C88_counts",
    "C88_file"
   ],
   "note": "The command line handling and the path are not part of the model; the bytes of the two files are given."
  },
  {
   "property": "C89",
   "status": "proved",
   "theorems": [
    "C89_sibling",
    "C89_plain",
    "C89_shape",
    "C89_idempotent",
    "C89_open",
    "C89_files"
   ],
   "note": "Paths are Unix paths; the file system is a function from paths to contents."
  },
  {
   "property": "C90",
   "status": "proved",
   "theorems": [
    "C90_ascii",
    "C90_utf8",
    "C90_windows1252",
    "C90_agree",
    "C90_openers",
    "C90_table"
   ],
   "note": "The crate `encoding` and the standard library are re-implemented from the Encoding Standard and the Unicode standard; see DESIGN.md section 4."
  },
  {
   "property": "C91",
   "status": "proved",
   "theorems": [
    "C91_open",
    "C91_values",
    "C91_import",
    "C91_listing",
    "C91_windows1252"
   ],
   "note": "C91_import depends on the four axioms of the real numbers through the quantizer."
  },
  {
   "property": "C92",
   "status": "partial",
   "theorems": [
    "C92_open_ascii_refuted",
    "C92_open_ascii_partial",
    "C92_open"
   ],
   "note": "REFUTED: C92_open_ascii_refuted reads a non-ASCII text with dbf::open_ascii. C92_open_ascii_partial: ASCII files are read as an ASCII reader reads them."
  },
  {
   "property": "C93",
   "status": "proved",
   "theorems": [
    "C93_run",
    "C93_usage",
    "C93_panics"
   ],
   "note": "Theorems about shp-to-geo-data depend on the four axioms of the real numbers through the quantizer."
  },
  {
   "property": "C94",
   "status": "proved",
   "theorems": [
    "C94_kept"
   ],
   "note": "Weights as the code computes them (see C42 for how they differ from triangle areas). The theorem covers ties, the raised weights of removed points and the repair of small rings."
  },
  {
   "property": "C95",
   "status": "partial",
   "theorems": [
    "C95_settled_refuted",
    "C95_few_partial"
   ],
   "note": "REFUTED: simplifying [(1,4),(5,6),(6,5),(5,0),(1,2)] with threshold 29 leaves (1,4),(5,0),(1,2), whose middle point has a smaller weight. Heap indices start as 0, so (6,5) is not moved up when its weight falls to 28; the loop stops at (5,0) and (6,5) is dropped afterwards without weighing (5,0) again. Proved for open edges of at most four points; C94 says what holds in general."
  },
  {
   "property": "C96",
   "status": "proved",
   "theorems": [
    "C96_chain",
    "C96_root",
    "C96_description"
   ],
   "note": "The io::Error's own description is a parameter; io::Errors are taken to have no further cause."
  },
  {
   "property": "C97",
   "status": "proved",
   "theorems": [
    "C97_twice",
    "C97_exact"
   ],
   "note": "The second result can differ from the first in repeated points and in lines that belong to no ring (C97_repeat_case, C97_orphan_case)."
  },
  {
   "property": "C98",
   "status": "partial",
   "theorems": [
    "C98_fewer_refuted",
    "C98_few_partial",
    "C98_order_partial"
   ],
   "note": "REFUTED: an edge of seven distinct points keeps three points at threshold 258 and four at threshold 396 (C98_fewer_refuted): points whose weight fell while the heap lost track of them are dropped at the end of the first run but regain weight in the second. Proved for open edges of at most four points. Proved in general: the removal order is the same and the larger threshold goes on where the smaller one stopped; what is left is then judged by its remaining neighbours."
  },
  {
   "property": "C99",
   "status": "partial",
   "theorems": [
    "C99_twice_refuted",
    "C99_iff_partial",
    "C99_settled_partial"
   ],
   "note": "REFUTED: the result of simplifying [(1,4),(5,6),(6,5),(5,0),(1,2)] by 29 shrinks when simplified again (C99_twice_refuted). Proved: for open edges a second run changes nothing exactly when every interior point of the result reaches the threshold; such rings are left alone, too."
  },
  {
   "property": "C100",
   "status": "proved",
   "theorems": [
    "C100_local",
    "C100_together"
   ],
   "note": "C100_local: one function from regions to shapes describes clipping every selection and order of the regions of a topology that can be clipped (singletons included). C100_together: the converse, up to the assertion on edges of three rings. C100_triple_case shows that this assertion does fail for regions that can be clipped one by one."
  },
  {
   "property": "C101",
   "status": "proved",
   "theorems": [
    "C101_edge",
    "C101_shapes",
    "C101_returns"
   ],
   "note": "C101_edge: equality of results in both modes, overflow panics included. C101_shapes: the shapes of any two clipped topologies that are images of each other, in any modes. C101_returns: the release build returns for the moved topology whenever some build returns for the original. No hypothesis about overflow is needed: a release crossing that is wrong because of overflow moves with the frame (C101_overflow_case). Edges may be stored the other way round in the moved result (C101_case), so the shapes are compared, not the topologies."
  },
  {
   "property": "C102",
   "status": "proved",
   "theorems": [
    "C102_order",
    "C102_determined",
    "C102_same_paths"
   ],
   "note": "C102_order: the list of edges. C102_determined: equality of built topologies with the same shapes (by C09 the shapes are those of the regions). C102_same_paths: regions with the same paths, with equality of panics in release builds."
  },
  {
   "property": "C103",
   "status": "proved",
   "theorems": [
    "C103_shapes",
    "C103_parts",
    "C103_shift",
    "C103_returns"
   ],
   "note": "C103_shapes and C103_parts: shapes and structure for all frames; C103_shift: equality after a shift; C103_returns: termination without panic in release builds. Debug builds may panic by overflow in one frame only. C103_open_case shows that the rings have to be closed."
  },
  {
   "property": "C104",
   "status": "partial",
   "theorems": [
    "C104_shift_refuted",
    "C104_mirror_refuted",
    "C104_swap_refuted",
    "C104_reverse_refuted",
    "C104_up_partial",
    "C104_down_partial",
    "C104_down_checked_partial"
   ],
   "note": "REFUTED as stated: shifting sideways, mirroring left to right, exchanging the axes or reversing an edge changes which points are kept (the weight contains b.x * a.x). Proved: vertical shifts in both modes with equal panics, turning upside down in release builds, and in debug builds when both runs return."
  },
  {
   "property": "C105",
   "status": "proved",
   "theorems": [
    "C105_areas",
    "C105_build",
    "C105_normalize",
    "C105_clip",
    "C105_simplify",
    "C105_open",
    "C105_next",
    "C105_programs"
   ],
   "note": "All operations of the model that can overflow, and both example programs from the command line on."
  },
  {
   "property": "C106",
   "status": "partial",
   "theorems": [
    "C106_regions_refuted",
    "C106_edges_refuted",
    "C106_build_partial",
    "C106_normalize_partial",
    "C106_clip_partial",
    "C106_follow_partial",
    "C106_rings_partial"
   ],
   "note": "REFUTED for allocators and collections that leave spare room in the vectors: the pointers into the vectors of regions and edges are taken before into_boxed_slice, which may move them (C106_regions_refuted, C106_edges_refuted). Current standard libraries usually leave no spare room there, but do not promise it. Proved: all pointers are right when boxing moves nothing (C106_build_partial, C106_normalize_partial, C106_clip_partial, C106_follow_partial); ring pointers are right in any case (C106_rings_partial)."
  },
  {
   "property": "C107",
   "status": "proved",
   "theorems": [
    "C107_build",
    "C107_normalize",
    "C107_clip",
    "C107_simplify",
    "C107_run"
   ],
   "note": "Refinement between operations on addresses and operations on indices. livable: no array at the null address, different rings at different addresses."
  },
  {
   "property": "C108",
   "status": "proved",
   "theorems": [
    "C108_shp",
    "C108_dbf",
    "C108_shapefile",
    "C108_regions",
    "C108_cat",
    "C108_program"
   ],
   "note": "Each stage commutes with appending bytes to the unread input, or gives an I/O error. Nothing is claimed about what comes after the first I/O error: a failing read may leave bytes behind."
  },
  {
   "property": "C109",
   "status": "proved",
   "theorems": [
    "C109_release",
    "C109_returned",
    "C109_regions"
   ],
   "note": "Equality of whole topologies. Only shifts: a reflection changes which point is the smallest, so rings start elsewhere (C109_case)."
  },
  {
   "property": "C110",
   "status": "partial",
   "theorems": [
    "C110_rings",
    "C110_unique_partial",
    "C110_refuted"
   ],
   "note": "REFUTED: rings that start at the same point keep their order, and a ring that passes twice through its smallest point keeps one of two starts. C110_rings: the rings and their edges are always the same; C110_unique_partial: the topologies are equal unless there is such a tie."
  },
  {
   "property": "C111",
   "status": "proved",
   "theorems": [
    "C111_frame",
    "C111_regions"
   ],
   "note": "Both directions of mirroring are covered. The small-area condition is needed because the direction of a ring is decided by a wrapped i64. Whether the second normalization returns is not part of the claim (ties may give other edges, which may coincide)."
  },
  {
   "property": "C112",
   "status": "proved",
   "theorems": [
    "C112_halves",
    "C112_one_side",
    "C112_ring",
    "C112_regions",
    "C112_both_sides"
   ],
   "note": "Twice the area on the kept side, as a fraction, is kept up to the depth of each segment with a rounded crossing; exact if crossings are at integer coordinates. Both sides of a line together make up the ring."
  },
  {
   "property": "C113",
   "status": "proved",
   "theorems": [
    "C113_border",
    "C113_no_gaps",
    "C113_parity"
   ],
   "note": "Needs no validity: edges that do not exist are left out on both sides. C113_border is the general law, C113_no_gaps and C113_parity its consequences."
  },
  {
   "property": "C114",
   "status": "proved",
   "theorems": [
    "C114_shp_pieces",
    "C114_dbf_pieces",
    "C114_pieces",
    "C114_buffered",
    "C114_open",
    "C114_shp_bytes",
    "C114_dbf_bytes",
    "C114_bytes",
    "C114_shp_fault",
    "C114_dbf_fault",
    "C114_fault"
   ],
   "note": "Model of io::Read with pieces, interruptions and device errors (Reader.v), of std read_exact and of BufReader; the byte-list model used elsewhere is shown to be the special case without faults, so the other reader theorems carry over."
  },
  {
   "property": "C115",
   "status": "proved",
   "theorems": [
    "C115_rebuild",
    "C115_more",
    "C115_normalized",
    "C115_any",
    "C115_returns",
    "C115_whole"
   ],
   "note": "C115_rebuild: the same topology in the same mode; C115_more: with further regions; C115_normalized: after normalize; C115_any and C115_returns: any topology without flat rings or edges; C115_whole: built topologies are such."
  },
  {
   "property": "C116",
   "status": "proved",
   "theorems": [
    "C116_edge",
    "C116_exact_edge",
    "C116_topology"
   ],
   "note": "edges up to one unit on the mask line; exact edges and topologies when the first crossings are integer; no_return is needed (C116_returning)"
  },
  {
   "property": "C117",
   "status": "proved",
   "theorems": [
    "C117_build",
    "C117_normalize",
    "C117_clip",
    "C117_simplify",
    "C117_alike"
   ],
   "note": "exact equations for all four operations, panics included"
  },
  {
   "property": "C118",
   "status": "proved",
   "theorems": [
    "C118_nothing_redundant",
    "C118_each_once",
    "C118_built"
   ],
   "note": "proved when no segment lies on two edges of the topology (C118_built: always so for topologies built from rings of points); C118_needs_separate shows that this is needed"
  },
  {
   "property": "C119",
   "status": "partial",
   "theorems": [
    "C119_refuted",
    "C119_merged_partial"
   ],
   "note": "REFUTED: in the witness of C37, a neighbour that keeps two edges where the region has joined them leaves the region with edges that have nothing on the other side, next to each other. Proved (C119_merged_partial) also for regions whose rings are merged, when no region has a useful edge arriving or leaving twice at a point, every region keeps an outer ring, areas fit i64 and no segment lies on two edges. Missing: outlines that touch themselves, regions that vanish, segments on two edges."
  },
  {
   "property": "C120",
   "status": "partial",
   "theorems": [
    "C120_build",
    "C120_normalize",
    "C120_simplify_refuted",
    "C120_simplify_partial",
    "C120_clip_refuted",
    "C120_clip_partial"
   ],
   "note": "proved for building (C120_build) and normalizing (C120_normalize). REFUTED for simplifying: a headland is removed while the lake in it stays; and for clipping: a crossing with the line of the mask that is rounded moves the edge past a point of another edge. Proved: two segments of simplified edges that cross replace stretches that no line separates (C120_simplify_partial); clipping makes no crossings where edges cross the line at integer coordinates (C120_clip_partial). Missing: the general case, which is false."
  },
  {
   "property": "C121",
   "status": "proved",
   "theorems": [
    "C121_build",
    "C121_normalize",
    "C121_simplify",
    "C121_clip",
    "C121_clip_edge",
    "C121_uses"
   ],
   "note": "proved; the bound for clipped edges is reached (C121_clip_case)"
  },
  {
   "property": "C122",
   "status": "proved",
   "theorems": [
    "C122_edge",
    "C122_places",
    "C122_any_stretches",
    "C122_boxes"
   ],
   "note": "proved; C122_boxes gives the simplest case of a separating line, a place outside the bounding box"
  },
  {
   "property": "C123",
   "status": "partial",
   "theorems": [
    "C123_up_partial",
    "C123_recalculated_partial",
    "C123_down_partial",
    "C123_down_refuted",
    "C123_pop_refuted",
    "C123_start_refuted"
   ],
   "note": "REFUTED for sifting down over two levels, popping and building the heap: sift_down compares with heap[start] instead of heap[root], and recorded positions start as 0. Proved: sifting up (C123_up_partial), recalculating a weight that gets no larger when positions are recorded (C123_recalculated_partial), sifting down by one level (C123_down_partial). Missing: the rest, which is false. The consequences for results are the subject of C44 and C94-C98."
  },
  {
   "property": "C124",
   "status": "proved",
   "theorems": [
    "C124_same",
    "C124_edge",
    "C124_topology",
    "C124_sift"
   ],
   "note": "proved for counting copies of the functions of the model that return and panic like these (C124_same); reading and writing single elements, arithmetic and memory management are not counted"
  },
  {
   "property": "C125",
   "status": "partial",
   "theorems": [
    "C125_build_partial",
    "C125_normalize_partial",
    "C125_simplify_refuted",
    "C125_simplify_partial",
    "C125_clip_refuted",
    "C125_clip_partial"
   ],
   "note": "Building and normalizing: proved except for loops without area (C12_closed_canonical_refuted shows that these can be stored twice). REFUTED for simplify (C125_simplify_refuted: two rivers with the same ends become the same line) and for clip (C125_clip_refuted: different ends are rounded to the same point). Proved for simplify: edges that become the same had the same nodes, and what is left of them are common points; for clip: edges stay different if crossings with the mask are exact and edges do not overlap."
  },
  {
   "property": "C126",
   "status": "partial",
   "theorems": [
    "C126_build",
    "C126_normalize",
    "C126_simplify",
    "C126_clip_refuted",
    "C126_clip_exact_refuted",
    "C126_clip_partial"
   ],
   "note": "Proved for build, normalize and simplify. REFUTED for clip: rounding turns an edge around (C126_clip_refuted), and so do edges that come back to the mask (C126_clip_exact_refuted). C126_clip_partial lists the edges of a clipped topology that keep their direction; missing: the others, for which it is false."
  },
  {
   "property": "C127",
   "status": "proved",
   "theorems": [
    "C127_built",
    "C127_build",
    "C127_again"
   ],
   "note": "C127_built characterises results in release builds; C127_build holds in both modes, and C127_again gives the converse in debug builds if areas fit."
  },
  {
   "property": "C128",
   "status": "proved",
   "theorems": [
    "C128_normal"
   ],
   "note": "Both directions. That a result of normalize is not always in normal form is C71_refuted."
  },
  {
   "property": "C129",
   "status": "partial",
   "theorems": [
    "C129_simplify",
    "C129_winding_refuted",
    "C129_different_refuted"
   ],
   "note": "REFUTED: a ring may turn around (C129_winding_refuted, where the bug in area2 gives a corner the weight 0) and two edges may become the same (C129_different_refuted). C129_simplify says exactly when the result is normalized: if and only if edges stay different, loops are used in the direction of their area, and rings keep their direction."
  },
  {
   "property": "C130",
   "status": "partial",
   "theorems": [
    "C130_records_partial",
    "C130_end_partial",
    "C130_end_refuted",
    "C130_beyond_refuted"
   ],
   "note": "REFUTED as far as the end is concerned: bytes of damaged records are not counted, so the reader does not end after the last record (C130_end_refuted: an endless row of read errors) and may return records that lie after the end of the file as declared (C130_beyond_refuted). Proved: every record is answered for by itself and in order, and errors name the record (C130_records_partial); the reader ends exactly if no record is damaged (C130_end_partial). Missing: the end of files with damage, for which it is false. Contents that make the reader panic are in C49."
  },
  {
   "property": "C131",
   "status": "proved",
   "theorems": [
    "C131_import",
    "C131_build",
    "C131_clip",
    "C131_normalize",
    "C131_simplify",
    "C131_same",
    "C131_chain"
   ],
   "note": "Which panic occurs may depend on the order; whether one occurs does not."
  },
  {
   "property": "C132",
   "status": "proved",
   "theorems": [
    "C132_build",
    "C132_union",
    "C132_normalize",
    "C132_together",
    "C132_clip",
    "C132_simplify"
   ],
   "note": "With a common path the claim fails: a square is normalized to one edge alone and to two edges next to a neighbour."
  },
  {
   "property": "C133",
   "status": "partial",
   "theorems": [
    "C133_points",
    "C133_hashes",
    "C133_weights",
    "C133_edges",
    "C133_rings_partial",
    "C133_rings_refuted",
    "C133_stable",
    "C133_shp_points"
   ],
   "note": "REFUTED for `NormRing`: `cmp` answers `Equal` for different rings that start at the same point, although `==` tells them apart. The order of such rings in a normalized region is therefore the order in which the input has them. A `ShpPoint` with a NaN does not equal itself; it implements `PartialEq` only, so no law is broken."
  },
  {
   "property": "C134",
   "status": "proved",
   "theorems": [
    "C134_edge",
    "C134_ring",
    "C134_map"
   ],
   "note": "proved: C134_edge (segments), C134_ring (areas and places of a ring with its closing lines), C134_map (regions of the two halves, up to rings without area). It strengthens C112_both_sides, whose bound compares with the uncut map."
  },
  {
   "property": "C135",
   "status": "proved",
   "theorems": [
    "C135_point",
    "C135_import"
   ],
   "note": "proved: C135_point, C135_import; C135_three shows that powers of two are needed."
  },
  {
   "property": "C136",
   "status": "proved",
   "theorems": [
    "C136_builds",
    "C136_map",
    "C136_normalized",
    "C136_import"
   ],
   "note": "proved: C136_builds (release builds accept both or none), C136_map, C136_normalized, C136_import. The exceptions in C136_normalized are needed: C110_refuted."
  },
  {
   "property": "C137",
   "status": "proved",
   "theorems": [
    "C137_point",
    "C137_twice",
    "C137_import"
   ],
   "note": "proved: C137_point, C137_twice, C137_import."
  },
  {
   "property": "C138",
   "status": "proved",
   "theorems": [
    "C138_built",
    "C138_builds",
    "C138_map",
    "C138_normalized",
    "C138_import"
   ],
   "note": "proved: C138_built (without normalization, the same topology), C138_builds, C138_map, C138_normalized, C138_import. The exceptions in C138_normalized are needed: C110_refuted."
  },
  {
   "property": "C139",
   "status": "proved",
   "theorems": [
    "C139_describe",
    "C139_order",
    "C139_units",
    "C139_rings"
   ],
   "note": "proved: C139_describe, C139_order, C139_units, C139_rings. The exceptions in C139_rings come from C110_refuted."
  }
 ]
}