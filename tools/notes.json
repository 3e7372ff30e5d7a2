{
"C01": "Exact for every ring, both modes, when the listed intermediate values fit an i64; C01_small_coordinates gives a checkable condition.",
"C02": "Release: congruent modulo 2^64. Debug: exact value or overflow panic, with the exact condition.",
"C03": "REFUTED as stated: the square covering the u32 plane is reported counter-clockwise. Proved for all rings whose doubled area fits an i64.",
"C04": "For every point list and mode, except totals congruent to 2^63 modulo 2^64 (the i64 without a negation).",
"C05": "For every cycle and every rotation.",
"C06": "For every connected edge list; unconditional in release builds.",
"C07": "For every ring.",
"C08": "REFUTED as stated: junction points are repeated. Proved: same points up to repetition, and the exact number of repetitions.",
"C09": "For every list of regions, in both modes, when the build returns. Zero area means zero modulo 2^64, which is zero in the exact range (C09_has_area_exact).",
"C10": "For every list of regions.",
"C11": "For every two directed edges of a built topology that read as a path and its reverse (or the same path twice).",
"C12": "REFUTED as stated: a zero-area loop and its reverse are stored twice. Proved for all loops of non-zero area.",
"C13": "For every list of regions; every slot is characterised exactly.",
"C14": "Both directions, plus: add_region only fails by debug overflow.",
"C15": "For every permutation of the map entries.",
"C61": "For every list of regions with closed rings.",
"C16": "For all masks and points.",
"C17": "For all u32 segments with |dx|*|dy| < 2^63, both modes.",
"C18": "REFUTED as stated: on a segment of extent 3*2^30 the release build is more than 2^30 units off and the debug build panics. Proved: a u32 point of the mask line or a debug overflow panic, exactness under a weaker size condition than C17, and (C18_between_partial) the release point lies between the ends of the segment in every case.",
"C19": "For all edges and masks; C19_returns: release never panics, debug only by overflow.",
"C20": "The output equals the segment-by-segment clip written down independently; up to repetitions it lists the kept parts, which touch or are joined along the mask line.",
"C21": "For all edges and masks.",
"C22": "REFUTED as stated: rounding goes towards the first point, and a point of the line can be listed twice in one direction only. Proved up to repetitions when crossings are computed alike in both directions, in particular for crossings at integer points.",
"C23": "For every topology (rings closed or not), mask and mode.",
"C24": "For every edge of the result, including edges without ring.",
"C25": "The whole result reads back as the clipped topology written down independently; kept means non-zero area modulo 2^64, which is non-zero in the exact range (C25_area).",
"C26": "Two directed edges of the result use the same edge iff they come from the same input edge or close the same gap; directions are kept; gap lines are stored once.",
"C27": "Any returned topology equals the input; release always returns it, debug may only stop by area overflow.",
"C28": "REFUTED as stated: a tip that becomes flat by rounding leaves edges without ring, and a later simplify can panic. Proved when every ring with a visible part is kept.",
"C29": "All outcomes for every topology with u32 coordinates and valid references; release: returns iff no key is used more than twice.",
"C62": "For every permutation of the map entries.",
"C38": "For all edges, thresholds and modes; the end points are kept.",
"C39": "For all closed edges; the ring fix-up picks two points in index order.",
"C40": "Regions, rings and back references are untouched; closed rings stay closed chains of subsequences.",
"C41": "Release always returns (no null or out-of-range access, no endless loop); debug only overflows; the assertions reject exactly short edges.",
"C42": "For edges and whole topologies.",
"C43": "REFUTED as stated: area2 multiplies b.x * a.x instead of subtracting, so a straight-line point can have weight 2 and a proper triangle weight 0. Proved: the exact formula, and when it equals the doubled area.",
"C44": "REFUTED as stated: sift_down compares with heap[start] and heap indices are stale, so later pops need not be minimal and a larger threshold can keep a point a smaller one drops. Proved: the first point popped is one of smallest weight.",
"C63": "Weights as computed by the code; the second half needs the heap minimum.",
"C45": "For every polygon record that fits the format: any coordinate bit pattern, any ring starts, any reader behaviour after a failed read.",
"C46": "Accepted iff the 100 bytes have the given form; each error characterised.",
"C47": "For every list of well-formed records; null-type-free, followed by arbitrary many None.",
"C48": "For every byte string; the record holds its own points, no ring index out of range.",
"C49": "REFUTED as stated: a short record content or ring index panics. Proved: exactly which inputs make new and next panic.",
"C50": "REFUTED as stated: a read error is repeated for ever and a reader may keep returning an error. Proved: the outcomes settle after finitely many calls, and the number of records is bounded by the size of the file.",
"C51": "For every list of descriptors and records; also: every accepted file has this form.",
"C52": "For every byte string accepted by new, truncated or not.",
"C53": "iff, for every field value.",
"C54": "For every field value and every decoder.",
"C55": "iff, for every field list.",
"C56": "REFUTED as stated: header length below 32, fields beyond the record, short Long fields and unsupported field types panic. Proved: these are exactly the panics.",
"C64": "For every Long field of at least four bytes.",
"C65": "For every field list and record.",
"C57": "For every well-formed pair of files, with any bytes after the records.",
"C58": "REFUTED as stated: areas overflow in a release build, so a clockwise ring can become an inner ring; a debug build panics. Proved: nothing is lost; the split is right if no area overflows, and whenever a debug build returns.",
"C59": "f64 arithmetic is Flocq's binary64; uses the axioms of the standard library of reals.",
"C60": "REFUTED for every rectangle that covers its bounding box: a release build takes it for a hole, a debug build panics. Proved: rectangles covering at most 24% survive in a release build.",
"C66": "For any two readers.",
"C67": "For any two byte strings.",
"C68": "Uses the axioms of the standard library of reals.",
"C69": "Uses the axioms of the standard library of reals.",
"C70": "The limit for infinite lengths is sharp. Uses the axioms of the standard library of reals.",
"C30": "For every valid topology (correct references, closed non-empty rings, edges that go somewhere; built topologies of closed rings are valid: built_valid). Stated per region on what is read back from the result; regions without outer rings are left out.",
"C31": "Hypothesis: every ring's doubled area is below 2^63 in absolute value (in release builds the winding is decided by the wrapped sum).",
"C32": "For every valid topology, also when rings are merged. 'Nodes' are the start points of the ring's edges.",
"C33": "Full description of the result: rings without redundant edges in normal form, rings put together from the useful edges of the others, rings of area zero dropped; fewest edges with respect to the regions of the topology that was normalized (see C71 for the result's own regions).",
"C34": "C34_returns characterises exactly when merging returns: no two useful edges leave one point and the useful edges' starts are a permutation of their ends; otherwise one of the two explicit panics.",
"C35": "REFUTED: two C-shaped outer rings around a hole are merged into the outer boundary and, as a second OUTER ring, the counter-clockwise boundary of the hole. Partial: total area is kept if each redundant edge is passed in both directions; without redundant edges all outer rings are clockwise.",
"C36": "REFUTED with two witnesses: two kites of one region touching at a point; an island in a hole that shares an edge with the hole. Partial: returns for valid topologies of bounded size whose segments lie between at most two rings, if the useful edges form disjoint cycles (or there are no redundant edges).",
"C37": "REFUTED: region 1 joins two edges into one where region 2, whose two rings touch in between, keeps two; afterwards no edge is shared. Proved (C37_simple_partial) when no region passes a point twice, has two rings along one edge, or lacks an outer ring, and ring areas fit i64: the regions keep their indices and every adjacency survives. C37_merged_partial also covers regions whose rings are merged, if the merged outline does not touch itself and no segment lies on two edges; then regions are adjacent after normalizing if and only if they were before. Missing: outlines that touch themselves, regions that vanish, mergeable rings with segments on two edges.",
"C71": "REFUTED by the witness of C37: after the first normalization the regions no longer share edges, so the second one joins more. Proved (C71_simple_partial; C71_built_partial for topologies built from rings of points) when no region passes a point twice, has two rings along one edge or lacks an outer ring, no segment lies on two edges, and ring areas can be summed in an i64: the second normalization returns an equal topology. For larger coordinates (C71_overflow_partial) a debug build may overflow instead. C71_merged_partial and C71_built_merged_partial also cover regions whose rings are merged, if the merged outline does not touch itself and its rings wind like the rings they come from; C71_hole_refuted shows that the latter is needed (a hole between two merged rings becomes an outer ring, which the second run reverses). Missing: outlines that touch themselves, regions that vanish, and segments lying on two edges.",
"C72": "For every valid topology; each panic is traced to its cause.",
"C73": "valid = exact references, rings closed, no edge without length.",
"C74": "Both build modes, any order of masks; no assumption that the interpolation does not overflow.",
"C75": "Iff-characterisation of success and errors for all byte lists, and the result for well-formed files.",
"C76": "",
"C77": "The loop of the model has as much fuel as the .shp file has bytes; PFuel is excluded.",
"C78": "For rings of points. After clipping it is false (C28_simplify_refuted).",
"C79": "",
"C80": "Places are rational points, winding numbers by counting crossings of a ray; the four rays are proved equivalent.",
"C81": "Even-odd rule, because normalize turns rings around. Regions left out because no outer ring has an area are not compared.",
"C82": "Exact for both builds. C82_rounding shows that the distance of one unit is needed: crossing points are rounded.",
"C83": "pipeline from input regions to a clipped topology",
"C84": "Writing to the formatter is assumed to succeed.",
"C85": "The texts of io errors, of the decoder and the encoding's name are parameters.",
"C86": "REFUTED: a .dbf file with a date field makes cat-shp panic with unimplemented!(). The partial theorem covers files whose fields are characters, numbers and longs of at least four bytes, inside the record.",
"C87": "Rings may be unclosed or empty; exact_references and edges with length are the only hypotheses.",
"C88": "The command line handling and the path are not part of the model; the bytes of the two files are given.",
"C89": "Paths are Unix paths; the file system is a function from paths to contents.",
"C90": "The crate `encoding` and the standard library are re-implemented from the Encoding Standard and the Unicode standard; see DESIGN.md section 4.",
"C91": "C91_import depends on the four axioms of the real numbers through the quantizer.",
"C92": "REFUTED: C92_open_ascii_refuted reads a non-ASCII text with dbf::open_ascii. C92_open_ascii_partial: ASCII files are read as an ASCII reader reads them.",
"C93": "Theorems about shp-to-geo-data depend on the four axioms of the real numbers through the quantizer.",
"C94": "Weights as the code computes them (see C42 for how they differ from triangle areas). The theorem covers ties, the raised weights of removed points and the repair of small rings.",
"C95": "REFUTED: simplifying [(1,4),(5,6),(6,5),(5,0),(1,2)] with threshold 29 leaves (1,4),(5,0),(1,2), whose middle point has a smaller weight. Heap indices start as 0, so (6,5) is not moved up when its weight falls to 28; the loop stops at (5,0) and (6,5) is dropped afterwards without weighing (5,0) again. Proved for open edges of at most four points; C94 says what holds in general.",
"C96": "The io::Error's own description is a parameter; io::Errors are taken to have no further cause.",
"C97": "The second result can differ from the first in repeated points and in lines that belong to no ring (C97_repeat_case, C97_orphan_case).",
"C98": "REFUTED: an edge of seven distinct points keeps three points at threshold 258 and four at threshold 396 (C98_fewer_refuted): points whose weight fell while the heap lost track of them are dropped at the end of the first run but regain weight in the second. Proved for open edges of at most four points. Proved in general: the removal order is the same and the larger threshold goes on where the smaller one stopped; what is left is then judged by its remaining neighbours.",
"C99": "REFUTED: the result of simplifying [(1,4),(5,6),(6,5),(5,0),(1,2)] by 29 shrinks when simplified again (C99_twice_refuted). Proved: for open edges a second run changes nothing exactly when every interior point of the result reaches the threshold; such rings are left alone, too.",
"C100": "C100_local: one function from regions to shapes describes clipping every selection and order of the regions of a topology that can be clipped (singletons included). C100_together: the converse, up to the assertion on edges of three rings. C100_triple_case shows that this assertion does fail for regions that can be clipped one by one.",
"C101": "C101_edge: equality of results in both modes, overflow panics included. C101_shapes: the shapes of any two clipped topologies that are images of each other, in any modes. C101_returns: the release build returns for the moved topology whenever some build returns for the original. No hypothesis about overflow is needed: a release crossing that is wrong because of overflow moves with the frame (C101_overflow_case). Edges may be stored the other way round in the moved result (C101_case), so the shapes are compared, not the topologies.",
"C102": "C102_order: the list of edges. C102_determined: equality of built topologies with the same shapes (by C09 the shapes are those of the regions). C102_same_paths: regions with the same paths, with equality of panics in release builds.",
"C103": "C103_shapes and C103_parts: shapes and structure for all frames; C103_shift: equality after a shift; C103_returns: termination without panic in release builds. Debug builds may panic by overflow in one frame only. C103_open_case shows that the rings have to be closed.",
"C104": "REFUTED as stated: shifting sideways, mirroring left to right, exchanging the axes or reversing an edge changes which points are kept (the weight contains b.x * a.x). Proved: vertical shifts in both modes with equal panics, turning upside down in release builds, and in debug builds when both runs return.",
"C105": "All operations of the model that can overflow, and both example programs from the command line on.",
"C106": "REFUTED for allocators and collections that leave spare room in the vectors: the pointers into the vectors of regions and edges are taken before into_boxed_slice, which may move them (C106_regions_refuted, C106_edges_refuted). Current standard libraries usually leave no spare room there, but do not promise it. Proved: all pointers are right when boxing moves nothing (C106_build_partial, C106_normalize_partial, C106_clip_partial, C106_follow_partial); ring pointers are right in any case (C106_rings_partial).",
"C107": "Refinement between operations on addresses and operations on indices. livable: no array at the null address, different rings at different addresses.",
"C108": "Each stage commutes with appending bytes to the unread input, or gives an I/O error. Nothing is claimed about what comes after the first I/O error: a failing read may leave bytes behind.",
"C109": "Equality of whole topologies. Only shifts: a reflection changes which point is the smallest, so rings start elsewhere (C109_case).",
"C110": "REFUTED: rings that start at the same point keep their order, and a ring that passes twice through its smallest point keeps one of two starts. C110_rings: the rings and their edges are always the same; C110_unique_partial: the topologies are equal unless there is such a tie.",
"C111": "Both directions of mirroring are covered. The small-area condition is needed because the direction of a ring is decided by a wrapped i64. Whether the second normalization returns is not part of the claim (ties may give other edges, which may coincide).",
"C112": "Twice the area on the kept side, as a fraction, is kept up to the depth of each segment with a rounded crossing; exact if crossings are at integer coordinates. Both sides of a line together make up the ring.",
"C113": "Needs no validity: edges that do not exist are left out on both sides. C113_border is the general law, C113_no_gaps and C113_parity its consequences.",
"C114": "Model of io::Read with pieces, interruptions and device errors (Reader.v), of std read_exact and of BufReader; the byte-list model used elsewhere is shown to be the special case without faults, so the other reader theorems carry over.",
"C115": "C115_rebuild: the same topology in the same mode; C115_more: with further regions; C115_normalized: after normalize; C115_any and C115_returns: any topology without flat rings or edges; C115_whole: built topologies are such.",
"C116": "edges up to one unit on the mask line; exact edges and topologies when the first crossings are integer; no_return is needed (C116_returning)",
"C117": "exact equations for all four operations, panics included",
"C118": "proved when no segment lies on two edges of the topology (C118_built: always so for topologies built from rings of points); C118_needs_separate shows that this is needed",
"C119": "REFUTED: in the witness of C37, a neighbour that keeps two edges where the region has joined them leaves the region with edges that have nothing on the other side, next to each other. Proved (C119_merged_partial) also for regions whose rings are merged, when no region has a useful edge arriving or leaving twice at a point, every region keeps an outer ring, areas fit i64 and no segment lies on two edges. Missing: outlines that touch themselves, regions that vanish, segments on two edges.",
"C120": "proved for building (C120_build) and normalizing (C120_normalize). REFUTED for simplifying: a headland is removed while the lake in it stays; and for clipping: a crossing with the line of the mask that is rounded moves the edge past a point of another edge. Proved: two segments of simplified edges that cross replace stretches that no line separates (C120_simplify_partial); clipping makes no crossings where edges cross the line at integer coordinates (C120_clip_partial). Missing: the general case, which is false.",
"C121": "proved; the bound for clipped edges is reached (C121_clip_case)",
"C122": "proved; C122_boxes gives the simplest case of a separating line, a place outside the bounding box",
"C123": "REFUTED for sifting down over two levels, popping and building the heap: sift_down compares with heap[start] instead of heap[root], and recorded positions start as 0. Proved: sifting up (C123_up_partial), recalculating a weight that gets no larger when positions are recorded (C123_recalculated_partial), sifting down by one level (C123_down_partial). Missing: the rest, which is false. The consequences for results are the subject of C44 and C94-C98.",
"C124": "proved for counting copies of the functions of the model that return and panic like these (C124_same); reading and writing single elements, arithmetic and memory management are not counted",
"C125": "Building and normalizing: proved except for loops without area (C12_closed_canonical_refuted shows that these can be stored twice). REFUTED for simplify (C125_simplify_refuted: two rivers with the same ends become the same line) and for clip (C125_clip_refuted: different ends are rounded to the same point). Proved for simplify: edges that become the same had the same nodes, and what is left of them are common points; for clip: edges stay different if crossings with the mask are exact and edges do not overlap.",
"C126": "Proved for build, normalize and simplify. REFUTED for clip: rounding turns an edge around (C126_clip_refuted), and so do edges that come back to the mask (C126_clip_exact_refuted). C126_clip_partial lists the edges of a clipped topology that keep their direction; missing: the others, for which it is false.",
"C127": "C127_built characterises results in release builds; C127_build holds in both modes, and C127_again gives the converse in debug builds if areas fit.",
"C128": "Both directions. That a result of normalize is not always in normal form is C71_refuted.",
"C129": "REFUTED: a ring may turn around (C129_winding_refuted, where the bug in area2 gives a corner the weight 0) and two edges may become the same (C129_different_refuted). C129_simplify says exactly when the result is normalized: if and only if edges stay different, loops are used in the direction of their area, and rings keep their direction.",
"C130": "REFUTED as far as the end is concerned: bytes of damaged records are not counted, so the reader does not end after the last record (C130_end_refuted: an endless row of read errors) and may return records that lie after the end of the file as declared (C130_beyond_refuted). Proved: every record is answered for by itself and in order, and errors name the record (C130_records_partial); the reader ends exactly if no record is damaged (C130_end_partial). Missing: the end of files with damage, for which it is false. Contents that make the reader panic are in C49.",
"C131": "Which panic occurs may depend on the order; whether one occurs does not.",
"C132": "With a common path the claim fails: a square is normalized to one edge alone and to two edges next to a neighbour.",
"C133": "REFUTED for `NormRing`: `cmp` answers `Equal` for different rings that start at the same point, although `==` tells them apart. The order of such rings in a normalized region is therefore the order in which the input has them. A `ShpPoint` with a NaN does not equal itself; it implements `PartialEq` only, so no law is broken.",
"C134": "proved: C134_edge (segments), C134_ring (areas and places of a ring with its closing lines), C134_map (regions of the two halves, up to rings without area). It strengthens C112_both_sides, whose bound compares with the uncut map.",
"C135": "proved: C135_point, C135_import; C135_three shows that powers of two are needed.",
"C136": "proved: C136_builds (release builds accept both or none), C136_map, C136_normalized, C136_import. The exceptions in C136_normalized are needed: C110_refuted.",
"C137": "proved: C137_point, C137_twice, C137_import.",
"C138": "proved: C138_built (without normalization, the same topology), C138_builds, C138_map, C138_normalized, C138_import. The exceptions in C138_normalized are needed: C110_refuted.",
"C139": "proved: C139_describe, C139_order, C139_units, C139_rings. The exceptions in C139_rings come from C110_refuted."
}
