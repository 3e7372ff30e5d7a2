#!/usr/bin/env python3
"""Writes /verif/properties.jsonl. Keeps the property list in one readable place."""
import json, os
P = []
def p(id, title, statement, quantifier, why, anchors):
    P.append(dict(id=id, title=title, statement=statement, quantifier=quantifier,
                  why_tests_cant=why, anchors=anchors))

# ------------------------------------------------------------------ geo
p("C01", "Ring area and winding order are exact when nothing overflows",
  "signed_area2 / Ring::area2_and_winding_order return exactly |2*area| by the shoelace formula and Clockwise iff that sum is >= 0, in debug and in release builds, whenever every intermediate value fits in an i64.",
  "every ring (either representation), every number of points, both overflow modes",
  "unbounded number of points and all u32 coordinates; unit tests only sample",
  ["src/geo/mod.rs: signed_area2, area2_and_winding_order, Ring::area2_and_winding_order"])
p("C02", "Release-mode area is the exact area modulo 2^64",
  "With wrapping arithmetic the signed area returned is congruent to the exact shoelace sum modulo 2^64, so area and winding order are exact as soon as the final exact value fits in i64, however large the intermediate products are. With overflow checks the call either returns that exact value or panics, and it panics exactly when some intermediate value does not fit in i64.",
  "every list of u32 points, both overflow modes",
  "overflow of intermediates depends on the whole input; tests cannot enumerate it",
  ["src/geo/mod.rs: signed_area2"])
p("C03", "Winding order is right for every u32 ring",
  "For every closed ring of u32 points the reported winding order is Clockwise iff the exact signed area is >= 0 (as the documentation says, with no restriction on coordinates).",
  "every closed ring of u32 points",
  "the failure needs coordinates near the top of the u32 range",
  ["src/geo/mod.rs: area2_and_winding_order, Ring::winding_order"])
p("C04", "Reversing a ring keeps its area and flips its winding order",
  "Reversing the point order negates the signed area, keeps area2, and swaps Clockwise / CounterClockwise unless the area is zero.",
  "every point list with in-range sums",
  "all lengths and coordinates",
  ["src/geo/mod.rs: signed_area2, area2_and_winding_order"])
p("C05", "Area and winding order do not depend on where a closed ring starts",
  "Rotating a closed ring (first point = last point) to start at any of its vertices leaves the signed area, area2 and winding order unchanged.",
  "every closed ring, every rotation",
  "all lengths and all rotations",
  ["src/geo/mod.rs: signed_area2"])
p("C06", "Areas are additive over edges",
  "Summing signed_area2 over consecutive edges that meet end to start gives the signed area of the concatenated path, so Ring::Edges and Ring::Points representations of one ring report the same area2 and winding order; the same holds for ring.edges() and ring.points().",
  "every ring, every way to cut it into edges",
  "all cuts of all rings",
  ["src/geo/mod.rs: signed_area2, Ring::edges, Ring::points, Ring::area2_and_winding_order"])
p("C07", "Ring::edges cuts a point ring into its segments and loses nothing",
  "For a Points ring, edges() yields exactly the consecutive pairs of points, in order; each edge starts where the previous one ended and gluing them gives the points back. For an Edges ring, edges() returns the edges themselves.",
  "every ring", "all ring sizes",
  ["src/geo/mod.rs: Ring::edges"])
p("C08", "Ring::points returns each vertex of an edge ring once",
  "For a ring given as edges, points() returns the ring's point path: the glued path with each junction point listed once (what the crate's own, never compiled, test expects).",
  "every ring given as edges", "the unit test module for it is disabled by a typo (cfg(Test)), so nothing checks it",
  ["src/geo/mod.rs: Ring::points"])
# ------------------------------------------------------------------ builder
p("C09", "Building a topology loses no geometry",
  "For every sequence of add_region calls, into_topology returns, in order, one region per added region that has an outer ring of non-zero area, with the same data; its rings are, in order, the non-zero-area rings of the input, and following a ring's directed edges reads back exactly the input ring's edges in order and direction, minus zero-length edges.",
  "every sequence of regions, rings and edges",
  "unbounded histories of add_region and hash-map contents",
  ["src/topology/build.rs: TopologyBuilder::add_region, build_rings, build_ring, build_directed_edge, into_topology"])
p("C10", "A topology stores each path once",
  "No two edges of a built topology have the same points, and the two directions of an open path are stored as one edge: every edge with distinct end points goes from its smaller to its larger end point.",
  "every sequence of add_region calls", "global uniqueness over unbounded histories",
  ["src/topology/build.rs: build_directed_edge", "src/topology/types.rs: TopoEdge"])
p("C11", "Two rings tracing the same path in opposite directions share the edge",
  "Adding an edge and, at any later time, its reverse gives directed edges on the same stored edge with opposite directions: always for open edges, and for closed edges of non-zero area.",
  "every edge and every history between the two additions", "unbounded histories",
  ["src/topology/build.rs: build_directed_edge"])
p("C12", "Closed edges are canonical whatever their area",
  "A closed edge and its reverse are stored as one edge (\"A Topology can only contain a single TopoEdge with the given points\") even when the loop encloses zero area.",
  "every closed edge", "needs a degenerate loop inside a valid ring",
  ["src/topology/build.rs: build_directed_edge", "src/topology/types.rs: TopoEdge"])
p("C13", "Edge-to-ring and ring-to-region back references are exact",
  "After into_topology, every ring points to its own region, and every edge's two slots list exactly the occurrences of that edge in rings, in region order (outer rings before inner rings): slot 0 is the first, slot 1 the second or null. Every edge is used at least once, so slot 0 is never null.",
  "every sequence of add_region calls", "a global invariant over pointer wiring",
  ["src/topology/build.rs: into_topology"])
p("C14", "Building panics exactly when three ring sides share one edge",
  "Absent integer overflow in area computations, into_topology succeeds iff no edge occurs more than twice in the rings of the topology, and otherwise panics on the assertion; it never panics with 'programming error: an Edge is missing'.",
  "every sequence of add_region calls", "panic freedom over unbounded inputs",
  ["src/topology/build.rs: into_topology"])
p("C15", "The built topology does not depend on hash-map iteration order",
  "into_topology returns the same regions and the same edges in the same order for every order in which the HashMap may iterate its entries.",
  "every iteration order of the hash map", "HashMap order is randomised per process; a test sees one order per run",
  ["src/topology/build.rs: into_topology", "src/clip/topology.rs: NewEdgeSet::into_iter"])
# ------------------------------------------------------------------ clip
p("C16", "ClipMask::test classifies every point",
  "test returns OnEdge exactly for points on the mask line, Inside exactly for points strictly on the kept side and Outside exactly for points strictly on the other side.",
  "all four masks, all mask values, all points", "all u32 values",
  ["src/clip/types.rs: ClipMask::test"])
p("C17", "Intersection points lie on the mask line, on the segment, within one unit",
  "When a segment has its ends strictly on opposite sides of the mask line and |dx|*|dy| < 2^63, intersect returns (without panic, in both modes) a point on the mask line whose other coordinate is between the segment's end coordinates, less than one unit from the exact crossing, and rounded towards the first point.",
  "all masks and all segments crossing them", "all u32 coordinates",
  ["src/clip/types.rs: ClipMask::intersect"])
p("C18", "Intersection is right for every u32 segment",
  "For every u32 segment crossing the mask line, intersect returns, in both modes, a point of the mask line less than one unit away from the exact crossing.",
  "all u32 segments", "needs a segment longer than 3.04e9 units in both axes",
  ["src/clip/types.rs: ClipMask::intersect"])
p("C19", "Clipping an edge keeps exactly the inside points and adds only mask-line points",
  "The output of clip_edge contains the strictly-inside input points, all of them and in order, and every other output point lies on the mask line; nothing strictly outside survives. The result is empty iff no input point is strictly inside (or there are fewer than two points), otherwise it has at least two points; it never has more than twice as many points as the input.",
  "every edge, every mask", "unbounded edges and all coordinates",
  ["src/clip/edge.rs: clip_edge"])
p("C20", "Clipping an edge follows the input path",
  "Every consecutive pair of output points is either (the clipped part of) one input segment or a run along the mask line: the output is exactly the per-segment Sutherland-Hodgman clip of the input path.",
  "every edge, every mask", "unbounded paths",
  ["src/clip/edge.rs: clip_edge"])
p("C21", "Clipping leaves an inside edge alone and clipping twice is clipping once",
  "An edge with at least two points, all strictly inside, is returned unchanged. Clipping an already clipped edge again with the same mask only removes consecutive duplicate points, and changes nothing from the second time on.",
  "every edge, every mask", "unbounded paths",
  ["src/clip/edge.rs: clip_edge"])
p("C22", "Clipping commutes with reversing the edge",
  "clip_edge of the reversed edge is the reverse of clip_edge of the edge.",
  "every edge, every mask", "depends on rounding of all crossings",
  ["src/clip/edge.rs: clip_edge", "src/clip/types.rs: ClipMask::intersect"])
p("C23", "Rings of a clipped topology are closed",
  "In the result of clip_topology every ring's directed edges are connected end to start, the last one ends where the first one starts, and the ring is not empty, for every input topology (closed rings or not).",
  "every topology, every mask", "unbounded topologies",
  ["src/clip/topology.rs: Builder::clip_ring, clip_topology"])
p("C24", "Clipped topologies lie inside the mask",
  "Every point of every edge of the result of clip_topology is inside or on the mask line.",
  "every topology, every mask", "unbounded topologies",
  ["src/clip/topology.rs: clip_topology", "src/clip/edge.rs: clip_edge"])
p("C25", "Clipping keeps exactly the regions that still have area, in order",
  "The regions of clip_topology(t, mask) are, in input order and with unchanged data, exactly the regions with at least one outer ring whose clipped area is non-zero; their outer (inner) rings are, in order, exactly the outer (inner) rings with non-zero clipped area.",
  "every topology, every mask", "unbounded topologies",
  ["src/clip/topology.rs: Builder::add_region, clip_rings, clip_ring"])
p("C26", "Clipping keeps shared edges shared",
  "If two rings referred to the same edge before clipping and both survive with a visible part of that edge, they refer to the same edge afterwards, with unchanged directions; gap-closing lines with the same end points are also stored once.",
  "every topology, every mask", "unbounded topologies",
  ["src/clip/topology.rs: Builder::find_old_edge_id, clip_ring, NewEdgeSet::build_directed_edge"])
p("C27", "Clipping with a mask that contains everything strictly is the identity",
  "If every point is strictly inside the mask, every edge has at least two points, and every ring is closed with non-zero area, clip_topology returns the same regions, rings, directed edges and edge points.",
  "every valid topology, every mask", "unbounded topologies",
  ["src/clip/topology.rs: clip_topology"])
p("C28", "Every edge of a clipped topology belongs to a ring",
  "As for built topologies, slot 0 of every edge of clip_topology's result is non-null, so the result may be passed to simplify.",
  "every topology, every mask", "needs a sliver whose clipped area rounds to zero",
  ["src/clip/topology.rs: clip_ring, into_topology", "src/simplify/mod.rs: simplify"])
p("C29", "clip_topology panics exactly when three ring sides share an edge",
  "Absent integer overflow and dangling references, clip_topology returns iff no edge (old or gap-closing) is used more than twice by the surviving rings, and back references of the result are exact as in C13.",
  "every topology, every mask", "panic freedom over unbounded inputs",
  ["src/clip/topology.rs: into_topology"])
# ------------------------------------------------------------------ normalize
p("C30", "Normalizing a ring only rotates and orients it",
  "When no edge of a region is redundant (shared by two rings of that region), each ring of the normalized region is, as a cyclic sequence of points, one of the input rings, possibly reversed; all input rings appear, once each.",
  "every topology with closed rings", "unbounded topologies",
  ["src/normalize.rs: normalize_region_rings, join_related_edges, rotate_edges, rotate_island_edge, wind_edges"])
p("C31", "Normalized rings wind correctly",
  "When no edge of a region is redundant, every outer ring of the normalized region is clockwise and every inner ring counter-clockwise.",
  "every topology with closed rings and in-range areas", "unbounded topologies",
  ["src/normalize.rs: wind_edges, calculate_winding_order_from_edges"])
p("C32", "Normalized rings start at their left/top-most node",
  "The first edge of each normalized ring starts at the smallest of the ring's nodes; a ring made of a single edge starts at its smallest point; rings of a region are sorted by first point.",
  "every topology", "unbounded topologies",
  ["src/normalize.rs: rotate_edges, rotate_island_edge, normalize_region_rings"])
p("C33", "Normalized rings have the fewest edges",
  "No two cyclically consecutive edges of a normalized ring separate the same pair of regions of the topology that was normalized; joined edges keep all points in order, and a region consists of its rings in normal form (rings that share edges merged).",
  "every topology", "unbounded topologies",
  ["src/normalize.rs: join_related_edges"])
p("C34", "Merging uses every useful edge once and no redundant edge",
  "When join_adjacent_rings returns, the rings it returns consist of exactly the non-redundant edges of the rings it was given (each once), and every merged ring is closed. Entirely redundant rings vanish; rings without redundant edges are passed through.",
  "every set of rings", "unbounded ring sets",
  ["src/normalize.rs: join_adjacent_rings"])
p("C35", "Normalized outer rings are clockwise even when rings are merged",
  "'Ring direction: Outer rings are clockwise' holds for every normalized topology.",
  "every valid topology", "needs polygons around a hole",
  ["src/normalize.rs: normalize, join_adjacent_rings"])
p("C36", "normalize does not panic on valid topologies",
  "normalize returns for every topology of closed, non-overlapping, positive-area rings built by TopologyBuilder.",
  "every valid topology", "needs particular contact patterns between rings",
  ["src/normalize.rs: join_adjacent_rings"])
p("C37", "normalize keeps adjacency",
  "If two regions share an edge before normalization they share an edge afterwards.",
  "every valid topology", "needs rings touching at a node",
  ["src/normalize.rs: normalize, join_related_edges"])
# ------------------------------------------------------------------ simplify
p("C38", "Simplification keeps end points and only removes points",
  "The simplified edge is a subsequence of the edge's points, with the same first and last point, for every threshold and both overflow modes (when it returns).",
  "every edge, every threshold", "unbounded edges; the algorithm runs on a hand-written unsafe heap",
  ["src/simplify/simplify_edge.rs: simplify_edge, PointHeap::visvalingam_whyatt"])
p("C39", "A ring stays a ring with at least four points",
  "If an edge is closed, its simplification is closed and has at least four points.",
  "every closed edge, every threshold", "all sizes and thresholds",
  ["src/simplify/simplify_edge.rs: visvalingam_whyatt"])
p("C40", "simplify changes nothing but edge points",
  "simplify keeps regions, data, rings, directed edges, back references and the number and order of edges; each edge's points are replaced by its own simplification, so connected rings stay connected and closed.",
  "every topology, every threshold", "unbounded topologies",
  ["src/simplify/mod.rs: simplify"])
p("C41", "Simplification never crashes in release mode",
  "With wrapping arithmetic, simplify_edge returns for every edge of at least two points (at least four when closed): no out-of-bounds heap access, null dereference or endless loop.",
  "every edge, every threshold", "memory safety of the unsafe heap depends on an invariant over all states",
  ["src/simplify/simplify_edge.rs: PointHeap"])
p("C42", "Threshold zero is the identity",
  "simplify with smallest_area 0 returns every edge unchanged.",
  "every edge", "unbounded edges", ["src/simplify/simplify_edge.rs"])
p("C43", "Point weights are triangle areas",
  "The weight of a point is twice the area of the triangle it forms with its neighbours; a point on the straight line between its neighbours has weight 0 and is removed by every positive threshold.",
  "all triples of points", "all coordinates",
  ["src/simplify/simplify_edge.rs: area2"])
p("C44", "The heap always yields the smallest weight",
  "Each point eliminated has the smallest weight of all remaining points, so points are eliminated in order of importance and simplifying with a larger threshold keeps a subset of the points kept with a smaller one.",
  "all edges and thresholds", "needs a heap at least three levels deep in a particular order",
  ["src/simplify/simplify_edge.rs: sift_down, sift_up, recalculate_point_weight"])
# ------------------------------------------------------------------ shp
p("C45", "Polygon records round-trip",
  "Reading the bytes of a polygon record (record number, parts, points) returns the same record number and the same rings with the same coordinates, for every list of rings of at least four points.",
  "all records that fit the format", "all sizes",
  ["src/read/shapefile/shp.rs: read_polygon_record, parse_polygon_record"])
p("C46", "The .shp header is accepted exactly when it is a version-1000 polygon header",
  "ShpReader::new succeeds iff at least 100 bytes are available, the magic number is 9994, the version 1000 and the shape type 5 (and, with overflow checks, the length field is below 2^31); otherwise it returns the right kind of error.",
  "all byte strings", "all byte strings",
  ["src/read/shapefile/shp.rs: read_shp_header, ShpShapeType::with_u32"])
p("C47", "A well-formed .shp file is read completely and then ends",
  "For every list of records, iterating over the file that encodes them yields exactly these records in order, then None, and None forever after.",
  "all files", "unbounded number of records",
  ["src/read/shapefile/shp.rs: ShpReader::next"])
p("C48", "Accepted records are internally consistent",
  "Whenever parse_polygon_record returns a record, the byte length matches the part and point counts, there is one ring per part, each ring is the slice of points between consecutive part offsets, all rings but the last have at least 3 points and the last at least 4.",
  "all byte strings", "all byte strings",
  ["src/read/shapefile/shp.rs: parse_polygon_record"])
p("C49", "Malformed .shp input gives errors, never a panic",
  "ShpReader::new and next return Err, and do not panic, on every byte string.",
  "all byte strings", "needs a short record",
  ["src/read/shapefile/shp.rs"])
p("C50", "Iterating a .shp file ends",
  "Iterating a ShpReader over any finite input eventually yields None.",
  "all byte strings", "liveness",
  ["src/read/shapefile/shp.rs: ShpReader::next"])
# ------------------------------------------------------------------ dbf
p("C51", "DBF files round-trip",
  "Reading the bytes of a .dbf file made of a header, field descriptors and records yields the field names, types, offsets and lengths and the record bytes; each field of each record reads back its own bytes: fields do not overlap and appear in order after the deletion flag.",
  "all descriptors and records that fit the format", "all sizes",
  ["src/read/shapefile/dbf.rs: read_dbf_header, read_dbf_fields, parse_dbf_field, read_dbf_record, DbfField::read_string"])
p("C52", "A DbfReader yields exactly n_records items",
  "Iterating yields exactly the number of items the header announces, Ok or Err, then None forever, even when the file is truncated; items are Ok exactly while complete records are available.",
  "all byte strings", "unbounded iteration",
  ["src/read/shapefile/dbf.rs: DbfReader::next"])
p("C53", "Numeric fields accept exactly right-justified decimal numbers",
  "Reading a numeric field succeeds iff its bytes are spaces followed by an optional minus sign, digits and optionally a point and digits, and returns exactly the number's characters.",
  "all byte strings", "all byte strings",
  ["src/read/shapefile/dbf.rs: dbf_numeric_to_valid_string"])
p("C54", "Character fields are trimmed of trailing spaces only",
  "The bytes decoded for a character field are the field's bytes without trailing spaces: nothing else is removed, and the result does not end with a space.",
  "all byte strings", "all byte strings",
  ["src/read/shapefile/dbf.rs: trim_end_spaces, DbfField::read_string"])
p("C55", "get_field finds the first field of that name",
  "get_field(name) returns the first field with that name and None iff there is none.",
  "all metas and names", "all field lists",
  ["src/read/shapefile/dbf.rs: DbfReader::get_field"])
p("C56", "Malformed .dbf input gives errors, never a panic",
  "DbfReader::new, next and read_string return Err, and do not panic, on every byte string.",
  "all byte strings", "needs a short header or inconsistent lengths",
  ["src/read/shapefile/dbf.rs"])
# ------------------------------------------------------------------ shapefile
p("C57", "Shapefile records pair the k-th shape with the k-th data record",
  "For well-formed files with n shapes and m data records, iterating yields first the min(n,m) pairs in order, then |n-m| JoinErrors naming the longer file, then None.",
  "all pairs of files", "unbounded files",
  ["src/read/shapefile/shapefile.rs: ShapefileReader::next"])
p("C58", "Regions read from a shapefile keep all rings, split by winding order",
  "Each region produced by ShapefileGeoIterator has the record's data; its outer rings are the quantized clockwise rings and its inner rings the quantized counter-clockwise rings, each in file order, nothing lost.",
  "all records", "all ring lists",
  ["src/read/shapefile/geo.rs: ShapefileGeoIterator::next"])
p("C59", "Quantization maps the bounding box onto the u32 square",
  "For a bounding box with finite non-zero width and height, every point inside it is mapped to u32 coordinates without saturation or wrap-around; the left edge maps to 0, the right edge to 2^32-1, the top to 0 and the bottom to 2^32-1; the mapping is monotone in x and antitone in y.",
  "all f64 boxes and points", "all doubles, with rounding",
  ["src/read/shapefile/geo.rs: ShapefileQuantizer"])
p("C60", "A shape covering its whole bounding box survives import",
  "A shapefile whose single polygon is a clockwise rectangle is imported as one region with one outer ring.",
  "all rectangles", "needs the composition of quantization and area overflow",
  ["src/read/shapefile/geo.rs", "src/geo/mod.rs: signed_area2", "src/topology/build.rs"])
# ------------------------------------------------------------------ added while modelling
p("C61", "Rings of a built topology are closed if the input rings are",
  "No ring of a built topology is empty; if every added ring is closed (its last point is its first, or its edges are connected and end where they start), the directed edges of every ring of the topology are connected end to start and lead back to the first point, although zero-length edges were dropped.",
  "every sequence of add_region calls with closed rings", "unbounded rings and any placement of zero-length edges",
  ["src/topology/build.rs: TopologyBuilder::build_ring, build_directed_edge"])
p("C62", "Clipping does not depend on hash iteration order",
  "The result of clip_topology is the same for every iteration order of the HashMap of gap-closing edges.",
  "every topology, mask and permutation of the map entries", "the order is random per process",
  ["src/clip/topology.rs: NewEdgeSet::into_iter, Builder::into_topology"])
p("C63", "An edge is left alone exactly when no point is below the threshold",
  "If the weight of every interior point (with its original neighbours) reaches the threshold, simplify_edge returns the edge unchanged; if the weight of some interior point of an open edge is below it, at least one point is removed.",
  "every edge, every threshold", "needs the heap's first element to be a minimum for every edge length",
  ["src/simplify/simplify_edge.rs: PointHeap::from, heapify, sift_down, visvalingam_whyatt"])

p("C64", "Long fields read as the decimal numeral of their bytes",
  "Reading a Long field returns the decimal numeral, without leading zeros, of the number its first four bytes encode in little-endian order.",
  "all records and Long fields of at least four bytes", "all 2^32 values",
  ["src/read/shapefile/dbf.rs: DbfField::read_string"])
p("C65", "Displaying a data record joins all its fields",
  "If every field can be read, displaying a record with its fields writes name:value for each field in order, separated by a semicolon and a space; otherwise it fails with the error of the first field that cannot be read. A printed shapefile record consists of this text in braces, or of the error in braces, and of its rings with all their points.",
  "all field lists and records", "all field lists",
  ["src/read/shapefile/dbf.rs: Display for DbfRecord"])
p("C66", "An error in one file does not shift the pairing",
  "Whatever the two files contain, the k-th item of a ShapefileReader is made of the k-th item of the .shp file and the k-th item of the .dbf file: an error in one of them uses up one record of the other. Iterating panics exactly when iterating the .shp file panics.",
  "all pairs of files, all numbers of calls", "needs arbitrary interleavings of errors",
  ["src/read/shapefile/shapefile.rs: ShapefileReader::next"])
p("C67", "Opening a shapefile reports the .shp error first",
  "ShapefileReader::new succeeds iff both readers do; otherwise it reports the error of the .shp file if there is one, else the error of the .dbf file; open gives the same result for the contents of the two files and an I/O error for a missing file.",
  "all byte strings", "all pairs of inputs",
  ["src/read/shapefile/shapefile.rs: ShapefileReader::new, open"])
p("C68", "Points more than a grid cell apart stay apart",
  "Two points of the bounding box whose exact positions differ by at least 1 + 2^-17 cells of the 2^32-1 grid get different coordinates, in the same order.",
  "all f64 boxes and points", "all doubles, with rounding",
  ["src/read/shapefile/geo.rs: ShapefileQuantizer"])
p("C69", "Points outside the bounding box are moved to its border",
  "A point left of the bounding box of the file gets x = 0, a point right of it x = 2^32-1, a point above it y = 0, a point below it y = 2^32-1, however far away it is.",
  "all f64 boxes and points", "all doubles, with overflow to infinity",
  ["src/read/shapefile/geo.rs: ShapefileQuantizer::quantize"])
p("C70", "Degenerate bounding boxes",
  "If the box has no width (height), its points get x = 0 (y = 0); if the width (height) is too large for an f64, every point does.",
  "all f64 boxes and points", "needs NaN and infinity",
  ["src/read/shapefile/geo.rs: ShapefileQuantizer"])

p("C71", "Normalizing twice changes nothing",
  "normalize applied to a normalized topology returns an equal topology.",
  "every valid topology", "needs regions whose rings touch between two shared edges",
  ["src/normalize.rs: normalize, join_related_edges"])
p("C72", "normalize fails only for stated reasons",
  "On a topology with correct references and closed rings, normalize panics only because of arithmetic overflow (debug builds), because a ring has area zero (as an i64) or an edge has more than two users, or because of the explicit panics in join_adjacent_rings, and the latter only if some region has a redundant edge. It never indexes out of bounds, dereferences a null pointer, unwraps None or loops forever.",
  "every valid topology, both overflow modes", "absence of failures for unbounded inputs",
  ["src/normalize.rs: normalize, normalize_region_rings, join_adjacent_rings, calculate_winding_order_from_edges"])
p("C73", "Operations can be chained",
  "The topology built from closed rings is valid (references correct, rings closed, no edge shorter than a segment), and normalize, clip_topology and simplify return valid topologies when given one, so any sequence of these operations keeps topologies valid.",
  "every valid topology, mask and threshold, both overflow modes", "needs every order of operations on every topology",
  ["src/topology/build.rs: TopologyBuilder", "src/normalize.rs: normalize", "src/clip/mod.rs: clip_topology", "src/simplify/mod.rs: simplify"])
p("C74", "Clipping four times clips by a rectangle",
  "After clipping by several masks one after the other, in any order, no point of the result is outside any of the masks; in particular the four masks of a rectangle leave only points of the rectangle, even when the interpolation of crossing points overflows in a release build.",
  "every topology with u32 coordinates, every list of masks, both overflow modes", "crossing points of a later mask must stay inside the earlier ones, for all coordinates",
  ["README.md", "src/clip/mod.rs: clip_topology", "src/clip/types.rs: ClipMask::intersect"])
p("C75", "Importing a shapefile",
  "The import of examples/shp-to-geo-data.rs returns a topology exactly if the files open, the iterator yields only regions and a topology can be built from them; otherwise it reports the first error. For well-formed files of equal length it returns the topology of the records, with their data and quantized rings, unless some segment is used more than twice; files of different length are rejected.",
  "every pair of files; every well-formed pair of files", "end-to-end statement over all files",
  ["examples/shp-to-geo-data.rs: main"])
p("C76", "Printed counts",
  "print_topology_description prints the numbers of regions, outer and inner rings, edges, shared edges, lone edges and points; shared and lone edges add up to all edges, and for built and normalized topologies lone edges plus twice the shared edges are the edges of all rings counted with repetition.",
  "every topology with correct references", "relation between counts for all topologies",
  ["examples/shp-to-geo-data.rs: print_topology_description"])
p("C77", "The example programs end",
  "Importing and listing a shapefile end after at most as many records as the .shp file has bytes, on every input. Import panics only for a record with too few bytes, a segment used more than twice, overflow (debug) or capacity overflow (release). Listing prints a line for every record before the first error, reading panic or record that cannot be shown (one with a field of a type that is not implemented, or outside the record), and then ends with the number of records, the error or that panic.",
  "every pair of byte lists, both overflow modes", "termination and absence of other panics on all inputs",
  ["examples/shp-to-geo-data.rs: main", "examples/cat-shp.rs: main", "src/read/shapefile/shapefile.rs: Display for ShapefileRecord"])
p("C78", "Normalized topologies can be simplified",
  "For a topology built from rings of points, every edge of the normalized topology satisfies simplify's assertions (at least two points; at least four if closed), so simplify of it never panics in a release build, and neither does simplifying the result again.",
  "every list of regions with closed point rings, every threshold", "needs an edge that runs back along itself, which depends on how rings overlap",
  ["src/normalize.rs: normalize", "src/simplify/mod.rs: simplify", "src/simplify/simplify_edge.rs"])
p("C79", "Where points come from",
  "normalize and simplify create no points: every point of the result is a point of the input. Every new point of a clipped topology is on the mask's line, within the bounding box of a segment that crosses the line.",
  "every valid topology; every topology; every topology with u32 coordinates; both overflow modes", "for all inputs, including those where the interpolation overflows",
  ["src/normalize.rs: normalize", "src/simplify/mod.rs: simplify", "src/clip/mod.rs: clip_topology"])
p("C80", "A built region surrounds the same places as its input",
  "The winding number of a closed ring about a place (any rational point off the ring) is the same along each of the four rays, zero for places beyond all points, negated by reversal and independent of the start. In a topology that was built from regions, the outer (inner) rings of each region wind around every place as often as the outer (inner) rings of the input do, not counting rings without area; a region is missing only if none of its outer rings has area.",
  "every list of regions, every rational place, both overflow modes", "infinitely many places for each input",
  ["src/topology/build.rs: TopologyBuilder", "src/geo/mod.rs: Ring"])
p("C81", "Normalization keeps the covered places",
  "For each region that is left after normalize, exactly the same places are covered (even-odd rule over all its rings) before and after, up to rings of the result that were dropped because they have no area. If no two rings of the region share an edge, the region is left and nothing changes at all.",
  "every valid topology, every rational place, both overflow modes", "infinitely many places; needs regions whose outer and inner rings overlap",
  ["src/normalize.rs: normalize, join_adjacent_rings"])
p("C82", "Clipping keeps the covered places inside the mask and covers none outside",
  "Every ring of a clipped topology, with the lines that close it, goes around each place strictly inside the mask exactly as often as the ring it was made from, if the place is on no edge and at least one unit (along the mask line) from the edges that are cut; a region differs only by rings that have no area after clipping. No ring of the result goes around a place strictly outside the mask.",
  "every topology with closed rings and u32 coordinates whose cut segments have a product of extents below 2^63; every mask; every rational place", "infinitely many places; rounding of crossing points for all coordinates",
  ["src/clip/topology.rs: clip_topology, Builder", "src/clip/edge.rs: clip_edge", "src/clip/types.rs: ClipMask::intersect"])
p("C83", "Building, normalizing and clipping keep the covered places",
  "If a topology is built from regions, normalized and clipped, then each region of the result carries the data of one input region, in order, and covers the places strictly inside the mask that this input region covers, if they are on no input segment and at least one unit (along the mask line) from the input segments that are cut; exceptions are input rings without area and rings that had no area after normalizing or clipping.",
  "every list of regions with closed rings of u32 points whose segments have a product of extents below 2^63; every mask; every rational place", "infinitely many places; three operations in a row",
  ["src/topology/build.rs: TopologyBuilder", "src/normalize.rs: normalize", "src/clip/topology.rs: clip_topology"])
p("C84", "Printed geometry can be read back",
  "The text printed for a point, an edge, a ring or a region determines it: two of them are printed alike only if they are equal, except that an empty ring of points and an empty ring of edges look alike and that the data of a region are not shown. A point is printed as (x,y), an edge as Edge(points), rings and regions as bracketed lists, outer rings first. Numbers are printed as decimal numerals without leading zeros.",
  "all points, edges, rings and regions with u32 coordinates", "injectivity over all values; a test compares a few outputs",
  ["src/geo/mod.rs: Display for Point", "src/geo/mod.rs: Display for Edge", "src/geo/mod.rs: Display for Ring", "src/geo/mod.rs: Display for DisplayRings", "src/geo/mod.rs: Display for Region"])
p("C85", "Error messages tell errors apart",
  "Two errors of the shapefile reader whose messages are this crate's own (not of the operating system or the text decoder) and equal are the same error with the same values. The values in the errors that opening and reading any files produce are in the range of usize.",
  "all errors; all byte lists and all behaviours of failing reads", "pairs of errors, for all values in them",
  ["src/read/shapefile/shp.rs: Display for ShpError", "src/read/shapefile/dbf.rs: Display for DbfError", "src/read/shapefile/shapefile.rs: Display for ShapefileError"])
p("C86", "cat-shp lists every well-formed shapefile",
  "For every well-formed pair of files, cat-shp prints a line for every record and the number of records, and exits with 0; if the files have different lengths, it prints the records that have a partner and exits with 1 and the error. (False for .dbf files with fields of other types than character, number and long: a date field makes the program panic at the first record.)",
  "all well-formed .shp and .dbf contents, both overflow modes", "files of any length and with any fields",
  ["examples/cat-shp.rs: main", "src/read/shapefile/shapefile.rs: Display for ShapefileRecord", "src/read/shapefile/dbf.rs: Display for DbfRecord", "src/read/shapefile/dbf.rs: read_string"])
p("C87", "Normalizing unclosed rings is safe",
  "Normalizing a topology whose references are correct and whose edges go somewhere, but whose rings may be unclosed, never reads out of bounds, never runs forever and never meets a null reference: it returns, or fails an assertion, or panics with its own message that an edge cannot be followed, or overflows in a debug build. If it returns, the result is again such a topology, every point in it is a point of the input, and it has no more regions. Every topology of the builder is of this kind, whatever its regions.",
  "for every topology with correct references whose edges have length, in debug and release builds; for every list of regions",
  "Tests use closed rings. A shapefile can contain unclosed rings, and the reader does not reject them.",
  ["src/normalize.rs: normalize", "src/normalize.rs: rotate_edges", "src/topology/build.rs: into_topology"])
p("C88", "shp-to-geo-data ends in one of the known ways",
  "The example program exits with code 0 exactly if the import, the normalization and the clipping all return; it has then printed the number of regions and, for each of the three topologies, a title and seven counts. It exits with code 1 exactly if the import fails with an error; it then prints nothing to the standard output and one message to the standard error stream. Otherwise it panics after printing the results of the completed steps, and only by an index out of bounds while parsing a record, a failed assertion, the message of an edge that cannot be followed, an overflow in a debug build, or an impossible allocation in a release build. With exit code 0 the printed numbers of regions do not increase from reading to building, normalizing and clipping, and no vertex is left west of the mask.",
  "for all contents of the two files, including absent ones, all encodings, debug and release builds",
  "There are no tests of the examples, and arbitrary files cannot be enumerated.",
  ["examples/shp-to-geo-data.rs: main", "examples/shp-to-geo-data.rs: print_topology_description", "src/normalize.rs: normalize", "src/clip/topology.rs: clip_topology"])
p("C89", "The .dbf file is the .shp file's neighbour",
  "Opening a shapefile by the path of its .shp file reads that file and the file whose path is the same with everything from the last dot of the file name on replaced by \".dbf\" (a name without a dot, or with a dot only at its start, gets \".dbf\" at its end); it depends on no other file. Every path is mapped to itself (if it has no file name) or to a .dbf path in the same directory, and doing this twice is the same as doing it once. The extension is always lower-case.",
  "all paths as byte strings, all file systems, all encodings", "paths are unbounded strings with many special cases (dots in directories, several dots, hidden files, trailing slashes)",
  ["src/read/shapefile/shapefile.rs: open"])
p("C90", "The decoders decode what they should",
  "The ASCII decoder accepts exactly the strings of bytes below 128 and returns them. The UTF-8 decoder accepts exactly the encodings of sequences of Unicode scalar values (shortest forms, no surrogates) and returns the sequence. The windows-1252 decoder accepts everything, returns one character per byte, and loses nothing: different bytes give different texts. On what the ASCII decoder accepts all three agree. A reader opened by open_ascii, open_utf8 or open_windows1252 decodes the texts of its records accordingly, and reports an error exactly for the texts that are not valid in that encoding.",
  "all byte strings", "all byte strings, accepted and rejected ones",
  ["src/read/shapefile/mod.rs: open_ascii", "src/read/shapefile/mod.rs: open_utf8", "src/read/shapefile/mod.rs: open_windows1252"])
p("C91", "The encoding only matters for names and texts",
  "If one decoder accepts less than another but agrees with it otherwise (as ASCII compared with UTF-8 or windows-1252), then files that open with the first open with the second, with the same errors and panics otherwise and the same records; values of fields are the same unless the first decoder rejects a text; shp-to-geo-data does the same, and cat-shp does if no text is rejected. With windows-1252 no name and no text is ever rejected.",
  "all pairs of decoders, all files, all field types, debug and release builds", "relates runs with different encodings on all files",
  ["src/read/shapefile/shapefile.rs: open", "src/read/shapefile/dbf.rs: read_string", "src/read/shapefile/dbf.rs: parse_dbf_field", "src/read/shapefile/mod.rs: open_windows1252", "examples/shp-to-geo-data.rs: main", "examples/cat-shp.rs: main"])
p("C92", "dbf::open_ascii reads ASCII files only",
  "dbf::open_ascii behaves as shapefile::open_ascii does: texts that are not ASCII are rejected. (False: the label \"ascii\" stands for windows-1252, so such texts are accepted and decoded as windows-1252. True: what an ASCII reader accepts is read with the same names and values.)",
  "all .dbf files", "the test file is ASCII, for which both encodings agree",
  ["src/read/shapefile/dbf.rs: open_ascii", "src/read/shapefile/mod.rs: open_ascii"])
p("C93", "The command line of the example programs",
  "With a program name and one argument, both UTF-8, shp-to-geo-data and cat-shp process the files of that path in windows-1252. With a UTF-8 program name and any other number of arguments they print only a usage line with the program name to the standard error stream and exit with 1. The panics are those of processing the files and, before anything is printed, one for a missing program name or an argument that is not UTF-8.",
  "all argument lists, all file systems, debug and release builds", "there are no tests of the examples; arguments are arbitrary byte strings",
  ["examples/shp-to-geo-data.rs: main", "examples/cat-shp.rs: main"])
p("C94", "What decides which points simplification keeps",
  "When simplify_edge succeeds there is a final weight for every point such that (a) each interior point's weight is that of the triangle it forms with one earlier and one later point of the edge, all other points between those two being below the threshold, (b) only points below the threshold may have had their weight raised above that triangle's weight, (c) the result is exactly the points whose weight reaches the threshold, except that (d) a closed edge of which fewer than four points reach it becomes its end points plus two interior points that no other interior point outweighs, in their original order.",
  "for all edges, thresholds and arithmetic modes for which simplify_edge returns",
  "The claim describes the state after an unbounded sequence of removals and recalculations; example edges exercise only a few orders of removal, and the order depends on ties and on the heap's layout.",
  ["src/simplify/simplify_edge.rs: visvalingam_whyatt", "src/simplify/simplify_edge.rs: recalculate_point_weight", "src/simplify/simplify_edge.rs: pop", "src/simplify/simplify_edge.rs: simplify_edge"])
p("C95", "No unimportant point survives simplification",
  "In the result of simplifying an open edge, every interior point has, together with its two neighbours in the result, a weight that reaches the threshold.",
  "for all open edges, thresholds and arithmetic modes for which simplify_edge returns",
  "It fails only for particular orders of weights in heaps of three or more points, where the loop stops early and a point is dropped without weighing its neighbours again.",
  ["src/simplify/simplify_edge.rs: visvalingam_whyatt", "src/simplify/simplify_edge.rs: sift_down", "src/simplify/simplify_edge.rs: simplify_edge"])
p("C96", "The causes of an error agree with it",
  "Following cause() from any error of the reader ends after at most two steps; all errors on the way are displayed alike and have the same description(). The last one is the operating system's error exactly if the error is a failed read or a file that cannot be opened; otherwise its text is \"Parse error: \" followed by its description. Two errors of this crate (not of the decoder) with the same description are equal.",
  "for all errors of the .shp, .dbf and shapefile readers, whatever the texts of the operating system and the decoder are",
  "There are 18 kinds of errors with arbitrary numbers in them, and no test looks at cause() or description().",
  ["src/read/shapefile/shp.rs: ShpError", "src/read/shapefile/dbf.rs: DbfError", "src/read/shapefile/shapefile.rs: ShapefileError"])
p("C97", "Clipping a clipped topology by the same mask",
  "If clip_topology returns a topology, clipping that topology again by the same mask does not panic, and every region has the same data and the same rings, made of the same lines, up to points repeated in a row; if the first result has no such repeats the shapes are equal. A third clip returns exactly what the second returned.",
  "every topology (well formed or not), every mask, debug and release builds", "rounded crossings, new closing lines and dropped rings interact over unbounded topologies",
  ["src/clip/topology.rs: clip_topology", "src/clip/edge.rs: clip_edge"])
p("C98", "A larger threshold keeps no more points",
  "Simplifying an edge by a larger threshold keeps no more points than by a smaller one: both thresholds remove points in the same order, the larger one going further.",
  "every edge, every pair of thresholds, debug and release builds", "elimination order depends on all weights; effects appear only on particular edges",
  ["src/simplify/simplify_edge.rs: simplify_edge, visvalingam_whyatt"])
p("C99", "Simplifying twice by the same threshold is simplifying once",
  "Simplifying the result of simplify_edge again by the same threshold returns it unchanged.",
  "every edge, every threshold", "depends on leftovers of the elimination order over unbounded edges",
  ["src/simplify/simplify_edge.rs: simplify_edge, visvalingam_whyatt"])
p("C100", "Regions are clipped independently of each other",
 "If a topology can be clipped, then so can any selection of its regions, in any order, with the same edges; the shapes that result are those of the selected regions one after the other, and the shapes a region contributes are the same for all selections. If each region of a topology can be clipped, then clipping all of them returns or panics with the assertion that an edge belongs to at most two rings.",
 "all topologies, masks and overflow modes; all selections and orders of regions",
 "tests clip a fixed topology as a whole and never compare it with clipping some of its regions",
  ["src/clip/topology.rs: add_region", "src/clip/topology.rs: clip_topology"])
p("C101", "Clipping does not depend on the frame of reference",
 "Swap x and y, reflect and shift a topology and a mask together, so that all coordinates stay in range: then each edge is clipped to the moved clipped edge, panics included, and the clipped topology has the moved shapes of the clipped original; the release build returns for both or for neither. So MinX, MaxX, MinY and MaxY treat mirror images alike, and rounding of crossing points has no preferred direction, even when a product overflows.",
 "all topologies, masks, overflow modes and frames that keep the coordinates of mask and edges in u32 range",
 "tests of the four masks use a few separate examples; an asymmetric rounding or a swapped coordinate in one of four match arms shows only for some slopes",
 ["src/clip/types.rs: ClipMask::intersect", "src/clip/types.rs: ClipMask::test", "src/clip/edge.rs", "src/clip/topology.rs: clip_topology"])
p("C102", "A topology is determined by the shapes it is built from",
 "The edges of a built topology are the distinct paths of the regions, in the order of their first use (region by region, outer rings before inner rings). Two built topologies with the same shapes are equal, edge numbers, directions and references included; so it does not matter whether rings are given by points or by edges, or where there are edges without length, dropped rings or dropped regions.",
 "all lists of regions, both overflow modes",
 "tests compare a few topologies with expected ones; numbering and directions could depend on anything, such as the iteration order of the HashMap",
 ["src/topology/build.rs: TopologyBuilder", "src/topology/build.rs: build_directed_edge", "src/topology/build.rs: into_topology"])
p("C103", "Building a topology does not depend on the frame of reference",
 "Swap x and y, reflect and shift closed regions: then the topology built from them has the moved shapes; its edges have the same numbers, users and, up to direction, the moved points. After a shift the topology is the moved one. The release build returns for both or for neither.",
 "all lists of closed regions, frames and overflow modes",
 "tests build a few topologies at fixed places; an orientation or area test that is wrong in one quadrant or for one orientation shows only elsewhere",
 ["src/topology/build.rs: TopologyBuilder", "src/topology/build.rs: build_directed_edge", "src/geo/mod.rs: area2"])
p("C104", "Simplification does not depend on the frame of reference",
  "Moving the whole map (shifting it, exchanging the axes, or reflecting it) and then simplifying keeps exactly the moved versions of the points that simplifying first would keep, and the direction in which an edge is stored does not matter.",
  "for all topologies (any regions and edges), thresholds, frames of reference and both build modes",
  "Tests use one place on the map; which points stay changes with the distance from the left margin, because the weight multiplies two x coordinates instead of subtracting them.",
  ["src/simplify/mod.rs: simplify", "src/simplify/simplify_edge.rs: area2, simplify_edge, visvalingam_whyatt"])
p("C105", "Overflow checks only turn answers into panics",
  "For every operation (areas and winding orders, building, normalizing, clipping and simplifying topologies, opening and reading shapefiles) the build with overflow checks gives exactly the answer or panic of the build without them, or it panics with an overflow. The example programs print the same lines up to such a panic and otherwise end alike.",
  "for all inputs of the operations: rings, regions, topologies, masks, thresholds, file contents, decoders and command lines",
  "Running both builds on some inputs cannot show that no input makes them return different answers.",
  ["src/geo/mod.rs: area2_and_winding_order", "src/topology/build.rs: add_region, into_topology", "src/normalize.rs: normalize", "src/clip/topology.rs: clip_topology", "src/simplify/mod.rs: simplify", "src/read/shapefile/shapefile.rs: open", "examples/shp-to-geo-data.rs: main", "examples/cat-shp.rs: main"])
p("C106", "Pointers lead to the parts of the returned topology",
  "In a topology returned by building, normalizing or clipping, the edge pointer of every directed edge, the region pointer of every ring and the ring pointers of every edge are the addresses of edges, regions and rings of that topology, and following one gives the part it should lead to.",
  "for all regions or topologies given to the operation, all masks, all sizes of the types and everything the allocator may do",
  "Whether boxing a vector moves it depends on the allocator and the standard library; a dangling pointer usually still reads the old contents.",
  ["src/topology/build.rs: into_topology, build_ring_to_topo_ring_with_null_ptrs", "src/clip/topology.rs: into_topology, build_ring_to_topo_ring_with_null_ptrs", "src/normalize.rs: normalize, with_directed_edge", "src/topology/types.rs: TopoRing, TopoEdge, DirectedEdge"])
p("C107", "Results do not depend on where things lie in memory",
  "As long as the vector of edges stays where it is when it is boxed, building, normalizing, clipping and simplifying give the same topology or panic whatever addresses the allocator hands out, whatever the sizes of the types are, and even if boxing moves the regions away from under the pointers to them.",
  "for all regions, topologies, masks, thresholds, modes, sizes of types and addresses at which the parts of the topology lie",
  "A test sees the few addresses its allocator hands out; comparisons and subtractions of addresses could come out differently elsewhere.",
  ["src/topology/build.rs: into_topology", "src/clip/topology.rs: find_old_edge_id, into_topology, clip_topology", "src/normalize.rs: with_directed_edge, is_redundant, normalize", "src/simplify/mod.rs: simplify"])
p("C108", "A file cut off somewhere is read like the whole file up to the cut",
  "Cutting off the end of a .shp or .dbf file never changes what is read before the cut: the reader of the cut file gives the same header and the same records as the reader of the whole file until it gives an I/O error, and it never makes up a record. The same holds for shapefiles (pairs) and the regions made from them. cat-shp prints the first of the lines it prints for the whole files and then reports an error, or does exactly the same; shp-to-geo-data does the same or prints nothing and reports an error.",
  "for all file contents, all places where they are cut (both files independently), all decoders and everything a failing read may leave",
  "A test tries some cuts of some files; a reader that tolerates a short read in one field only goes wrong at the cuts in that field.",
  ["src/read/shapefile/shp.rs: read_shp_header, read_polygon_record, next", "src/read/shapefile/dbf.rs: read_dbf_meta, read_dbf_record, next", "src/read/shapefile/shapefile.rs: open, next", "src/read/shapefile/geo.rs: next", "examples/cat-shp.rs: main", "examples/shp-to-geo-data.rs: main"])
p("C109", "Normalizing a shifted map gives the shifted result",
  "Normalizing a topology whose points are all shifted by the same distance gives the normalized topology shifted by that distance: the same rings in the same order, starting at the same points, with the same edges, numbers and references. Without overflow checks it panics exactly where normalizing the unshifted map panics. Building and then normalizing shifted regions gives the shifted topology too.",
  "for all valid topologies (in particular those built from closed regions), all distances and both overflow modes",
  "Areas are summed from products of absolute coordinates, and starting points are chosen by comparing coordinates; tests use maps near the origin.",
  ["src/normalize.rs: normalize, join_related_edges, rotate_edges, join_adjacent_rings, wind_edges", "src/topology/build.rs: add_region, into_topology"])
p("C110", "Normal forms are unique",
  "Normalizing gives the same topology for any two topologies that describe the same map: the same regions and data, and the same rings up to where they start, their directions, their order and the places where a path between two neighbours is cut into edges.",
  "for all pairs of valid topologies with the same labelled rings whose doubled areas fit into an i64, and both overflow modes",
  "There are too many ways to start, turn, order and cut the rings of a map to try them all, and where two choices lead to different results depends on ties between points.",
  ["src/normalize.rs: normalize, normalize_region_rings, join_related_edges, wind_edges, rotate_edges, rotate_island_edge, join_adjacent_rings"])
p("C111", "Normalizing a turned or mirrored map gives the turned or mirrored normal form",
  "Moving, turning by right angles or mirroring a map before normalizing it gives the same rings, cut into the same edges, as normalizing first and moving afterwards: per region the same data and the same rings in some order, each starting at some other node (a ring of one edge at another point). If the frame mirrors the map the moved rings are read in the opposite direction, so that outer rings still wind clockwise. The same holds from regions through building and normalizing.",
  "For every change of frame (exchange of the axes, reflections, shifts), every valid topology (or list of closed regions) whose rings have areas that fit an i64, in both builds, whenever both normalizations return.",
  "Needs all frames and all maps; choosing other starts and another order of rings is legitimate, so a test would have to compare rings up to rotation for arbitrary data.",
  ["src/normalize.rs: normalize, normalize_region_rings, join_related_edges, wind_edges, rotate_edges, rotate_island_edge, join_adjacent_rings", "src/topology/build.rs: TopologyBuilder, add_region, into_topology"])
p("C112", "Clipping keeps the area on the kept side of the mask line",
  "Clipping a topology leaves of the outer rings (and of the inner rings) of each surviving region the area that these rings enclose on the kept side of the mask line, where the exact area may differ by at most the depth of the inner end of each segment whose crossing is not at integer coordinates; only rings whose area is zero (modulo 2^64) go missing. If all crossings are at integer coordinates, the areas agree exactly. Clipping a ring with the masks for both sides of a line gives two rings whose areas add up to that of the ring, up to the same rounding.",
  "for all data types, overflow modes, masks with u32 values, topologies with u32 coordinates, closed rings and segments whose coordinate differences have a product below 2^63, and all results that clipping returns",
  "the area on one side of a line is a fraction and rounding differs per segment; tests compare single clipped shapes by hand",
  ["src/clip/types.rs: ClipMask::intersect", "src/clip/edge.rs", "src/clip/topology.rs: add_region", "src/clip/topology.rs: clip_topology"])
p("C113", "Simplification opens no gaps between neighbours",
  "Simplifying a topology changes the area of any set of its regions taken together, and how often they surround a place, only through the edges on the common border of the set: an edge that the rings of the set pass as often forwards as backwards does not matter. So if every changed edge lies between regions of the set, together they have the same area and surround every place as often as before: what one region gains its neighbours lose. Whatever the directions of the rings, if the changed edges are passed an even number of times, the places covered by an odd number of the regions stay the same.",
  "for all data types, overflow modes, topologies, thresholds and lists of regions, all places with rational coordinates, and all results that simplify returns",
  "a gap between two simplified neighbours is an area of a few places; tests compare the points of single edges",
  ["src/simplify/mod.rs: simplify", "src/simplify/simplify_edge.rs: simplify_edge", "src/topology/types.rs"])
p("C114", "It does not matter how the bytes of a file arrive",
  "Reading a .shp file, a .dbf file or both gives the same results whatever pieces the bytes arrive in, however often calls of read are interrupted, and with or without a BufReader of any size: the results depend only on the bytes and device errors themselves. A source that delivers bytes and then ends is read like the list of these bytes, and the only io::Error is UnexpectedEof. If a device fails after some bytes (or claims an early end), everything up to the first error is as for a file that ends there, and the io::Error inside is that of the device.",
  "for all sources that deliver at least one byte per successful read until they end and are interrupted finitely often, all overflow modes, encodings, buffer sizes and numbers of calls of next",
  "tests read whole files from disk or memory, which arrive in one piece and never fail",
  ["src/read/shapefile/shp.rs: read_shp_header, read_polygon_record, ShpReader::new, open", "src/read/shapefile/dbf.rs: read_dbf_header, read_dbf_fields, read_dbf_record, DbfReader::new, open", "src/read/shapefile/shapefile.rs: ShapefileReader::new, open"])
p("C115", "A topology given back to the builder is the same topology",
  "Building a topology from the regions of a built topology, with each ring given by the paths of its edges, returns the same topology: regions, rings, edge numbers and references. The regions of a built topology can take the place of the regions it was built from also together with further regions, before or after. The same holds for the topologies that normalize returns. Any other topology (such as a clipped or simplified one) in which every edge goes somewhere and every ring has area keeps its shapes, and a release build can build it again if and only if no path is used more than twice.",
  "for all lists of regions with which the builder returns, in both overflow modes; for all topologies",
  "tests build each topology once, from rings of points they write down; none of them feeds a result back",
  ["src/topology/build.rs: TopologyBuilder, add_region, build_directed_edge, into_topology", "src/normalize.rs: normalize"])
p("C116", "Clipping in steps is clipping once, up to rounding",
  "Clipping a line by a mask and then by a tighter mask (a parallel mask line strictly inside) gives the same points inside the second mask as clipping by the second mask alone, and the points it adds on the second mask line are at most one unit away from those of the direct clip. The two are equal if the segments that cross the second line cross the first one at integer coordinates; then whole topologies (with closed rings) clipped in two steps have the same regions, rings and paths as when clipped once, provided no ring without area after the first step has area in the direct clip (as a loop and its mirror image can have: such a ring is lost).",
  "for all lines and topologies of u32 points with segments for which crossings can be computed, all pairs of parallel masks, both overflow modes",
  "tests clip each line once; a difference of one unit in the second crossing depends on the slope and both masks",
  ["src/clip/edge.rs: clip_edge", "src/clip/types.rs: ClipMask, test, intersect", "src/clip/topology.rs: clip_topology, clip_ring, clip_rings"])
p("C117", "The data of regions is only carried along",
  "Building, normalizing, clipping and simplifying treat regions that differ in their data only alike, also when the data has different types: with the data replaced region by region, each operation gives the same outcome (the same panic, or the same rings, edges and references), and the regions of the result carry the replaced data.",
  "for all data types and functions between them, all regions, topologies, masks and thresholds, both overflow modes",
  "tests use one data type at a time (numbers or unit) and never the same rings with two kinds of data",
  ["src/topology/build.rs: TopologyBuilder, add_region, into_topology", "src/normalize.rs: normalize", "src/clip/topology.rs: clip_topology, add_region", "src/simplify/mod.rs: simplify"])

p("C118", "Regions of a normalized topology use each edge once",
  "After normalize, no edge has the same region on both sides, and the rings of a region contain each edge at most once, in one of its directions: borders between the rings of one region are gone. This holds for all topologies in which no segment lies on two edges, in particular for those built from rings of points. (With a segment on two edges it can fail: joining edges can make them equal.)",
  "for all data types, overflow modes and topologies with exact references, closed rings and no segment on two edges, and all results that normalize returns",
  "tests normalize a few hand-written topologies with one common border; which edges cancel depends on all rings of the region",
  ["src/normalize.rs: normalize, normalize_region_rings, join_adjacent_rings, join_related_edges, is_redundant", "src/topology/build.rs"])
p("C119", "The edges of a normalized ring are as few as possible",
  "In every ring of a normalized topology, two edges next to each other never lie between the same two regions: wherever the neighbour does not change, there is one edge.",
  "for all data types, overflow modes, and all valid topologies for which normalize returns",
  "whether an edge can be joined with the next depends on the regions on the other sides of both after all regions have been normalized",
  ["src/normalize.rs: normalize, join_related_edges, join_adjacent_rings", "src/topology/build.rs"])

p("C120", "No operation makes edges cross",
  "If no two line segments of the input have a point in common that is inside both, the same holds for the edges of the topology that is built from it, and it stays so when the topology is normalized, simplified or clipped.",
  "for all data types, overflow modes, lists of regions, topologies, thresholds and masks for which the operations return",
  "whether edges cross depends on all pairs of segments of the whole map; rounding and removing points moves segments past points of other edges that the operations never look at",
  ["src/topology/build.rs", "src/normalize.rs: normalize", "src/simplify/mod.rs: simplify", "src/clip/topology.rs: clip_topology", "src/clip/edge.rs: clip_edge"])
p("C121", "Results are not much larger than their inputs",
  "A built topology has no more edges and segments than the rings it is built from; normalizing adds none to the rings; simplifying keeps the number of edges and adds no segment; clipping makes no edge more than half as long again, and adds at most one edge for each use of an edge by a ring. Where at most two rings use an edge, this is linear in the number of edges.",
  "for all data types, overflow modes, lists of regions, topologies, thresholds and masks for which the operations return; valid topologies for normalize",
  "a bound on growth is a statement about all inputs; a test sees single results",
  ["src/topology/build.rs", "src/normalize.rs: normalize", "src/simplify/mod.rs: simplify", "src/clip/topology.rs: clip_topology", "src/clip/edge.rs: clip_edge"])
p("C122", "Simplification changes a map only around the points it removes",
  "A simplified edge consists of stretches of the edge, one after the other, each replaced by the straight line between its ends. A place that a straight line separates from every stretch that was changed keeps its regions: each region goes around it as often as before, and it lies on an edge if and only if it did. Stretches on borders inside a set of regions do not matter for the set as a whole.",
  "for all data types, overflow modes, topologies, thresholds up to u64::MAX and places with rational coordinates, whenever simplify returns",
  "tests compare the points that are left; which places change hands depends on all points of the removed stretches together",
  ["src/simplify/mod.rs: simplify", "src/simplify/simplify_edge.rs: simplify_edge, visvalingam_whyatt"])
p("C123", "Sifting restores the order of the heap of points",
  "The heap from which points are removed is kept in order: no point is lighter than the one above it, and every point knows its position. Sifting a point up after it became lighter, sifting it down after it became heavier, popping the lightest point, and building the heap all give a heap in order, with the same points.",
  "for all heaps of points of all sizes and weights",
  "an order violated below the top of a heap shows only when these points come to the top, after many more steps, for particular weights",
  ["src/simplify/simplify_edge.rs: PointHeap, sift_down, sift_up, heapify, pop, recalculate_point_weight"])
p("C124", "Simplifying n points takes about n log n steps",
  "Simplifying an edge of n points takes at most n (4 log2 n + 5) steps, where a step is a round of a loop: a point looked at in a pass over the points, a point that is popped, or a round of sifting up or down. Sifting takes at most log2 n rounds, also where the heap is out of order. The same holds for a topology with n points in all its edges.",
  "for all edges and topologies, thresholds and overflow modes for which simplify returns",
  "tests simplify a few points; the number of rounds depends on the weights and the history of the heap",
  ["src/simplify/simplify_edge.rs: sift_down, sift_up, heapify, pop, recalculate_point_weight, visvalingam_whyatt", "src/simplify/mod.rs: simplify"])
p("C125", "No operation gives a topology with the same path twice",
  "No two edges of a topology have the same points, in the same or in opposite order: what two rings share is one edge. This holds for topologies that were built, normalized, simplified and clipped.",
  "for all data types, overflow modes, regions, topologies, thresholds and masks, whenever the operation returns",
  "tests count the edges of a few squares; whether two edges become the same depends on all points of both and on thresholds and rounding",
  ["src/topology/types.rs: TopoEdge", "src/topology/build.rs: TopologyBuilder", "src/simplify/mod.rs: simplify", "src/clip/topology.rs: clip_topology"])
p("C126", "Edges go from their top-left node to their bottom-right node",
  "The first point of an edge that is not a loop comes before its last point, comparing x first. This holds after building, normalizing, simplifying and clipping.",
  "for all data types, overflow modes, regions, topologies, thresholds and masks, whenever the operation returns",
  "tests check the direction of a few edges after building; whether clipping turns an edge around depends on rounding and on where the edge meets the mask",
  ["src/topology/types.rs: TopoEdge", "src/topology/build.rs: TopologyBuilder", "src/simplify/mod.rs: simplify", "src/clip/topology.rs: clip_topology"])
p("C127", "Which topologies the builder makes",
  "A topology comes from the builder exactly if its references are exact, its rings have area and its edges have length, its edges are the paths of its rings, each once and in the order of first use, and every use of an edge has the direction that the points of the edge call for. Handing the rings of such a topology to the builder gives the topology back, number for number.",
  "for all data types and topologies, in release builds; in debug builds whenever areas fit",
  "a characterisation of all results of a function cannot be tested: tests only see some results, and never that a given topology is none",
  ["src/topology/build.rs: TopologyBuilder"])
p("C128", "Which topologies normalization leaves alone",
  "Normalization returns the same topology, number for number, exactly if the topology is as the builder makes it, and every ring uses as few edges as possible, none of them between a region and itself, starts at its smallest node, goes clockwise if it is outer and counter-clockwise if inner, and the rings of each region are in order.",
  "for all data types, overflow modes and topologies with closed rings whose areas fit in 63 bits",
  "tests compare some normalized topologies with expected ones; that nothing else is left alone is about all topologies",
  ["src/normalize.rs: normalize"])
p("C129", "Simplified maps stay normalized",
  "Simplifying a normalized topology gives a normalized topology.",
  "for all data types, overflow modes, normalized topologies and thresholds, whenever simplify returns",
  "tests simplify single edges; whether a ring turns around or two edges become the same depends on all rings, all edges and the threshold",
  ["src/simplify/mod.rs: simplify", "src/normalize.rs: normalize"])
p("C130", "A damaged record of a .shp file costs only itself",
  "If some records of a .shp file have unreadable contents but their lengths are right, the reader returns all other records, in file order, an error that names the record for each damaged one, and then ends.",
  "for all headers, lists of records with any contents (long enough not to make the reader panic), bytes after the last record and overflow modes",
  "tests read files without damage; which records survive depends on any number of damaged records at any place, and the end of the iteration on all of them",
  ["src/read/shapefile/shp.rs: ShpReader"])
p("C131", "The order of the regions does not matter",
  "From the same regions in another order the same topology is built, apart from the numbers of regions and edges, and clipping, simplifying and normalizing keep it that way; an operation that succeeds for one of the topologies succeeds for the other one. The same holds for the records of a shapefile, if the data records change places together with the shapes.",
  "for all lists of regions and their permutations, topologies that differ in numbers only, masks, thresholds and overflow modes",
  "a test has one order; the result depends on every order only through the numbers, and normalization compares regions by their numbers",
  ["src/topology/build.rs: TopologyBuilder", "src/clip/topology.rs: clip_topology", "src/simplify/mod.rs: simplify", "src/normalize.rs: normalize", "examples/shp-to-geo-data.rs"])
p("C132", "Regions without common paths do not influence each other",
  "From some of the regions of a map, none of which has a path of the other ones in any direction, the part of the topology that belongs to them is built; normalizing gives these regions the shapes they have in the normalized map, simplifying a part gives the part of the simplified map, and clipping a part gives its regions the shapes they have in the clipped map.",
  "for all lists of regions, every selection of them without common paths, all parts of topologies, masks, thresholds and overflow modes",
  "a test has one map; that far regions never matter needs every map and every selection",
  ["src/topology/build.rs: TopologyBuilder", "src/clip/topology.rs: clip_topology", "src/simplify/mod.rs: simplify", "src/normalize.rs: normalize"])
p("C133", "Comparisons and hashes obey the laws of their traits",
  "Every comparison that the code derives or writes is an ordering that agrees with its ==, equal keys of the hash maps and only they give a hasher the same values, and sorting the rings of a region keeps rings that compare as equal in their order.",
  "for all points, paths, edges, rings, weights and pairs of f64, NaN and signed zeros included",
  "the laws relate all pairs and triples of values; the sorting and hashing of the standard library rely on them silently",
  ["src/geo/mod.rs: Point", "src/normalize.rs: NormRing, NormEdge, normalize_region_rings", "src/simplify/simplify_edge.rs: PartialOrd, Ord", "src/topology/build.rs: BuildEdge", "src/clip/topology.rs: BuildEdge", "src/read/shapefile/shp.rs: ShpPoint"])
p("C134", "The two halves of a map fit together",
  "Clip a map with the two masks of one line. Then there is a cut map, which is the map with one point of the line added in each segment that crosses it, at most one unit from the crossing, such that each segment of its edges off the line is in exactly one of the two results, the areas of the two parts of a ring add up exactly to the area of the ring in the cut map, and at every place off the line and off the edges the half for that side goes around as often as the cut map, while the other half does not go around it: rounding opens no gaps and no overlaps between the halves.",
  "for all masks with u32 values, topologies with u32 coordinates and closed rings whose segments have a product of extents below 2^63, both overflow modes, all results and all rational places",
  "it relates two different runs through a third map that the code never builds, at every place of the plane",
  ["src/clip/types.rs: ClipMask, intersect", "src/clip/edge.rs: clip_edge", "src/clip/topology.rs: clip_topology, clip_ring"])
p("C135", "Another unit or origin does not change the import",
  "Write the coordinates of a .shp file in a unit that is a power of two times larger or smaller, and count them from another origin, exactly. Then every point gets the same integer coordinates, and importing the file returns the same result as before, although the subtractions round. For other units, such as a third, this is false.",
  "for all exponents, origins, bounding boxes with sides that are not empty and do not overflow, points inside the box, well-formed files whose areas are i64s, both overflow modes and all readers",
  "it compares floating-point computations on different numbers, bit for bit, including subnormal ones",
  ["src/read/shapefile/geo.rs: ShapefileQuantizer, ShapefileGeoIterator", "examples/shp-to-geo-data.rs"])
p("C136", "It does not matter how rings are written down",
  "Start the rings of the input somewhere else, run them the other way, and list the rings of a region in another order. The topologies that are built show the same map, with the same regions on both sides of each segment, and after normalization they have the same rings with the same edges; they are the same topology unless a ring comes back to its start or two rings start at the same point. The same holds for the rings of the records of a .shp file, in their direction.",
  "for all lists of regions of closed point rings, all starts, directions and orders, both overflow modes; normalization for areas that are i64s",
  "it compares all ways of writing down one map",
  ["src/topology/build.rs: TopologyBuilder", "src/normalize.rs: normalize", "src/read/shapefile/geo.rs: ShapefileGeoIterator"])
p("C137", "Integer coordinates survive a shapefile",
  "Write integer coordinates to a .shp file, each as a double that many units from the left and from the top of a bounding box with sides of 2^32-1 units, where a unit is any power of two. Then importing the file gives every point its integer coordinates back, although the importer divides by the length of the side and multiplies by 2^32-1, both with rounding, and then truncates. So the import builds exactly the topology of the regions that were written, and moving points to the grid twice is moving them once.",
  "for all exponents and origins, all u32 coordinates, all well-formed files of regions with clockwise outer and counter-clockwise inner rings whose areas are i64s, both overflow modes and all readers",
  "an error of one unit in the last place at any of 2^32 coordinates would move a point by a cell",
  ["src/read/shapefile/geo.rs: ShapefileQuantizer, ShapefileGeoIterator", "examples/shp-to-geo-data.rs"])
p("C138", "A normalized map can be written and read again",
  "Build a topology from closed rings of points, in which no region has two rings along the same line, and normalize it. Write every ring of the result as a list of points and build a topology from these, directly or by way of a shapefile. It shows the same map as the first one, with the same regions on both sides of each segment, and normalizing it gives the same rings of the same edges again; even the same topology unless a ring comes back to its start or two rings start at the same point. A topology that was not normalized, written and built again, is the same topology in any case.",
  "for all lists of regions of closed point rings, both overflow modes; normalization for areas that are i64s",
  "it compares the results of two complete pipelines for all maps",
  ["src/topology/build.rs: TopologyBuilder", "src/normalize.rs: normalize", "src/read/shapefile/geo.rs: ShapefileGeoIterator"])
p("C139", "The same map prints the same numbers",
  "If shp-to-geo-data succeeds, it prints the same lines for every other file of the same map: for the same records in another order in both files, for a map in another unit with another origin, and for rings that start at other points or come in another order. In the last case the lines about the normalized and the clipped topology are only known to be the same if no normalized ring comes back to its start and no two rings start at the same point.",
  "for all pairs of well-formed files, all encodings and ways of reading, both overflow modes",
  "it compares two runs of the program for all maps",
  ["examples/shp-to-geo-data.rs", "src/read/shapefile/geo.rs: ShapefileGeoIterator", "src/topology/build.rs: TopologyBuilder", "src/normalize.rs: normalize"])

with open(os.path.join(os.path.dirname(__file__), "..", "properties.jsonl"), "w") as f:
    for q in P: f.write(json.dumps(q) + "\n")
print(len(P))
