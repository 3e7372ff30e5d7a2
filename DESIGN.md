# A Rocq model of topogeo

This file was written before the proofs and is kept up to date; section 5 records what actually happened.

## 1. What is modelled and how

The model lives in `rocq/theories`. Every definition carries a comment citing the lines of `/repo/src` it models.

* **Panics.** Every Rust function that can panic returns `res A := Ok a | Panic why`. `why` says which
  kind of panic: arithmetic overflow, out-of-bounds index, failed `assert!`, explicit `panic!`, `unimplemented!`,
  division by zero, capacity overflow, null/dangling dereference (undefined behaviour in Rust, made visible here),
  and `PFuel`, an artificial value for "ran out of recursion fuel" that theorems prove never occurs.
* **Overflow.** Integers are `Z`. Every `i64`/`u64`/`u32` operation that may overflow goes through a checked operation
  with a `mode`: `Debug` panics, `Release` wraps modulo 2^64 / 2^32. Theorems quantify over the mode.
  `usize` is taken to be 64 bits and additions on lengths of existing vectors are assumed not to overflow it.
* **Pointers.** `*const TopoEdge` is an index into `edges`; `*const TopoRing` is (region, outer/inner, index);
  `*const TopoRegion` is an index into `regions`; null is `None`. `Memory` models the same operations with byte addresses,
  an arbitrary allocator and arbitrary sizes of types; C106 and C107 relate the two.
* **HashMap** is an association list; iteration order is an explicit parameter, so that order independence is a theorem.
  **BTreeMap** is a list sorted by key.
* **io::Read** is a byte list plus a function saying what is left after a failing `read_exact` (Rust leaves this
  unspecified), so theorems hold for every such behaviour. `Reader` models sources that deliver data in pieces, are
  interrupted or fail, `BufReader`, and the same readers over them; C114 relates the two.
* **f64** values are IEEE-754 binary64 bit patterns; arithmetic in the quantizer is Flocq's binary64 with
  round-to-nearest-even.
* **encoding** crate decoders are a function parameter `list byte -> option text`.

Files: `Base` (panic monad, machine integers), `Spec` (independent mathematical notions used in theorem statements),
`Geo`, `Topology` (types and builder), `Clip`, `Normalize`, `Simplify`, `Shp`, `Dbf`, `Shapefile`, `Quantize`, `Display` (printed text and error messages), `Pipeline` (the example programs), `Encoding` (decoders, paths and the command line), `ErrorTrait` (`std::error::Error`), `Memory` (pointers as addresses), `Reader` (data that arrives in pieces), `Traits` (comparisons and hashes) (models);
`*Proofs` (lemmas); `*Props` (the property theorems only, each with `Print Assumptions` and a non-vacuity example);
`Tests` (the repository's own unit tests and fixtures replayed on the model).

## 2. Plan per property

| id | model | proof |
|----|-------|-------|
| C01-C06 | `Geo` shoelace fold with checked i64 ops | induction on the point list; exact sum in `Z`; congruence mod 2^64 |
| C07-C08 | `ring_edges`, `ring_points` | induction; C08 is expected to be false (duplicates at joints): refute with a witness and prove what holds |
| C09-C15 | `Topology` builder state machine | invariant over `add_region` histories; permutation argument for C15; C12 expected false |
| C16-C18 | `Clip` mask functions | case analysis, truncated division; C18 expected false (overflow) |
| C19-C22 | `clip_edge` fold | induction generalised over the loop state, refinement to a per-segment spec; C22 expected false (rounding) |
| C23-C29 | clip builder state machine | invariants over rings/regions; C28 expected false (orphan edges) |
| C30-C37 | `Normalize` | cyclic-sequence relation; `join_adjacent_rings` by induction on the map; C35-C37 expected false, witnesses by `vm_compute` |
| C38-C44 | `Simplify` with explicit heap/linked-list arrays | heap and linked-list invariant, fuel bounds; C43-C44 expected false |
| C45-C50 | `Shp` byte parser with a reference encoder | round trip, accept-iff; C49-C50 expected false |
| C51-C56 | `Dbf` byte parser with a reference encoder | round trip, accept-iff; C56 expected false |
| C57-C58 | `Shapefile` | induction on the longer file |
| C59-C60 | `Quantize` on Flocq binary64 | monotonicity of rounding; C60 expected false (composition with area overflow) |
| C71 | `Normalize` | expected false; for simple regions the second run sees the rings the first one produced, with the same regions on their sides, and every step leaves such rings alone |
| C73-C74 | all operations | composition of the per-operation theorems; for C74 the interpolation stays between its ends even when the product wraps |
| C78 | `Normalize`, `Simplify` | every side of a normalized edge is a side of an original edge with the same two regions; an edge that runs back would be used twice by its region |
| C79 | all operations | origin of points through the maps of segments |
| C80 | build | winding numbers by ray crossings; additive over edges, independent of the ray |
| C81 | normalize | additive functions of edges modulo 2; redundant edges are passed twice |
| C82 | clip_topology | the ray away from the mask line sees the same crossings; closing lines are behind the place |
| C83 | build, normalize, clip | composition of C80, C81 and C82 per region, carrying the side conditions from the input |
| C84-C85 | `Display` | every printed item can be split off the front of a text in one way; numerals end at a non-digit |
| C86 | `Pipeline`, `Display` | C57 gives the items; refuted by a date field, which cannot be shown; `PrintSpec.v` and `DisplaySpec.v` state the text of the lines |
| C87 | `Normalize` | the steps of C30-C36 again with the invariant "edges of two or more points from the input" in place of closed rings |
| C88 | `Pipeline` | composition of C75, C87 and C29; quantized coordinates are u32 values for every input; `PrintSpec.v` states the text of the lines |
| C89 | `Encoding` | the last slash, then the last dot, split a path in one way |
| C90 | `Encoding` | case analysis on the length of an encoded character; induction on the text; `MessageSpec.v` lists the thirty-two special windows-1252 bytes |
| C91 | `Dbf`, `Shapefile`, `Pipeline` | simulation between two readers that differ in the decoder of their texts |
| C92 | `Encoding` | expected false: the label "ascii" means windows-1252; simulation of C91 on ASCII files; opening by path is reduced to C51 |
| C93 | `Encoding` | case analysis on the arguments; C88, C77 for the rest |
| C94 | `Simplify` | loop invariant: remaining points carry the weight their links say, removed ones are below the threshold |
| C95 | `Simplify` | expected false (stale heap indices); case analysis on edges of at most four points |
| C96 | `ErrorTrait` | case analysis on the errors; C85 |
| C97 | `Clip`, `ClipTwiceSpec` | trace of each ring and of the closing lines through the first clip; the second clip maps every line to a thinned copy (C21) and finds the same gaps; simulation ring by ring |
| C98 | `Simplify`, `SimplifySpec` | expected false; turns of the loop as a relation that does not mention the threshold; determinism gives prefixes |
| C99 | `Simplify`, `SimplifySpec` | expected false (C95); first turn stops when all weights reach the threshold |
| C100 | `Clip`, `ClipTopoSpec` | the clipped edges determine what each region becomes; selections only lower the uses of lines |
| C101 | `Clip`, `FrameSpec` | rounding towards the nearest is odd, so `intersect` commutes with each reflection, also modulo 2^64; orientation of rings as a sign; ring by ring |
| C102 | `Topology`, `OrderSpec` | the keys of the edge map are a fold over the paths; numbers are first positions; so the builder is a function of the expected shapes |
| C103 | `Topology`, `BuildFrameSpec` | paths have equal stored forms iff the moved paths have; C102's function commutes with frames |
| C104 | `Simplify`, `BuildFrameSpec` | maps that keep `weight2` commute with every heap operation; vertical shifts and reflections keep it; witnesses for the others |
| C105 | all model files, `CheckedSpec` | `agrees` is a congruence for `bind`, `mfold`, `mmap`; each checked operation agrees |
| C106 | `Memory`, `MemorySpec` | layout function from index topologies to memory; each step commutes with it; witnesses with moving vectors |
| C107 | `Memory`, `MemorySpec` | same; normalization is equivariant under renaming regions, clipping finds the index by pointer subtraction |
| C108 | none (compares two runs), `same_until` in `TruncateProps` | every reader function commutes with appending bytes to its unread input unless it gives an I/O error |
| C109 | `BuildFrameSpec` (`shifted`, `moved_topology`) | every normalize function commutes with a map of points that keeps order and equality; areas of closed chains keep |
| C110 | `NormCanonSpec` (labelled courses of rings, `same_map`) | a ring with the fewest edges is determined by its course; cycles of a pool are unique; sorted lists without ties are unique |
| C111 | `facing_shape`, `same_shape` (NormFrameSpec) | what normalization keeps of a side, `loose_side`, is preserved by moving and by reversing; uniqueness as in C110 |
| C112 | `area_inside`, `area_slack`, `keeps_area` (ClipAreaSpec.v): strips between a path and the mask line, as fractions | strips along the line are empty; each crossing divides a strip; telescoping along closed chains |
| C113 | SimplifyPlaceSpec: `land`, `surrounded`, `covered_oddly`, `inland` | totals over directed edges rearranged by edge (C40 gives the edges) |
| C114 | ReaderSpec: `delivers`, `watch`, `stopped_by` | simulation between readers; `read_exact` as a function of the items left |
| C115 | `as_input`, `whole` | the input without what the builder drops has the same areas and edge map, step by step |
| C116 | `ClipStepsSpec.v`: `tighter`, `beside`, `small_path`, `exact_first`, `exact_edges`, `no_return` | `ClipSteps.v`: rounding down twice against once, the kept parts segment by segment; `ClipStepsTopo.v`: gaps closed by the first step lie on its line and vanish |
| C117 | `DataSpec.v`: `region_with`, `topology_with`, `outcome_with` | `DataProofs.v`: the loops commute with replacing the data |
| C118 | `NormSpec.v`: `nothing_redundant` | `NormMerge.v`: an edge of the result bears a set of directed segments of the source, each used once by a region's useful edges |
| C119, C37, C71 (merged rings) | `MergeSpec.v`: `outline`, `simple_outline`, `measured_outline`, `wound_outline` | expected false in general; `NormMerged.v`: for simple outlines the rings of the result are the cycles of the outline, each in fewest edges, and the second run sees the same cycles |
| C120 | `CrossSpec.v`: `segments_cross`, `planar` | `CrossProofs.v`: segments of built and normalized edges are segments of the input, possibly reversed; for simplified edges a witness and separating lines; for clipped edges a witness, and segments within segments when crossings are exact |
| C121 | `SizeSpec.v`: `n_edges`, `n_uses`, `size`, `used_size` | `SizeProofs.v`: sums over edges and uses; every edge is used; a credit argument along a clipped edge |
| C122 | `LocalSpec.v`: `straightens`, `apart`, `spared` | `LocalProofs.v`: winding numbers of stretches and chords that a line separates from the place agree |
| C123 | `HeapSpec.v`: `heap_ordered`, `recorded`, `traced`, `rearranged` | expected false (sift_down, stale positions); `HeapProofs.v`: sifting up and one level of sifting down |
| C124 | `CostSpec.v`: copies of the loops with a counter | `CostProofs.v`: erasing the counter gives the model; positions double or halve with each round |
| C125 | `OnceSpec.v`: `same_path`, `stored_once`, `no_overlaps`, `open_or_wide` | `OnceProofs.v`: the builder looks edges up in canonical direction, which is unique for open paths and for loops with area; a clipped segment with exact ends lies on the original, so equal results would be overlaps |
| C126 | `OnceSpec.v`: `canonical_edges`, `settled` | `OnceProofs.v`: the builder reverses what is not canonical; simplification keeps ends; clipping moves ends to the line of the mask |
| C127 | `FormSpec.v`: `built_form` | `FormProofs.v`: the blueprint of a topology's own rings is the topology; conversely the builder stores canonical paths by first use |
| C128 | `FormSpec.v`: `normal_form`, `countable` | `FormFixed.v`: joining and merging never add edges, so if the number of edges stays the same nothing was joined or merged; then rings are only rotated, turned and sorted. `FormProofs.v`: the converse, by C71's lemmas on plain regions |
| C129 | `FormSpec.v`: `different_edges`, `loops_by_area`, `wound_rings` | `FormSimplify.v`: nodes and labels of edges stay, so rings keep start, order and fewest edges |
| C130 | `DamageSpec.v`: `frame`, `intact`, `damaged`, `answers` | `DamageProofs.v`: the content is read before it is decoded, so the next record is found whatever the content; only intact records advance the count of bytes |
| C131 | `ShuffleSpec.v`: `renumbered`, `shuffled` | `ShuffleBuild.v`: built forms with the same shapes are renumbered. `ShuffleNorm.v`, `ShuffleTopo.v`: every step of normalization depends on region labels only through their equality. `ShuffleClip.v`, `ShuffleClipped.v`: edges of a clipped topology correspond by their origin. `ShuffleLaws.v`: simplification, symmetry. `ShuffleFileProps.v`: files |
| C132 | `PartSpec.v`: `unrelated`, `is_part`, `becomes` | `PartProofs.v`: a region sees only the regions that use its edges; the whole is built when both parts are. `ShuffleTopo.v`: normalizing a region depends on labels only through their equality. `PartClip.v`: clipping |
| C133 | `TraitsSpec.v`: `ordering_laws`, `agrees`, `equivalence_laws`, `starts_at` | `TraitsProofs.v`: comparison field by field; inserting into a sorted list keeps the order of equal keys |
| C134 | `CutSpec.v`: `cut`, `cut_map`, `off_line`, `reaching`, `half_of` | `CutProofs.v`: points added on the line do not change the kept parts; `CutTopo.v`: clipping the cut map gives the same up to repeated points; `CutHalves.v`: C82 and C112 applied to the cut map, where nothing is rounded |
| C135 | `UnitSpec.v`: `converted`, `converted_box`, `converted_point`, `converted_shape` | `UnitProofs.v`: rounding a difference of doubles commutes with powers of two, since differences that are subnormal are exact; the quotient is then the same real number |
| C136 | `TurnSpec.v`: `same_outline`, `same_input`, `same_record` | `TurnProofs.v`: the regions beside an edge are a function of the shapes alone; C110 for the built topologies |
| C137 | `AgainSpec.v`: `grid_box`, `written_point`, `written_region` | `AgainProofs.v`: for x < 2^32-1 the quotient is in the binade 32 below that of x, so the product is less than half a unit in the last place from x; powers of two separately |
| C138 | `ExportSpec.v`: `outline`, `exported` | `ExportProofs.v`: C30 says that the rings are only turned; then C110 as for C136, and C137 for the file |
| C139 | `PipelineSpec.v`: `report`; `ShuffleSpec.v`: `shuffled`; `UnitSpec.v`: `converted_shape`; `TurnSpec.v`: `same_record` | `PrintProps.v`: the numbers of `describe` are sums over lists that are permuted; sharing is counted by uses; then C131, C135, C136 and C88 |
| C75-C77 | `Pipeline` loops | induction on the iterations; every item uses up bytes of the .shp file |

"Expected false" means that reading the code suggests that the property as users would state it does not hold. For these the
plan is a `..._refuted` theorem with a concrete witness (a finding about the code) plus the strongest positive theorem
that does hold (`..._partial`), and MANIFEST status `partial`.

## 3. Trusted base

Coq 8.16.1's kernel (including `vm_compute`); the reading of the Rust code into the model; the items in section 4.
Axioms: listed per theorem by `Print Assumptions` (see section 5).

## 4. Not modelled

* Memory: aliasing rules and allocation failure (a `.shp` record that claims a huge length makes the reader allocate that
  much before reading). `Memory` models pointers as addresses. `into_boxed_slice` is taken to move a vector only if it has
  spare room. The builder points into the vectors of edges and regions before boxing them; the standard library does not
  promise that `collect` leaves no spare room, so `Memory` allows any. C106 shows what dangles then.
* Timing/complexity ("O(n)") and memory use.
* `usize` is 64 bits wide. Casts `as u32` from floats saturate (as they do since Rust 1.45; before, the behaviour was undefined
  for values out of range).
* Texts of other crates in `Display` output: `io::Error`, decoder errors, names of encodings and `{}` of an `f64` are
  parameters of the model (`Display.texts`). The escapes of derived `Debug` output are not modelled.
* Derived `Debug` and `Clone`; how a hasher mixes the values it is given; what `io::Error` itself answers to `description` and `cause`.
* The file system is a function from paths (byte strings, Unix) to contents; a file does not change while it is read.
* The `encoding`, `regex`, `byteorder`, `itertools` crates and the parts of the standard library in use: their documented
  behaviour is re-implemented (`read_exact`, `BufReader`, `HashMap`, `BTreeMap`, sorting, `Path::file_name`, `PathBuf::set_extension`,
  `env::args`, the decoders for ASCII, UTF-8 and windows-1252). `byteorder`'s `read_f64` is taken as a plain transmute
  of the eight bytes; old releases of the crate may quiet signalling NaNs, which no modelled function can tell apart.
* Dead code: `src/simplify/priority_queue.rs` is empty; the test module of `src/geo/mod.rs` is never compiled
  (`#[cfg(Test)]`).

What is modelled, per file: all functions of `src/clip/{edge,topology,types}.rs`, `src/geo/mod.rs`, `src/normalize.rs`,
`src/topology/{build,types}.rs`, `src/simplify/{mod,simplify_edge}.rs`, `src/read/shapefile/{dbf,geo,mod,shapefile,shp}.rs` and both
`examples/*.rs`, except for the items above. `lib.rs` and the other `mod.rs` files only list modules.

Simplifications are stated in the comments of the definitions.

## 5. Results

139 properties, 444 theorems; statuses and theorem names are in `MANIFEST.json`.
What `Print Assumptions` lists (generated by `tools/gen_results.py`):

* **R1**: `ClassicalDedekindReals.sig_not_dec`, `ClassicalDedekindReals.sig_forall_dec`, `FunctionalExtensionality.functional_extensionality_dep`, `Classical_Prop.classic` (all from the standard library, through Flocq and the real numbers).
* **none**: "Closed under the global context".

| property | status | theorem: assumptions |
|---|---|---|
| C01 | proved | `C01_area_exact`: none; `C01_area_and_winding`: none; `C01_small_coordinates`: none |
| C02 | proved | `C02_release_modulo`: none; `C02_release_exact`: none; `C02_debug_signed`: none; `C02_debug_ring`: none |
| C03 | partial | `C03_winding_u32_refuted`: none; `C03_winding_u32_partial`: none |
| C04 | proved | `C04_reverse`: none; `C04_reverse_signed`: none; `C04_release_returns`: none |
| C05 | proved | `C05_rotate`: none; `C05_rotate_signed`: none; `C05_rotate_release`: none |
| C06 | proved | `C06_edges_points_agree`: none; `C06_ring_edges_agree`: none; `C06_ring_points_agree`: none; `C06_release`: none; `C06_signed_sum`: none |
| C07 | proved | `C07_edges_of_points`: none; `C07_edges_of_edges`: none |
| C08 | partial | `C08_points_refuted`: none; `C08_points_partial`: none |
| C09 | proved | `C09_build_reads_back`: none; `C09_has_area_exact`: none |
| C10 | proved | `C10_stored_once`: none |
| C11 | proved | `C11_shared`: none; `C11_shared_same_direction`: none |
| C12 | partial | `C12_closed_canonical_refuted`: none; `C12_closed_canonical_partial`: none |
| C13 | proved | `C13_references`: none |
| C14 | proved | `C14_into_topology`: none; `C14_build_panics`: none; `C14_add_regions`: none |
| C15 | proved | `C15_iteration_order`: none |
| C16 | proved | `C16_test_classifies`: none |
| C17 | proved | `C17_intersect`: none |
| C18 | partial | `C18_intersect_refuted`: none; `C18_intersect_partial`: none; `C18_between_partial`: none |
| C19 | proved | `C19_points`: none; `C19_insideb`: none; `C19_returns`: none |
| C20 | proved | `C20_path`: none |
| C21 | proved | `C21_inside_identity`: none; `C21_twice`: none |
| C22 | partial | `C22_reverse_refuted`: none; `C22_repetition_refuted`: none; `C22_reverse_partial`: none; `C22_reverse_exact_partial`: none |
| C23 | proved | `C23_closed`: none |
| C24 | proved | `C24_inside`: none |
| C25 | proved | `C25_kept`: none; `C25_clips_unique`: none; `C25_area`: none |
| C26 | proved | `C26_shared`: none; `C26_edges`: none |
| C27 | proved | `C27_identity`: none; `C27_returns`: none |
| C28 | partial | `C28_used_refuted`: none; `C28_simplify_refuted`: none; `C28_used_partial`: none |
| C29 | proved | `C29_outcome`: none; `C29_release`: none; `C29_references`: none |
| C30 | proved | `C30_rings_kept`: none |
| C31 | proved | `C31_winding`: none |
| C32 | proved | `C32_starts`: none |
| C33 | proved | `C33_fewest`: none |
| C34 | proved | `C34_merge`: none; `C34_returns`: none |
| C35 | partial | `C35_refuted`: none; `C35_total_area_partial`: none; `C35_outer_partial`: none |
| C36 | partial | `C36_refuted`: none; `C36_returns_partial`: none; `C36_followable_partial`: none; `C36_plain_partial`: none |
| C37 | partial | `C37_merged_partial`: none; `C37_refuted`: none; `C37_simple_partial`: none |
| C38 | proved | `C38_subsequence`: none |
| C39 | proved | `C39_ring`: none |
| C40 | proved | `C40_only_points`: none; `C40_rings`: none; `C40_references`: none |
| C41 | proved | `C41_release`: none; `C41_debug`: none; `C41_rejects`: none; `C41_topology`: none |
| C42 | proved | `C42_identity`: none; `C42_topology`: none |
| C43 | partial | `C43_weight_refuted`: none; `C43_lost_refuted`: none; `C43_weight_partial`: none |
| C44 | partial | `C44_monotone_refuted`: none; `C44_smallest_refuted`: none; `C44_first_partial`: none |
| C45 | proved | `C45_roundtrip`: none |
| C46 | proved | `C46_accept`: none; `C46_errors`: none; `C46_form`: none; `C46_short`: none |
| C47 | proved | `C47_file`: none |
| C48 | proved | `C48_accept`: none; `C48_sizes`: none |
| C49 | partial | `C49_panic_refuted`: none; `C49_new_partial`: none; `C49_next_partial`: none |
| C50 | partial | `C50_ends_refuted`: none; `C50_settles_partial`: none; `C50_records_partial`: none |
| C51 | proved | `C51_file`: none; `C51_fields`: none; `C51_accepted`: none |
| C52 | proved | `C52_items`: none |
| C53 | proved | `C53_numeric`: none |
| C54 | proved | `C54_character`: none; `C54_form`: none |
| C55 | proved | `C55_found`: none; `C55_missing`: none; `C55_shapefile`: none |
| C56 | partial | `C56_panic_refuted`: none; `C56_new_partial`: none; `C56_read_string_partial`: none; `C56_fields_partial`: none |
| C57 | proved | `C57_file`: none |
| C58 | partial | `C58_kept`: R1; `C58_split_refuted`: R1; `C58_regions_partial`: R1; `C58_debug_partial`: R1 |
| C59 | proved | `C59_position`: R1; `C59_range`: R1; `C59_borders`: R1; `C59_monotone`: R1 |
| C60 | partial | `C60_rectangle_refuted`: R1; `C60_small_partial`: R1 |
| C61 | proved | `C61_closed_rings`: none |
| C62 | proved | `C62_iteration_order`: none |
| C63 | proved | `C63_unchanged`: none; `C63_changed`: none |
| C64 | proved | `C64_long`: none; `C64_unique`: none |
| C65 | proved | `C65_display`: none; `C65_first_error`: none; `C65_printed`: none |
| C66 | proved | `C66_join`: none; `C66_panic`: none |
| C67 | proved | `C67_new`: none; `C67_new_error`: none; `C67_open_new`: none; `C67_missing`: none |
| C68 | proved | `C68_x`: R1; `C68_y`: R1 |
| C69 | proved | `C69_x`: R1; `C69_y`: R1 |
| C70 | proved | `C70_flat`: R1; `C70_infinite`: R1 |
| C71 | partial | `C71_hole_refuted`: none; `C71_merged_partial`: none; `C71_built_merged_partial`: none; `C71_refuted`: none; `C71_simple_partial`: none; `C71_overflow_partial`: none; `C71_built_partial`: none |
| C72 | proved | `C72_panics`: none |
| C73 | proved | `C73_build`: none; `C73_normalize`: none; `C73_clip`: none; `C73_simplify`: none |
| C74 | proved | `C74_masks`: none; `C74_rectangle`: none |
| C75 | proved | `C75_ok`: R1; `C75_err`: R1; `C75_file`: R1; `C75_length`: R1 |
| C76 | proved | `C76_counts`: none; `C76_uses`: none; `C76_unused`: none; `C76_built`: none; `C76_normalized`: none |
| C77 | proved | `C77_import`: R1; `C77_cat`: none; `C77_show`: none; `C77_cat_panic`: none |
| C78 | proved | `C78_edges`: none; `C78_simplify`: none |
| C79 | proved | `C79_normalize`: none; `C79_simplify`: none; `C79_clip`: none |
| C80 | proved | `C80_any_ray`: none; `C80_far_away`: none; `C80_direction`: none; `C80_start`: none; `C80_build`: none |
| C81 | proved | `C81_covered`: none; `C81_plain`: none |
| C82 | proved | `C82_inside`: none; `C82_ring`: none; `C82_outside`: none |
| C83 | proved | `C83_pipeline`: none |
| C84 | proved | `C84_number`: none; `C84_format`: none; `C84_point`: none; `C84_edge`: none; `C84_ring`: none; `C84_region`: none |
| C85 | proved | `C85_messages`: none; `C85_open`: none; `C85_read`: none; `C85_text`: none |
| C86 | partial | `C86_list_refuted`: none; `C86_list_partial`: none; `C86_text_partial`: none |
| C87 | proved | `C87_panics`: none; `C87_result`: none; `C87_built`: none |
| C88 | proved | `C88_text`: R1; `C88_zero`: R1; `C88_one`: R1; `C88_crash`: R1; `C88_panics`: R1; `C88_counts`: R1; `C88_file`: R1 |
| C89 | proved | `C89_sibling`: none; `C89_plain`: none; `C89_shape`: none; `C89_idempotent`: none; `C89_open`: none; `C89_files`: none |
| C90 | proved | `C90_ascii`: none; `C90_utf8`: none; `C90_windows1252`: none; `C90_agree`: none; `C90_openers`: none; `C90_table`: none |
| C91 | proved | `C91_open`: none; `C91_values`: none; `C91_import`: R1; `C91_listing`: none; `C91_windows1252`: none |
| C92 | partial | `C92_open_ascii_refuted`: none; `C92_open_ascii_partial`: none; `C92_open`: none |
| C93 | proved | `C93_run`: R1; `C93_usage`: R1; `C93_panics`: R1 |
| C94 | proved | `C94_kept`: none |
| C95 | partial | `C95_settled_refuted`: none; `C95_few_partial`: none |
| C96 | proved | `C96_chain`: none; `C96_root`: none; `C96_description`: none |
| C97 | proved | `C97_twice`: none; `C97_exact`: none |
| C98 | partial | `C98_fewer_refuted`: none; `C98_few_partial`: none; `C98_order_partial`: none |
| C99 | partial | `C99_twice_refuted`: none; `C99_iff_partial`: none; `C99_settled_partial`: none |
| C100 | proved | `C100_local`: none; `C100_together`: none |
| C101 | proved | `C101_edge`: none; `C101_shapes`: none; `C101_returns`: none |
| C102 | proved | `C102_order`: none; `C102_determined`: none; `C102_same_paths`: none |
| C103 | proved | `C103_shapes`: none; `C103_parts`: none; `C103_shift`: none; `C103_returns`: none |
| C104 | partial | `C104_shift_refuted`: none; `C104_mirror_refuted`: none; `C104_swap_refuted`: none; `C104_reverse_refuted`: none; `C104_up_partial`: none; `C104_down_partial`: none; `C104_down_checked_partial`: none |
| C105 | proved | `C105_areas`: none; `C105_build`: none; `C105_normalize`: none; `C105_clip`: none; `C105_simplify`: none; `C105_open`: none; `C105_next`: R1; `C105_programs`: R1 |
| C106 | partial | `C106_regions_refuted`: none; `C106_edges_refuted`: none; `C106_build_partial`: none; `C106_normalize_partial`: none; `C106_clip_partial`: none; `C106_follow_partial`: none; `C106_rings_partial`: none |
| C107 | proved | `C107_build`: none; `C107_normalize`: none; `C107_clip`: none; `C107_simplify`: none; `C107_run`: none |
| C108 | proved | `C108_shp`: none; `C108_dbf`: none; `C108_shapefile`: none; `C108_regions`: R1; `C108_cat`: none; `C108_program`: R1 |
| C109 | proved | `C109_release`: none; `C109_returned`: none; `C109_regions`: none |
| C110 | partial | `C110_rings`: none; `C110_unique_partial`: none; `C110_refuted`: none |
| C111 | proved | `C111_frame`: none; `C111_regions`: none |
| C112 | proved | `C112_halves`: none; `C112_one_side`: none; `C112_ring`: none; `C112_regions`: none; `C112_both_sides`: none |
| C113 | proved | `C113_border`: none; `C113_no_gaps`: none; `C113_parity`: none |
| C114 | proved | `C114_shp_pieces`: none; `C114_dbf_pieces`: none; `C114_pieces`: none; `C114_buffered`: none; `C114_open`: none; `C114_shp_bytes`: none; `C114_dbf_bytes`: none; `C114_bytes`: none; `C114_shp_fault`: none; `C114_dbf_fault`: none; `C114_fault`: none |
| C115 | proved | `C115_rebuild`: none; `C115_more`: none; `C115_normalized`: none; `C115_any`: none; `C115_returns`: none; `C115_whole`: none |
| C116 | proved | `C116_edge`: none; `C116_exact_edge`: none; `C116_topology`: none |
| C117 | proved | `C117_build`: none; `C117_normalize`: none; `C117_clip`: none; `C117_simplify`: none; `C117_alike`: none |
| C118 | proved | `C118_nothing_redundant`: none; `C118_each_once`: none; `C118_built`: none |
| C119 | partial | `C119_refuted`: none; `C119_merged_partial`: none |
| C120 | partial | `C120_build`: none; `C120_normalize`: none; `C120_simplify_refuted`: none; `C120_simplify_partial`: none; `C120_clip_refuted`: none; `C120_clip_partial`: none |
| C121 | proved | `C121_build`: none; `C121_normalize`: none; `C121_simplify`: none; `C121_clip`: none; `C121_clip_edge`: none; `C121_uses`: none |
| C122 | proved | `C122_edge`: none; `C122_places`: none; `C122_any_stretches`: none; `C122_boxes`: none |
| C123 | partial | `C123_up_partial`: none; `C123_recalculated_partial`: none; `C123_down_partial`: none; `C123_down_refuted`: none; `C123_pop_refuted`: none; `C123_start_refuted`: none |
| C124 | proved | `C124_same`: none; `C124_edge`: none; `C124_topology`: none; `C124_sift`: none |
| C125 | partial | `C125_build_partial`: none; `C125_normalize_partial`: none; `C125_simplify_refuted`: none; `C125_simplify_partial`: none; `C125_clip_refuted`: none; `C125_clip_partial`: none |
| C126 | partial | `C126_build`: none; `C126_normalize`: none; `C126_simplify`: none; `C126_clip_refuted`: none; `C126_clip_exact_refuted`: none; `C126_clip_partial`: none |
| C127 | proved | `C127_built`: none; `C127_build`: none; `C127_again`: none |
| C128 | proved | `C128_normal`: none |
| C129 | partial | `C129_simplify`: none; `C129_winding_refuted`: none; `C129_different_refuted`: none |
| C130 | partial | `C130_records_partial`: none; `C130_end_partial`: none; `C130_end_refuted`: none; `C130_beyond_refuted`: none |
| C131 | proved | `C131_import`: R1; `C131_build`: none; `C131_clip`: none; `C131_normalize`: none; `C131_simplify`: none; `C131_same`: none; `C131_chain`: none |
| C132 | proved | `C132_build`: none; `C132_union`: none; `C132_normalize`: none; `C132_together`: none; `C132_clip`: none; `C132_simplify`: none |
| C133 | partial | `C133_points`: none; `C133_hashes`: none; `C133_weights`: none; `C133_edges`: none; `C133_rings_partial`: none; `C133_rings_refuted`: none; `C133_stable`: none; `C133_shp_points`: R1 |
| C134 | proved | `C134_edge`: none; `C134_ring`: none; `C134_map`: none |
| C135 | proved | `C135_point`: R1; `C135_import`: R1 |
| C136 | proved | `C136_builds`: none; `C136_map`: none; `C136_normalized`: none; `C136_import`: R1 |
| C137 | proved | `C137_point`: R1; `C137_twice`: R1; `C137_import`: R1 |
| C138 | proved | `C138_built`: none; `C138_builds`: none; `C138_map`: none; `C138_normalized`: none; `C138_import`: R1 |
| C139 | proved | `C139_describe`: none; `C139_order`: R1; `C139_units`: R1; `C139_rings`: R1 |
