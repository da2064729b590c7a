# Formal model of 3DPro: design

## Trusted base

* The Coq 8.16.1 kernel, including `vm_compute`.
* What `Print Assumptions` prints under each theorem. Every theorem in the `Prop*.v` files other
  than `PropFloatLink.v`, `PropSurf.v`, `PropSurfScale.v`, `PropPlanar.v`, `PropNormal.v`, `PropRSingle.v` and `PropRSphere.v` is "Closed under the global context": no axioms, neither of this development
  nor of a library. The three theorems of `PropFloatLink.v` (`float_positions_stable_partial`,
  `float_coordinates_fit`, `float_error_bounded_partial`) use Flocq's rounding theorems, which speak
  about the standard library's reals, and so depend on exactly these axioms of the standard library:
  `ClassicalDedekindReals.sig_not_dec`, `ClassicalDedekindReals.sig_forall_dec`,
  `FunctionalExtensionality.functional_extensionality_dep`, `Classical_Prop.classic`.
  `rnd24_single` and `rtree_single_partial` of `PropRSingle.v` depend on the same four axioms for the same
  reason (`rtree_single_refuted` on none), and so does `rtree_sphere_single_partial` of `PropRSphere.v` (the
  other theorems of that file on none).
  The theorems of `PropSurf.v` (`triangle_surface`, `face_surface`, `removal_error_value`,
  `removal_error_refuted`, `removal_error_moved_refuted`) and of `PropPlanar.v` (`planar_passes`,
  `planar_only_partial`, `planar_only_refuted`) and `PropNormal.v` (`facet_normal`, `vertex_normal_is`) are about square roots in the standard
  library's reals and depend on the first three of these axioms, the last three of `PropSurf.v` (through
  `Rpower`) on `Classical_Prop.classic`, too, as does `removal_error_scale` of `PropSurfScale.v`.
  (A scan of the loaded libraries, as `vcheck` makes, also names `Coq.ssr.ssrunder.Under_rel.*`:
  parameters of a module type of the standard library's ssreflect plugin files, on which no theorem
  here depends.)
* The hand-written reading of the C++ source into Gallina. Every definition cites file and lines
  and says what it simplifies.
* Floating point is replaced by exact rationals (`Q`) or integers unless a comment says otherwise.
* `assert` is compiled out: the Makefile always passes `-DNDEBUG` to C++ files. A failed assertion is
  therefore modelled as "the code carries on" and never as a protection.
* Undefined behaviour (an access outside an array, a shift out of range) is the outcome `None`;
  theorems that conclude `Some` also prove its absence.

## Layout

`rocq/theories/`: `*Model.v` files hold definitions only, `*Proofs.v` the lemmas, `*Spec.v` small
independent specifications, `Prop*.v` only theorem statements closed by a lemma, with
`Print Assumptions` and a non-vacuity `Example` beside each.

A property that is false of the faithful model is listed with a theorem named `..._refuted`, which
proves the failure; a theorem giving the part that does hold is listed with it.

## What is modelled

| source | modelled | not modelled |
| --- | --- | --- |
| `src/PPMC/rangeCoder` | range coder and adaptive model (`RangeCoderModel`, `QsModel`) | configurations other than the one compiled |
| `src/PPMC/mymeshIO.cpp` | bit fields, base mesh header, stream layout (`BitsModel`, `ObjectModel`), numbers of the OFF output (`TextModel`), OFF files (`OffFileModel`) | |
| `src/PPMC/mymeshComp.cpp`, `mymeshDecomp.cpp`, `mymeshUtils.cpp`, `mymeshBaseBuilder.h` | one round in either direction (`PpmcModel`), surfaces of faces (`SurfModel`), normals (`NormalModel`), barycenters (`BaryModel`), all rounds (`PpmcLevels`), record coding (`CodecModel`) | distance estimates for statistics |
| `src/PPMC/mymeshCompTests.cpp` | removalError, isPlanar (`SurfModel`), isRemovable, willViolateManifold (`PpmcModel`, convexity test a parameter: any answer), isConvex with computeNormal (`ConvexModel`) |  |
| `src/PPMC/mymesh.cpp` | quantisation (`QuantModel`, in floats `FloatQuantModel`), operations per level (`LodModel`), size of the buffer and text of unsigned numbers (`BufferModel`, number by number `OffReadModel`) | text input, choice of the departure vertices (any edge) |
| `src/PPMC/frenetRotation.cpp` | integer rotations (`RotModel`), local frames in exact numbers (`FrameModel`, not called) | floating point of the frames |
| `src/geometry/aab.h` | boxes and ranges (`AabModel`; box distance in single precision in `FloatBoxModel`) | printing |
| `src/geometry/SegDist.cpp`, `SegDist.cu` | all (`SegDistModel`, `SegGpuModel`, whole batches `GpuAllModel`) | CUDA runtime, get_max (not called) |
| `src/geometry/TriInt.cpp`, `TriInt.cu` | all (`TriIntModel`) | CUDA runtime |
| `src/geometry/TriDist.cpp` | all (`TriDistModel`; called by no program) | |
| `src/geometry/geometry_computer.cpp`, `cuda_common.cu` | batches (`BatchModel`), sharing and memory layout of devices (`DeviceModel`), sharing of the processor (`CpuModel`, not called) | CUDA runtime |
| `src/index/octree.cpp`, `index.h` | octree and its queries (`OctreeModel`, memory of its nodes `JoinMemModel`; distance query in single precision in `FloatBoxModel`) | printing |
| `src/index/stree.cpp` | sort partition, its tree and files (`SpModel`, memory of its nodes `PartMemModel`) | `std::sort`, `pow` (any result meeting its contract) |
| `src/index/RTree.h` | insertion, search, removal, iteration, files (`RTreeModel`), rectangles at an iterator (`BoundsModel`), nodes as memory (`RTreeMemModel`), spherical volume (`SphereModel`) | visualisation helpers |
| `src/join/SpatialJoin.cpp`, `.h` | filters and refinement, batches, tile scheduling (`JoinModel`, `BatchModel`), distances with --aabb (`TreeDistModel`, trees kept with the meshes `TreeCacheModel`), reports (`JoinerModel`), memory (`JoinMemModel`), whole intersection joins (`EndModel`), distances and within joins from the edges on (`EndDistModel`), whole nearest-neighbour joins (`EndNnModel`), times measured and reported (`TimeModel`) | logging |
| `src/storage/tile.cpp`, `.h` | tile files and objects (`TileModel`, their memory `TileMemModel`), paths and threads at one tile (`OpenModel`) | `cache`, `job_sharing` are empty stubs |
| `src/spatial/himesh.cpp`, `spatial_common.cpp` | when a skeleton is computed (`SkelModel`), voxels, filling, sampling of cores (`VoxelModel`), arrays of vertices and corners (`ArraysModel`), filling by kind (`FillKindModel`), WKT output (`TextModel`), make_cube (`ShapeModel`), text input and decompress_mesh (`ProgModel`) | CGAL skeletons; AABB trees by their documented answer (`TreeDistModel`) |
| `src/partition/partition.cpp` | sampling (`SampleModel`), partition (`SpModel`), memory (`PartMemModel`), sizes and percentage of the input (`SizeModel`) | |
| `src/test/joiner.cpp` | list of levels (`JoinerModel`); pairs of tiles (`JoinMainModel`) | command line |
| `src/test/data_generator.cpp` | prototypes and slots, draws, marking of vessel voxels, vessel grid, records, job queue threads (`GenModel`), text of records (`GenTextModel`), memory (`GenMemModel`, threads one after the other) | command line, reading of prototypes, compression (see C90) |
| `src/test/compress.cpp` | parallel compressor (`CompressModel`), memory of a thread (`CompressMemModel`), what becomes of an object from there into the voxels (`PipeModel`) | command line; other test programs |
| `src/test/towkt.cpp`, `adjust_polyhedron.cpp` | output lines (`TextModel`), moving and shrinking (`ShapeModel`) | command line |
| `src/test/fixer.cpp` | taking apart, merging, filling, main, files (`FixerModel`), remove_redundant (`RedundantModel`, not called), text (`FixerTextModel`), memory (`FixMemModel`) | fractional coordinates in files |
| `src/test/H5ToOFF.cpp` | names, memory of the tables, numbers written (`H5Model`) | the HDF5 library, files |
| `src/test/decompress.cpp`, `partitioner.cpp` | main (`ProgModel`) and the zlib statistics (`ZlibStatModel`), memory of the partitioner (`PartMemModel`) | zlib itself (its documented behaviour), command line |
| `src/spatial/spatial.h`, `src/PPMC/mymesh.h` | distances between points (`PointDistModel`) | rounding; the rest is declarations of functions above |
| `src/test/get_boxes.cpp` | memory (`BoxMemModel`), boxes (`BoxFileModel`) | names and format of the files here (see `LogModel`) |
| `src/util/util.h` | tokenize, remove_slash (`TokenModel`), list_files (`ProgModel`), file_size (`SizeModel`), time stamps, progress, samples and file names (`LogModel`) | clocks, random numbers (any number in range) |

## Not modelled

CGAL's own code: the half-edge structure and incremental builder are modelled by their documented
effect (`PpmcModel`, `PpmcCheck.of_faces`), AABB trees by the distance they answer, skeletons not at all. CUDA scheduling
beyond interleavings of kernel steps, the file system beyond sequences of bytes, floating-point
rounding except where a file says so (`FloatQuantModel`, `FloatBoxModel`, `RTreeModel` seeds), wall-clock time,
logging.

## Per property

### C01 Range coder round trip

* Status: proved. Theorems: `range_coder_round_trip`, `range_coder_lead_byte_255_refuted`.
* Model and method: RangeCoderModel: encoder state (low, range, buffer, help, bytecount, output) on 32-bit words, decoder over bytes. Ghost value of the exact arithmetic code, invariant by induction over the steps, decoder simulates encoder.
* Limits: Preconditions: lead byte below 255 (255 is taken for EOF by the reader), fewer than about 2^30 items per segment (32-bit counter of outstanding bytes).

### C02 Coded segments are self-delimiting

* Status: proved. Theorems: `range_coder_segments_self_delimiting`, `range_coder_read_is_local`.
* Model and method: Same model; the decoder stops exactly behind the segment, bytes behind it are irrelevant.

### C03 Adaptive model keeps a complete frequency partition

* Status: proved. Theorems: `adaptive_model_partition`, `adaptive_model_no_overflow`.
* Model and method: QsModel: the C struct as a record of lists. Invariant over all update histories.

### C04 Symbol lookup inverts the slice assignment

* Status: proved. Theorems: `symbol_lookup_inverts_slices`, `symbol_lookup_small_precision_refuted`.
* Model and method: Same model; the search table brackets the binary search.
* Limits: Needs a precision of at least 7 bits (the code uses 10 and 18); below that the acceleration table is partly uninitialised.

### C05 Adaptive symbol stream round trip

* Status: proved. Theorems: `adaptive_stream_round_trip`.
* Model and method: CodecModel: symbol loops over the two models above; both sides keep equal models.

### C06 Removed-vertex records survive the codec

* Status: proved. Theorems: `removed_vertex_record_round_trip`, `removed_vertex_outside_window_refuted`.
* Model and method: CodecModel; from C05 plus the scan for the minimum and maximum.
* Limits: Residuals in signed 16 bits with spread below 65535, which contains the documented window; outside it the record is corrupted.

### C07 Inserted-edge flags survive the codec

* Status: proved. Theorems: `inserted_edge_record_round_trip`.
* Model and method: CodecModel; from C05.

### C08 Whole progressive stream round trip

* Status: proved. Theorems: `whole_object_round_trip`, `progressive_stream_round_trip`.
* Model and method: ObjectModel: header (C11) followed by the records (C06, C07); induction on rounds.
* Limits: The numbers of symbols the mesh traversal asks for are a parameter here; C90 is the same with the traversal modelled.

### C09 Progressive prefix stability

* Status: proved. Theorems: `progressive_prefix_stable`, `reading_ignores_what_follows`, `coarse_levels_are_prefixes`, `whole_object_round_trip`.
* Model and method: Induction on rounds using C02.

### C10 Bit field I/O round trip

* Status: proved. Theorems: `bit_fields_round_trip`, `wide_bit_field_refuted`.
* Model and method: BitsModel: 32-bit loads and stores with byte swap and OR; bit-level characterisation with Z.testbit.
* Limits: Widths 1 to 25, values fitting their width, buffer zero from the cursor on. 26 bits or more are undefined at some alignments.

### C11 Base mesh header round trip

* Status: proved. Theorems: `base_mesh_round_trip`.
* Model and method: BitsModel: writeBaseMesh and readBaseMesh field by field, including the renumbering of vertices; the mesh builder is not modelled.
* Limits: At least 3 bytes must follow the header, which the records guarantee. The bits per vertex id are a parameter bounded below (the code computes ceil(log n/log 2) in floating point).

### C12 Base mesh of any size is readable

* Status: partial. Theorems: `base_mesh_any_size_refuted`, `large_face_written_refuted`.
* Model and method: Bounds on whatever readBaseMesh returns; vm_compute witness for the writer.
* Limits: Refuted: the property as stated is false. No buffer is read as a mesh with 65536 vertices or faces, a face of more than 10 corners, 64 rounds or more than 16 bits of quantisation.

### C13 Bounded quantisation error

* Status: proved. Theorems: `quantisation_error_bounded`, `flat_box_not_quantisable_refuted`, `float_error_bounded_partial`.
* Model and method: QuantModel in exact rationals; field reasoning with Qfloor.
* Limits: Exact arithmetic; with IEEE floats the error is at most 9/10 of a step for boxes within 2^22 - 2^16 steps of the origin (float_error_bounded_partial, uses the axioms of the reals); a box of zero extent has no usable step (division by zero). The bound is half a step even for the clamped maximum.

### C14 Quantised positions are fixed points

* Status: proved. Theorems: `quantised_positions_are_fixed_points`, `quantisation_error_bounded`.
* Model and method: QuantModel.
* Limits: Exact arithmetic.

### C15 Refining an object is monotone and path independent

* Status: proved. Theorems: `refining_path_independent`, `refining_decodes_exactly`, `refining_whole_rounds`, `no_rounds_object_overread_refuted`, `level_above_100_overread_refuted`.
* Model and method: LodModel: the control state of the decoder, for any monotone stop test.
* Limits: At least one round and levels up to 100. Without rounds the test divides 0 by 0 and a round that does not exist is decoded; above level 100 decoding never stops.

### C16 Box distance is a tight lower bound

* Status: proved. Theorems: `box_mindist_tight`.
* Model and method: AabModel over rationals; arithmetic per axis.
* Limits: Exact arithmetic.

### C17 Box upper distance bounds the object distance

* Status: partial. Theorems: `box_maxdist_bound_refuted`, `box_maxdist_bound_partial`.
* Model and method: AabModel; explicit witness.
* Limits: Refuted: the value is the squared distance of the box centres; two nested closed surfaces are farther apart. It holds for objects containing their box centre.

### C18 Accumulated box is the least bounding box

* Status: proved. Theorems: `accumulated_box_least`, `accumulated_box_order_irrelevant`.
* Model and method: AabModel; induction on the sequence.
* Limits: Coordinates below DBL_MAX in magnitude.

### C19 Overlap test is exact for open boxes

* Status: proved. Theorems: `overlap_test_exact`, `overlap_test_symmetric`, `overlap_with_container`, `overlap_flat_refuted`.
* Model and method: AabModel.
* Limits: Boxes of positive thickness; a flat box on the side of its container does not overlap it.

### C20 Octree intersection query is exact

* Status: proved. Theorems: `octree_intersect_exact`.
* Model and method: OctreeModel: addObject with splits and undone splits; inductive tree invariant relating a node to the objects overlapping its box.
* Limits: Objects of positive thickness inside the universe, total weight below 2^32, and a recursion that returned (explicit fuel; when it does is C161). The query excludes objects with the pointer of the query object.

### C21 Octree distance query misses nothing

* Status: proved. Theorems: `octree_within_exact`.
* Model and method: OctreeModel; the octant holding the nearest point is followed down.
* Limits: As C20. Also proved: nothing else is reported.

### C22 Octree nearest-neighbour query keeps the nearest

* Status: proved. Theorems: `octree_nn_keeps_nearest`.
* Model and method: OctreeModel query_nn with the list update that skips an element after an erasure; invariant on the candidate list and the bound.
* Limits: As C20, and box ranges must bracket the true distances (C17 shows this is not automatic).

### C23 Every inserted object is findable

* Status: partial. Theorems: `octree_finds_flat_objects_refuted`, `octree_finds_objects_partial`.
* Model and method: OctreeModel; computed witness.
* Limits: Refuted: a flat object lying in a split plane overlaps no octant and is lost. Objects of positive thickness are found.

### C24 Octree leaves tile the universe

* Status: proved. Theorems: `octree_leaves_tile`.
* Model and method: OctreeModel; octants of a thick box cover it and do not overlap.
* Limits: As C20.

### C25 Leaf occupancy matches contents

* Status: proved. Theorems: `octree_leaf_contents`.
* Model and method: OctreeModel tree invariant.
* Limits: As C20.

### C26 Distance-join filter loses no answer

* Status: proved. Theorems: `within_filter_complete`, `within_filter_result_refuted`.
* Model and method: JoinModel: octree query, sorting, skipping of duplicates and the voxel loops; induction over the loops.
* Limits: Reported directly means reaching the place marked "todo report here" (SpatialJoin.cpp:269), which records nothing: the second theorem shows that such answers leave no trace in the result. Objects of the second tile are thick with total weight below 2^32 (C20). The limit is compared with squared distances.

### C27 Distance-join filter reports no false answer

* Status: partial. Theorems: `within_filter_sound_refuted`, `within_filter_sound_partial`.
* Model and method: JoinModel; explicit tiles.
* Limits: Refuted: nested surfaces at least 1 apart are reported as within 0, because the upper distance of boxes is that of their centres. It holds when that value bounds the distance of the contents.

### C28 Distance-join refinement attributes distances to the right pair

* Status: partial. Theorems: `within_round_misattributes_refuted`, `within_round_own_distance_partial`.
* Model and method: JoinModel within_round with the running index.
* Limits: Refuted: after an entry is decided, the pairs of its further candidates do not advance the index, so later entries are judged by other pairs' distances, both reporting wrong objects and losing right ones. It holds when every entry has at most one candidate.

### C29 Nearest-neighbour candidate pruning is safe

* Status: proved. Theorems: `nn_candidates_any_order`, `nn_filter_keeps_nearest`.
* Model and method: JoinModel; invariant: every range kept reaches the nearest distance from above, those of the nearest from below.
* Limits: Ranges must bracket the true distances (C17 shows the upper one does not always).

### C30 Nearest-neighbour refinement is safe

* Status: proved. Theorems: `nn_join_keeps_nearest`.
* Model and method: JoinModel nn_refine for any list of rounds; the invariant of C29 with the running index.
* Limits: Computed distances never below the true one and exact at the highest level.

### C31 Intersection join reports every intersecting object

* Status: proved. Theorems: `intersection_join_exact`, `intersection_join_touching_refuted`.
* Model and method: JoinModel mbb_intersect and intersect_round for any list of levels.
* Limits: Hypothesis: voxels whose contents meet have boxes with a common inner point. Objects that merely touch at the side of their boxes are not reported (second theorem). The triangle test is assumed to be applied to every pair, which C34 shows the CPU batch does not do.

### C32 Batch packing hands each pair its own data

* Status: proved. Theorems: `packing_exact`, `packing_overflow_refuted`.
* Model and method: BatchModel: map, copy and quadruples, for any iteration order of the map; the buffer is a function of the index.
* Limits: Less than 2^32 floats in all; beyond that the 32-bit offsets wrap and voxels overwrite each other (second theorem).

### C33 CPU distance batch computes every pair exactly once

* Status: partial. Theorems: `distance_batch_complete`, `distance_batch_once_partial`, `distance_batch_once_refuted`, `distance_batch_single_thread_twice`.
* Model and method: BatchModel chunks and arbitrary interleavings of threads.
* Limits: Refuted: with a single thread, the default, the caller runs the batch and then starts a thread that runs it again, so every pair is computed twice. All results are right in every case, and with two or more threads every pair is computed exactly once. Pair counts below 2^31.

### C34 CPU intersection batch computes every pair

* Status: partial. Theorems: `intersect_batch_remainder_refuted`, `intersect_batch_remainder_lost`, `intersect_batch_covers_partial`.
* Model and method: BatchModel chunks.
* Limits: Refuted: with t threads only the first t*(n/t) pairs are computed; the last theorem says exactly which.

### C35 Tile pairs are joined exactly once under every schedule

* Status: proved. Theorems: `join_each_pair_once`, `join_terminates`.
* Model and method: BatchModel: small-step interleavings of the workers with the lock; invariant, progress and a decreasing budget.
* Limits: At least one worker. The unlocked read of queue.empty() is taken to return the current state (formally a data race).

### C36 Segment distance is attained

* Status: proved. Theorems: `segdist_attained`.
* Model and method: SegDistModel SegDist statement by statement; the answer is evaluated at the clamped feet.
* Limits: Exact rationals instead of floats.

### C37 Segment distance is minimal

* Status: partial. Theorems: `segdist_minimal_refuted`, `segdist_minimal_partial`.
* Model and method: Optimality conditions of the convex quadratic gap.
* Limits: Refuted: when the closest point of the line of the first segment lies outside it, the routine clamps and projects once and can miss the minimum (witness off by more than 3 in squared distance). It is the minimum whenever that point lies inside.

### C38 Batch segment distance is the minimum over all pairs

* Status: proved. Theorems: `segdist_single_minimum`.
* Model and method: Fold over the nested loops.
* Limits: Minimum of the pairwise answers, over the first 10000 segments of each side as the code cuts larger sets.

### C39 Triangle test answers are sound

* Status: partial. Theorems: `triint_sound_refuted`, `triint_touch_refuted`, `triint_corner_refuted`, `triint_sound_partial`.
* Model and method: TriIntModel TriInt statement by statement; Cramer's rule and case analysis over the edges cut.
* Limits: Refuted: 'disjoint' can be wrong for a first triangle parallel to the z axis (only x and y are compared), for a corner of the second triangle lying in the plane of the first, and for a crossing line through the first corner. 'Intersecting' is right for all triangles of positive area, 'disjoint' is right in general position.

### C40 Triangle set test is the disjunction

* Status: proved. Theorems: `triint_single_disjunction`.
* Model and method: Nested loops with early return.

### C41 Voxel filling partitions the primitives

* Status: proved. Theorems: `voxel_fill_partition`, `voxel_fill_once`.
* Model and method: VoxelModel fill_voxel with bounds-checked buffers; invariant of the copy loop; floats of the primitives specified separately (mesh_floats).
* Limits: Exact rationals; counts without int overflow. The cores must be initialised if there are several voxels. The arrays are released with delete instead of delete[], which is outside the model.

### C42 Voxel boxes contain their primitives

* Status: partial. Theorems: `voxel_boxes_refuted`, `voxel_boxes_partial`.
* Model and method: VoxelModel generate_voxels for any skeleton and any random numbers.
* Limits: Refuted: primitives are assigned by their first point and boxes grow by vertices only, so long edges stick out of all boxes; witness: a prism with 1000 vertices, something at distance one is over 300000 away from every box, so box pruning loses it. The first point of every primitive does lie in its voxel's box at the level the voxels were made for.

### C43 Tile metadata round trip

* Status: proved. Theorems: `tile_meta_round_trip`.
* Model and method: TileModel: files as bytes, fread with its behaviour at the end of the file.
* Limits: Files shorter than 2^63 bytes, fewer than 2^31 voxels per object; any file contents, also garbage. The same bytes give the same boxes.

### C44 Object data is located exactly

* Status: proved. Theorems: `tile_data_located`.
* Model and method: TileModel flush (compressor), parse_raw and retrieve.
* Limits: As C43.

### C45 Tile box is the union of its objects

* Status: proved. Theorems: `tile_boxes_least`, `stored_corner_floats`.
* Model and method: TileModel object_box, tile_box; least boxes of AabProofs.
* Limits: Floats are finite; objects without voxels have no box.

### C46 A crash while saving metadata is detected

* Status: partial. Theorems: `tile_crash_refuted`, `tile_crash_partial`.
* Model and method: TileModel load on all prefixes of persist.
* Limits: Refuted: the file is written in place and read without checks, so a truncated file is accepted: fewer objects, or an invented one. Every prefix shows the complete records followed by at most one further object.

### C47 Opening with a capacity limits the objects

* Status: partial. Theorems: `tile_capacity_refuted`, `tile_capacity_partial`.
* Model and method: TileModel open_tile.
* Limits: Refuted: the first opening (no metadata) ignores the capacity; a capacity of 2^32 is cut to an int and hides everything. With metadata and capacity below 2^31 it holds.

### C48 Parallel compression writes each object once

* Status: proved. Theorems: `compress_complete`, `compress_one_worker`, `compress_contiguous`, `compress_no_overwrite`, `compress_can_finish`.
* Model and method: CompressModel: main thread and workers step by step, one step per access of a shared variable; inductive invariant over all interleavings.
* Limits: Sequentially consistent memory (the program's flags are plain bools; the C++ standard gives no such guarantee). At least one worker for termination; termination is stated as: from every reachable state the end can be reached (a fair scheduler is not modelled). maximum_lines 0 means no limit.

### C49 Sort partition keeps each object once and covers it

* Status: proved. Theorems: `sort_partition_covers`, `sort_partition_tight`, `stored_box_update_least`, `stored_box_default_empty`.
* Model and method: SpModel build_sort_partition; boxes are least upper bounds.
* Limits: Exact rationals for the boxes; fewer than 2^31 objects. Any result of std::sort that is a permutation, any result of pow.

### C50 Partition tree save/load round trip

* Status: proved. Theorems: `partition_roundtrip`, `partition_float_boxes`.
* Model and method: SpModel persist_tree and load_tree on bytes.
* Limits: All full three-level trees whose inner nodes were made with add_child, as all of the program's are; files that can be written; fewer than 2^31 children. Weights are restored too.

### C51 Sampling processes every selected line

* Status: partial. Theorems: `sampling_complete_refuted`, `sampling_groups_partial`, `sampling_multiple_of_ten`, `sampling_can_finish`.
* Model and method: SampleModel: reader and workers step by step with the mutex; inductive invariant.
* Limits: Refuted: the reader hands over lines in groups of ten and drops the last incomplete group; with one sampled line nothing is processed. Every complete group is processed exactly once under every interleaving, and no interleaving gets stuck.

### C52 R-tree search is exact

* Status: proved. Theorems: `rtree_search_exact`.
* Model and method: RTreeModel: every function of the insertion path. Invariant: shape and exact covers; the split permutes the buffer; the entries as a multiset.
* Limits: Volumes exact, not negative and growing with the box (C204 is about the volume compiled in, which grows only for boxes with min <= max); TMINNODES at most half of TMAXNODES+1. Coordinates are integers (only compared).

### C53 R-tree shape invariants

* Status: proved. Theorems: `rtree_shape`.
* Model and method: The invariant of C52, restated with smallest enclosing boxes.
* Limits: As C52.

### C54 R-tree removal removes exactly one entry

* Status: partial. Theorems: `rtree_removal_partial`, `rtree_removal_defined`, `rtree_remove_one`, `rtree_removal_refuted`.
* Model and method: RTreeModel Remove with reinsertion; invariant: an inner root has two branches.
* Limits: Refuted for a minimal fill of one (TMAXNODES 2 or 3 with the default minimum): removals can leave an inner root without branches and the next insertion reads a branch that does not exist. Proved for a minimal fill of two or more; for a minimal fill of one every search answers for exactly the stored entries until that insertion, which is the only way a history can go wrong (rtree_removal_defined). Removal compares values, not boxes, so among entries with equal values it may take out one with another box.

### C55 R-tree save/load round trip

* Status: proved. Theorems: `rtree_save_load`, `rtree_copy`, `rtree_load_refused`.
* Model and method: Induction on the height, for every continuation of the stream.
* Limits: For every history that is defined, whatever the minimal fill. The stream is a sequence of typed values; sizes and I/O errors are not modelled.

### C56 R-tree iterator enumerates everything once

* Status: partial. Theorems: `rtree_iterator`, `rtree_iterator_history`, `rtree_iterator_refuted`.
* Model and method: Stack invariant: levels increase strictly, what is pending is the rest of the entries.
* Limits: Refuted for a minimal fill of one after removals: an inner root without branches is left, and GetFirst follows a branch that is not there.  Proved for insertions and, with a minimal fill of two or more, for all histories; the second theorem discharges the depth condition for fewer than 2^32 entries.

### C57 R-tree count equals number of entries

* Status: proved. Theorems: `rtree_count`, `rtree_count_total`, `rtree_count_inserts`.
* Model and method: RTreeOneProofs: with a minimal fill of one dissolved nodes are empty, so nothing is reinserted; invariant: a shaped tree or an inner root without branches.
* Limits: For every history that is defined; by C54 the only undefined one is an insertion into a root emptied with a minimal fill of one. A removal that finds nothing does not count.

### C58 Tokenising inverts joining

* Status: proved. Theorems: `tokenize_inverts_join`, `tokenize_keeps_blanks`, `tokenize_single_blank_refuted`.
* Model and method: TokenModel: the loop as a fold over the characters; plain and quoted fields.
* Limits: The delimiters do not contain the zero character. A single empty field is lost even when blank fields are kept (third theorem).

### C59 Integer rotation is reversible

* Status: partial. Theorems: `rotation_reversible_refuted`, `rotation_reversible_partial`.
* Model and method: RotModel: all fifteen matrices as the code builds them, sin/cos/tan/acos/sqrt as parameters; lifting steps.
* Limits: Refuted: round() sends halves away from zero, so round(x+a) is not x+round(a) at a tie; the witness is an orthonormal frame with angle arccos(15/17). Reversible for every run without such a tie, for any values of the trigonometric functions.

### C60 Both devices compute the same segment distances

* Status: proved. Theorems: `segdist_devices_agree`, `gpu_kernel_of_segments`.
* Model and method: Both texts modelled separately.
* Limits: Exact rationals.

### C61 Distance zero means the segments meet

* Status: proved. Theorems: `segdist_zero_iff_meet`.
* Model and method: From the optimality conditions: a common point forces the feet inside.

### C62 GPU distance batch is the minimum under any schedule

* Status: partial. Theorems: `gpu_batch_minimum_refuted`, `gpu_batch_minimum_partial`, `gpu_batch_minimum_atomic`, `gpu_kernel_of_segments`.
* Model and method: SegGpuModel: read and write steps of the threads as an interleaving semantics.
* Limits: Refuted: threads of one launch read and write the same cell without atomics, so an interleaving can lose the smaller value. Proved: the value is always one of the pair's distances; it is the minimum when the second voxel holds one segment, and when every thread reads and writes without another in between and the first thread of the block comes first.

### C63 Triangles in parallel planes are tested exactly

* Status: proved. Theorems: `triint_parallel_exact`.
* Model and method: Coplanar branch with its macros; barycentric weights, crossing borders, projection along a non-zero component of the normal.
* Limits: Triangles of positive area.

### C64 Triangles without area are tested soundly

* Status: partial. Theorems: `triint_degenerate_refuted`, `triint_needle_refuted`, `triint_degenerate_partial`.
* Model and method: Witnesses; the three weights of a point for a triangle without area add up to 0, so they never have one sign.
* Limits: Refuted: a first triangle without area makes every height zero, and the coplanar branch then compares projections of triangles that are apart; a needle through the middle of a triangle is answered 'disjoint'.  Proved: if the first triangle has an area, 'intersecting' is right whatever the second one is.

### C65 Reported intersections of triangle sets are real

* Status: proved. Theorems: `triint_sets_sound`.
* Model and method: C40 and the sound half of C39.
* Limits: Triangles of positive area.

### C66 GPU intersection batch computes every pair

* Status: proved. Theorems: `triint_device_batch`.
* Model and method: TriIntModel tri_grid and tri_thread for any permutation of the threads.
* Limits: Offsets and sizes in range, products of offsets exact (no 32-bit overflow).

### C67 A stopped R-tree search has seen a prefix

* Status: proved. Theorems: `rtree_search_stop`.
* Model and method: Search equals handing over the full answer one by one.
* Limits: As C52.

### C68 R-tree insertion works in single precision

* Status: partial. Theorems: `rtree_float_split_refuted`, `rtree_single_refuted`, `rtree_single_partial`, `rnd24_single`, `rtree_rounded_partial`, `rtree_rounded_history_partial`, `rtree_sphere_single_refuted`, `rtree_sphere_single_partial`, `rtree_sphere_rounded_partial`.
* Model and method: Witness computed with the box volume (RectVolume); rnd24 computes the binary32 rounding on rationals and is proved equal to Flocq's round; the tree invariants of C52-C54 are proved for any property of boxes kept by covers.
* Limits: Refuted: with capacities 3 and 1, four equal squares of side 8192 and subtraction rounded to 24 bits, PickSeeds finds no pair and LoadNodes indexes with -1. Positive part: if all inserted boxes lie in a box of volume at most 2^23 - 1, insertion, removal (minimal fill of two or more), count and search are right for every rounding that keeps the order and the halves up to 2^23, as single precision does. The same for the volume compiled in (spheres, C204), all of whose operations may round; four equal boxes of 6144 by 8192 refute it there.

### C69 Skeleton sampling keeps the wanted number of cores

* Status: partial. Theorems: `skeleton_sampling_refuted`, `skeleton_sampling_few_refuted`, `skeleton_sampling_partial`, `skeleton_sampling_choice`.
* Model and method: VoxelModel get_skeleton_points for any sequence of random values.
* Limits: Refuted: get_rand_number returns 1..n, so with n points the index n is out of bounds, and the fallback search is dead code, so fewer points than wanted may be kept. With more points than wanted the sampling is safe, keeps 1..n of the points other than the first.

### C70 Objects added from memory become visible

* Status: partial. Theorems: `tile_add_raw_refuted`, `tile_add_raw_keeps_objects`.
* Model and method: TileModel add_raw.
* Limits: Refuted: add_raw enlarges the tile's box but drops the object; no tile ever gains an object.

### C71 Disabling inner parts covers the object with one voxel

* Status: proved. Theorems: `tile_innerpart_disabled`.
* Model and method: TileModel disable_innerpart.
* Limits: Exact rationals.

### C72 Sort partition respects the number of tiles

* Status: proved. Theorems: `sort_partition_tiles`.
* Model and method: SpModel; number of slices of a cut.
* Limits: The truncated cube root is assumed not to exceed the real one.

### C73 Sort partition cuts follow the coordinates

* Status: proved. Theorems: `sort_partition_ordered`.
* Model and method: SpModel; sorted lists stay ordered across slices.
* Limits: Any std::sort result that is a sorted permutation.

### C74 Partition node weight is the weight of its objects

* Status: partial. Theorems: `sort_partition_weight_refuted`, `sort_partition_weight_partial`.
* Model and method: SpModel add_object, add_child.
* Limits: Refuted: a new node's weight starts at 1, so each node counts itself. The weight is the sum plus the number of nodes of the subtree, modulo 2^32.

### C75 Built partitions survive saving

* Status: partial. Theorems: `partition_saved_refuted`, `partition_save_bounds_refuted`, `partition_roundtrip`.
* Model and method: SpModel build_sort_partition, persist_tree, load_tree with the float patterns of the boxes.
* Limits: Refuted: the numbers of children are taken from the first node of each level, but slices differ: 14 objects and 12 tiles lose two tiles, 3 objects and 8 tiles read beyond a vector. Trees with equal numbers of children survive (C50).

### C76 Distance ranges compare and merge correctly

* Status: proved. Theorems: `range_comparison_exact`, `range_update_smallest`.
* Model and method: AabModel; the meaning of a range is the set of numbers between its ends.
* Limits: Exact arithmetic.

### C77 Volume and diagonal of boxes

* Status: proved. Theorems: `volume_monotone`, `volume_additive`, `volume_unit`, `diagonal_is_diameter`.
* Model and method: AabModel; the volume is fixed by being additive under cuts along each axis and 1 for a unit cube.
* Limits: Exact arithmetic.

### C78 Octree finds objects whatever they weigh

* Status: partial. Theorems: `octree_weight_wrap_refuted`, `octree_weight_wrap_partial`, `octree_finds_objects_partial`.
* Model and method: OctreeModel; computed witness of four objects.
* Limits: Refuted: weights are added modulo 2^32; when the weight of an inner node wraps to 0 the next object is put on a list no query reads. With a total below 2^32 objects of positive thickness are found.

### C79 Exactly one trailing slash is removed

* Status: proved. Theorems: `remove_slash_spec`.
* Model and method: TokenModel.
* Limits: The empty path is out of range (at() throws).

### C80 A coded segment ends with its length

* Status: proved. Theorems: `range_coder_trailer`.
* Model and method: RangeCoderModel; the byte counter counts the bytes of the code so far.
* Limits: As C01.

### C81 Adaptive frequencies change at bounded intervals

* Status: proved. Theorems: `adaptive_model_pace`.
* Model and method: QsModel; left + nextleft counts down to the next refresh.

### C82 Decoding a round undoes the compression round

* Status: proved. Theorems: `round_restores_mesh`.
* Model and method: PpmcModel: half-edge mesh as a partial next map; both rounds function by function. Invariant over the conquest: current mesh = the original plus inserted edges with the removed vertices' stars merged; encoder and decoder traversals shown to visit the same facets and edges.
* Limits: CGAL's half-edge operations are modelled by their documented effect. Input meshes must have no border, no double edge and no facet on both sides of an edge. That rounds finish is C86.

### C83 Every level is a closed surface

* Status: proved. Theorems: `round_keeps_mesh_closed`.
* Model and method: PpmcModel; cutting a corner and erasing a vertex whose facets are triangles each preserve well-formedness and connectedness.
* Limits: As C82.

### C84 A round that removes nothing changes nothing

* Status: proved. Theorems: `round_without_removal_changes_nothing`.
* Model and method: PpmcModel; from the invariant.
* Limits: As C82.

### C85 Removed vertices are independent and the departure edge stays

* Status: proved. Theorems: `round_removes_independent_vertices`.
* Model and method: PpmcModel; neighbours of a removed vertex are marked conquered and never removed.
* Limits: As C82.

### C86 Every compression round finishes

* Status: proved. Theorems: `round_always_finishes`.
* Model and method: PpmcTot: each step of the three traversals lowers a measure (half-edges not yet conquered, queue length); vertexCut ends because each cut lowers the degree sum of the facets around the vertex.
* Limits: The bounds on walks and queues in the model (lim, fuel) only have to exceed n*n and n^4 + 1 for n vertices: no run is cut off. As C82.

### C87 Every compression finishes

* Status: proved. Theorems: `compression_always_finishes`.
* Model and method: PpmcLevels compressAll: rounds until one removes nothing; the number of vertices decreases.
* Limits: As C82. The gate must be a half-edge of the mesh (the code takes the middle one of the storage).

### C88 Number of symbols of a round

* Status: proved. Theorems: `round_symbols_counted`.
* Model and method: PpmcSyms: the traversal visits each facet once and each edge at most once.
* Limits: As C82.

### C89 Residuals fit the entropy coder

* Status: proved. Theorems: `grid_rounds_codable`.
* Model and method: PpmcGrid: the mean of grid positions quantises to the grid (QuantModel); PpmcSyms round_codable.
* Limits: Exact rationals. 15 bits; with 16 bits the residuals may span more than the frequency table (limits of the codec, C07).

### C90 Every level of detail is restored from the bytes

* Status: proved. Theorems: `levels_restored_from_bytes`, `levels_restored_exactly`.
* Model and method: PpmcLevels: whole compression, stream-reading decoder, base mesh builder. Composition of header round trip, entropy coding round trip, round restoration and invariance of the decoder under renaming of handles (PpmcRen, PpmcLevelsProofs, PpmcObject).
* Limits: levels_restored_from_bytes holds for any arithmetic in which the compressed positions are fixed by quantisation (C91 is about floats) and takes codability and the limits of the header (C12) as hypotheses; levels_restored_exactly discharges them for exact rationals and a grid up to 2^15, except the limits of the header. At least one round (C15 records that an object without rounds is misread). The half-edge structure and CGAL's incremental builder are modelled by their documented effect.

### C91 Quantised positions are stable in floating point

* Status: partial. Theorems: `float_positions_stable_refuted`, `rounded_positions_stable_partial`, `float_positions_stable_partial`.
* Model and method: FloatQuantModel: binary32 and binary64 operations of the standard library's SpecFloat, computed witness; error analysis in rationals for arbitrary rounding functions.
* Limits: Refuted: with 14 bits and a cell about as large as the spacing of floats the division rounds up to the next cell; a vertex is compressed at 8394071 and decoded at 8394072. Proved for boxes within 2^22 - 2^16 cells of the origin under the standard model of rounding (no underflow), and for the IEEE single-precision operations themselves (float_positions_stable_partial, uses the axioms of the reals).

### C92 Devices are used by one thread at a time

* Status: proved. Theorems: `device_exclusive`.
* Model and method: DeviceModel: a thread as a state machine, one transition per access; invariant: the lock is held exactly by the thread between lock and unlock, busy is set exactly while one thread computes or is between the two statements of release_gpu.
* Limits: Each read or write of lock and busy is atomic and steps interleave sequentially consistently; busy is a plain bool, for which C++ gives no such guarantee.

### C93 Sharing the devices cannot deadlock

* Status: proved. Theorems: `devices_never_deadlock`, `requests_served_in_order`, `every_run_recorded`.
* Model and method: DeviceModel: from any reachable state the threads that hold or mark a device are run to completion, then each thread alone.
* Limits: As C92. Finitely many threads with finitely many requests. Possibility of finishing; starvation by an unfair scheduler is not excluded by the code.

### C94 Every batch gets a device

* Status: partial. Theorems: `request_always_served_refuted`, `wanted_wraps_refuted`.
* Model and method: DeviceModel; invariant that the thread stays at the test.
* Limits: Refuted: get_gpus counts every device as at most 2048 MB and get_distance_gpu asks with force, so a batch of 100000000 segments loops for ever; the number of megabytes is computed from a product cut to 32 bits. C93 is the positive part (every request fits some device).

### C95 A batch stays inside the memory of its device

* Status: partial. Theorems: `device_parts_apart`, `tri_batch_inside_partial`, `seg_batch_inside_partial`, `tri_batch_inside_refuted`, `seg_batch_inside_refuted`, `device_memory`.
* Model and method: DeviceModel seg_parts, tri_parts with the products cut to 32 bits where the code does; linear arithmetic.
* Limits: Refuted: get_distance_gpu asks for the segments only, SegDist_batch_gpu also places their vectors: 80000000 segments are granted a 2048 MB device and end beyond it; the table of pairs is not counted either. Proved: parts never overlap; triangles with up to 52428 pairs, and segments whose vectors and tables take at most one megabyte, stay inside.

### C96 The last level leaves only nearest objects

* Status: proved. Theorems: `nn_last_round_only_nearest`.
* Model and method: NnExactProofs: the running minimum of a round is attained and below all refined pairs; update_candidate_list leaves nothing above it.
* Limits: The distances of the last level are taken to be exact, and the pair of voxels that realises the nearest distance has data at that level; entries settled before are covered by C30.

### C97 Distances with --aabb are distances of the objects

* Status: partial. Theorems: `tree_distance_partial`, `tree_distance_not_minimal_refuted`.
* Model and method: TreeDistModel; CGAL's tree by its documented answer; minimum of a parabola on the unit interval.
* Limits: Refuted: the tree of the second object is asked for the vertices of the first only, so crossing edges at distance 1 are reported at 5, and exchanging the objects changes the answer. Proved: it is the exact minimum over vertices of the first and points on edges of the second.

### C98 Distances with --aabb reach their pairs

* Status: proved. Theorems: `nn_tree_round_own_distances`, `tree_distances_fit`, `within_tree_round_own_distances`.
* Model and method: TreeDistModel: the round with --aabb equals the round of JoinModel for the distances of the owners.
* Limits: Each candidate has one pair of voxels (no --multiple_mbb).

### C99 All joins may use --aabb

* Status: partial. Theorems: `within_tree_reports_far_refuted`, `nn_tree_several_voxels_refuted`.
* Model and method: TreeDistModel, computed witnesses.
* Limits: Refuted: calculate_distance passes over entries with a single candidate also in the within join, whose distance stays 0, so a far object is reported; with several pairs per candidate the distances are stored per candidate but read per pair. C98 is the positive part.

### C100 The levels of a join are as asked for

* Status: partial. Theorems: `lods_list_partial`, `lods_list_refuted`.
* Model and method: JoinerModel make_lods with explicit overflow, bad index and non-termination outcomes; induction.
* Limits: Refuted: a gap of 0 or less never ends, a base above the top reads before the start of an empty vector, a large gap overflows int. Proved for a positive gap, base at most top, and top + gap an int.

### C101 Reports do not depend on the schedule

* Status: proved. Theorems: `reports_any_order`.
* Model and method: JoinerModel merge; commutation of two merges, induction over permutations.
* Limits: Times and distances are exact rationals; float sums depend on the order in the last digits.

### C102 The max min distance reported is the largest nearest distance

* Status: partial. Theorems: `reported_distance_partial`, `reported_distance_refuted`.
* Model and method: JoinerModel nn_refine_nearest on top of JoinModel.
* Limits: Refuted: the report is the maximum over all levels, so coarse distances of early levels stay in it; an object without data at a level makes it infinite. Proved: if finite, it is never below a nearest distance, and exact when only the highest level is used.

### C103 Generated nuclei do not overlap

* Status: proved. Theorems: `nuclei_apart`.
* Model and method: GenModel load_nucleus, slots, draws with explicit random numbers; slots are NoDup by induction over the draws, two slots or vessels differ along an axis by a whole step, prototypes fit a slot.
* Limits: Exact rationals for floats; the boxes of prototypes are exact. The second nuclei (shifted at random) may overlap by design. Non-negative rand() assumed.

### C104 The generator stays inside its arrays

* Status: partial. Theorems: `generator_in_bounds_partial`, `generator_in_bounds_refuted`.
* Model and method: GenModel draw with the outcome Beyond; induction; computed witnesses.
* Limits: Refuted: get_rand_number(n) yields 1..n, so slot n is read beyond taken (one draw in n); voxel coordinates are divided by counts instead of sizes and index beyond vessel_taken; a single prototype makes a division by zero; a vessel over 200000 bytes overflows its buffer. Proved: draws never leave the arrays if no random number is -1 modulo the slots.

### C105 The generator makes as many nuclei as asked for

* Status: partial. Theorems: `generated_number_partial`, `generated_number_refuted`, `generator_ends_refuted`.
* Model and method: GenModel gen_slots; induction.
* Limits: Refuted: ++generated < n makes n - 1 nuclei and reports n; if every slot counts as taken the search never ends (Stuck for every sequence of random numbers). Proved: exactly n - 1 are made when it ends.

### C106 Nuclei stay clear of the vessel

* Status: partial. Theorems: `nuclei_clear_of_vessel_partial`, `nuclei_clear_of_vessel_refuted`.
* Model and method: GenModel voxel_slots, generate_nuclei; arithmetic of the slot numbers; computed witness.
* Limits: Refuted: slot numbers of voxels are computed by dividing by the number of slots instead of their size, so overlapped slots stay unmarked. Proved where the size of a slot equals the number of slots along each axis: every nucleus is apart from every voxel along some axis.

### C107 Every generator job is done exactly once

* Status: partial. Theorems: `jobs_once_partial`, `one_thread_at_a_time`, `jobs_once_refuted`.
* Model and method: GenModel threads as a step function over schedules; permutation invariant.
* Limits: Refuted: the queue is tested outside the lock, so with two threads and a last job one pops an empty queue. Proved: no job is lost or doubled by any number of threads; with one thread never a bad pop, and all jobs are written when it ends.

### C108 The generator places the vessels asked for

* Status: partial. Theorems: `vessel_number_partial`, `vessel_number_refuted`.
* Model and method: GenModel dims, vessel_jobs.
* Limits: Refuted: the number is cut to x*x*z (30 becomes 27); 0 divides by zero. Proved for every cube root x >= 1 found with x^3 at most the number: distinct places, short by less than x*x; nuclei shared up to the remainder. Products are not cut to 32 bits; pow is taken as any such x.

### C109 Generated files open as tiles

* Status: proved. Theorems: `generated_file_opens`.
* Model and method: GenModel organize_all gives the format of C44; tile_data_located.
* Limits: Compression of the shifted meshes is C90; the bytes of a mesh are a parameter here. Requires that the buffers were large enough (see C104).

### C110 The second nucleus is near the first

* Status: proved. Theorems: `second_nucleus_near`.
* Model and method: GenModel second_shift.
* Limits: Exact rationals for floats; positive range.

### C111 The convexity test says what it should

* Status: proved. Theorems: `convexity_test`, `projection_in_plane`.
* Model and method: ConvexModel isConvex; the projection is shown to be redundant, the table comp to remember which sides were seen, and the area vector to be invariant.
* Limits: Coordinates are exact rationals; the normal is kept undivided and squares are compared, which gives the same answers as dividing by the square root.

### C112 Convexity does not depend on size

* Status: partial. Theorems: `convexity_of_any_size_partial`, `convexity_of_any_size_refuted`.
* Model and method: ConvexModel isConvex; both sides of the comparison scaled.
* Limits: Refuted: the tolerance is an absolute number, so a clearly concave quadrilateral passes when it is ten thousand times smaller. Proved: a polygon that passes enlarged also passes at its own size.

### C113 A ring that passes the convexity test is a simple polygon

* Status: partial. Theorems: `accepted_ring_simple_partial`, `accepted_ring_simple_refuted`.
* Model and method: ConvexModel isConvex; convex combinations along a side.
* Limits: Refuted: a polygon that runs back along one of its lines passes, and two of its sides without a common corner overlap. Proved for polygons whose corners off a side are strictly on one side of it.

### C114 Removed vertices had a convex neighbourhood

* Status: proved. Theorems: `removed_vertices_convex`.
* Model and method: ConvexRing: along the decimation, around a vertex not conquered the mesh is the one before the round; the hole it leaves is its ring read backwards.
* Limits: Any positions; the mesh coder is the model of C82 with its convexity test now the real one.

### C115 Coarser levels meet only what the object meets

* Status: partial. Theorems: `coarser_level_meets_only_what_the_object_meets_refuted`, `levels_inside_box`.
* Model and method: The round of the mesh coder run on a cube with a dent; separating planes for each facet.
* Limits: Refuted: removability does not ask whether a vertex sticks out, so a hollow is replaced by a flat facet; a triangle standing in the hollow meets the coarser level and no facet of the object. This shows that the hypothesis of C31 on the coarser tests is not guaranteed by the compressor. What does hold is C116.

### C116 Every level stays within the box of the object

* Status: proved. Theorems: `levels_inside_box`.
* Model and method: Vertices of levels are vertices of the object (C90); weighted means of corners.
* Limits: Positions before quantisation.

### C117 A mesh is taken apart into its connected pieces

* Status: proved. Theorems: `depart_components`.
* Model and method: FixerModel.depart; invariant of the search with a stack (neighbours are marked or stacked, what is marked is reachable) and a weight that falls at each step.
* Limits: Termination included: with enough fuel there is a result.

### C118 Filling holes closes a mesh

* Status: proved. Theorems: `fill_holes_closes`.
* Model and method: FixerModel.fill_holes; at each vertex as many open sides arrive as leave (counting), so walking backwards along open sides ends where it began.
* Limits: For meshes whose edge table is that of their faces, as after loading or taking apart.

### C119 Holes that meet are filled as well

* Status: partial. Theorems: `fill_holes_closes_all_refuted`, `fill_holes_closes`.
* Model and method: Witness: two triangles that share a vertex.
* Limits: Refuted: the table of next vertices has one entry per vertex, so of two holes that meet in a vertex one is not closed. What holds is C118.

### C120 Merging points keeps the shape

* Status: proved. Theorems: `merge_vertex_corners`.
* Model and method: FixerModel.merge_vertex; least index with the same point.
* Limits: Points compared by an equality test, as in the map of coordinate triples.

### C121 A mesh closed by merging stays closed

* Status: partial. Theorems: `merge_then_fill_refuted`, `merge_vertex_corners`.
* Model and method: Witness: a tetrahedron one of whose faces has its own copy of a point.
* Limits: Refuted: merging renumbers the faces but not the table of edges, so that filling adds a face to a closed mesh.  Merged points also stay in the file.

### C122 Every large piece is written, closed

* Status: partial. Theorems: `fixer_writes_closed_pieces_partial`, `fixer_writes_closed_pieces_refuted`, `fixer_same_name`.
* Model and method: depart, merge_vertex and fill_holes composed (FixerModel.fixer_main); the conditions pass to the pieces by their numbering.
* Limits: Refuted: names consist of the numbers of points and faces; any connected mesh of more than 100 points and a copy of it elsewhere are written under one name (fixer_same_name), and one is lost.  Partial: all pieces are written closed, and can be found where the names differ.

### C123 Meshes of separate faces are repaired

* Status: partial. Theorems: `fixer_separate_faces_refuted`, `merge_vertex_corners`.
* Model and method: Proved for all lists of triangles from depart_components.
* Limits: Refuted for every such mesh: pieces are taken apart before points are merged, so each face is a piece of 3 points and nothing is written.

### C124 The number of edges printed is that of a closed mesh

* Status: proved. Theorems: `evaluate_counts_edges`.
* Model and method: FixerModel.evaluate; sides a < b and b < a correspond.

### C125 Fixed meshes can be read back

* Status: partial. Theorems: `fixer_files_partial`, `fixer_text_partial`, `fixer_digits`, `fixer_text_refuted`, `fixer_files_refuted`.
* Model and method: FixerModel.dumpto, load, print6; FixerTextModel.
* Limits: Refuted: every face is read as three vertices, though filling holes writes faces with more; coordinates are printed with six digits.  Partial: triangles and coordinates of at most six digits are read back; longer whole numbers are rounded to six digits; fixer_text_partial is about the characters of the file and any coordinates.

### C126 Intersection joins report only real intersections

* Status: proved. Theorems: `intersection_end_sound`, `filled_objects_carry`.
* Model and method: EndModel composes the models of filter, packing, threads, device and triangle test; induction over levels with pair-wise soundness of every batch; filled_objects_carry links memory to meshes.
* Limits: Exact rationals; levels are taken as decoded and filled (C41, C90).

### C127 Intersection joins on a device miss nothing the test finds

* Status: proved. Theorems: `intersection_end_exact`, `intersection_end_reports`.
* Model and method: EndModel; the packed buffer is read back exactly (packing_exact), the grid covers all pairs, and an entry hit at a level is erased there or before.

### C128 The answer of an intersection join does not depend on the number of threads

* Status: partial. Theorems: `intersection_end_threads_refuted`, `intersection_end_few_pairs_lost`, `intersection_end_agree_partial`.
* Model and method: EndModel; follows from intersection_end_exact and intersect_batch_covers_partial.
* Limits: Refuted: the remainder of pairs/threads is never tested, so with fewer voxel pairs than threads nothing at all is reported.  Partial: device and one thread agree, more threads never add an object.

### C129 Distances computed on the processor belong to their own two objects

* Status: proved. Theorems: `distance_end_attained`, `distance_end_not_below`, `distance_end_filters`.
* Model and method: EndDistModel composes packing, threads and segment distance; packing_exact and distance_batch_complete give the value of each cell, segdist_attained its meaning.
* Limits: Exact rationals; edges with two different ends (others are moved by 0.1, C41); less than 2^32 floats.

### C130 Distances computed are distances of the surfaces

* Status: partial. Theorems: `distance_end_surface_refuted`, `distance_end_surface_partial`.
* Model and method: EndDistModel; witness with a crossing of two triangles, for every number and order of threads.
* Limits: Refuted: only edges are compared, so two facets that cross each other have a distance above 0.  Partial: if nearest points of the surfaces lie on edges and are nearest on their lines, their distance is stored.

### C131 A within join reports exactly the objects below the limit

* Status: partial. Theorems: `within_end_crossing_refuted`, `within_end_sound_partial`, `within_end_reports_partial`.
* Model and method: EndDistModel.within_all; induction over the levels with the invariant that ranges kept lie above the limit.
* Limits: Refuted: crossing objects are not reported for a small limit.  Partial: with one candidate per object reports are sound at the level of edges, and objects with nearest points on edges are reported unless the filter dropped them (C26); with several candidates distances are misattributed (C28).

### C132 max_dist is a distance

* Status: partial. Theorems: `within_end_limit_refuted`, `within_end_sound_partial`.
* Model and method: EndDistModel; witness with two parallel triangles 3 apart and the limit 5.
* Limits: Refuted: max_dist is compared with squared distances.  Partial: the square of the distance of what is reported is below the limit.

### C133 Numbers are written as well as six digits allow

* Status: proved. Theorems: `text_number_nearest`, `text_number_close`.
* Model and method: TextModel.general is printf %g; TextSpec.read_number an independent reader.  Digits kept are those of the integer nearest to the scaled number, optimal among all numbers with so few digits.
* Limits: Numbers below 10^99 and zero or above 10^-99 (exponents of two digits, all floats); NaN, infinities and -0 left out.

### C134 The output of towkt describes the objects of the tile

* Status: proved. Theorems: `towkt_reads_back`, `polyhedron_wkt_reads_back`.
* Model and method: TextModel.towkt, to_wkt; TextSpec.read_lines a recursive-descent reader; induction over objects, faces and points.
* Limits: Objects are given by the points of their faces at level 100 (C90 gives these).

### C135 Different points stay different in text output

* Status: partial. Theorems: `text_apart_refuted`, `text_apart_partial`.
* Model and method: TextModel; from the error bound of C133.
* Limits: Refuted: streams keep their default precision of six digits, so a triangle near 2000000 is written as one point four times.  Partial: order is never exchanged, and numbers that differ by more than 1/100000 of their size stay different.

### C136 make_cube makes the surface of a box

* Status: proved. Theorems: `cube_is_the_box`, `cube_is_linked`.
* Model and method: ShapeModel.make_cube on half-edge tables; the tables are computed for a symbolic box.
* Limits: CGAL's make_tetrahedron, split_edge and split_facet by their documented effect.

### C137 Adjusting scales the shape

* Status: proved. Theorems: `adjust_scales`, `adjust_done`, `adjust_undefined`.
* Model and method: ShapeModel.adjust_axis, one axis of all vertices.
* Limits: Exact rationals after the rounding to six digits.

### C138 The shift of adjust is the distance moved

* Status: partial. Theorems: `adjust_shift_refuted`, `adjust_shift_partial`.
* Model and method: ShapeModel.adjust_axis.
* Limits: Refuted: the shift is divided by the factor.  Partial: every vertex moves by shift/shrink.

### C139 A shrunk object stays within its box

* Status: partial. Theorems: `adjust_place_refuted`, `adjust_place_partial`.
* Model and method: ShapeModel.adjust_axis; invariant of the loop that gathers the mean.
* Limits: Refuted: the smallest corner is put on the truncated mean, so the object sticks out of its old box.  Partial: coordinates that are not negative stay so and at most double.

### C140 The nearest-neighbour join answers with the nearest object

* Status: partial. Theorems: `nn_end_crossing_refuted`, `nn_end_nearest_partial`.
* Model and method: EndNnModel.nn_all: the join on the processor from the voxels on; simulation of the rounds by exact ones over fixed values, then the invariant of C96.
* Limits: Refuted: distances are those of edges; an object that crosses another one loses against a third that it does not touch.  Partial: if boxes contain what they stand for, the upper ends of their ranges are not too low, coarse levels give larger distances and the nearest points lie on edges and are nearest on their lines, then every object ends with its nearest object, alone or among objects just as near, whatever the threads do.

### C141 An object around another one does not hide its nearest object

* Status: partial. Theorems: `nn_end_around_refuted`, `nn_end_nearest_partial`.
* Model and method: EndNnModel.nn_all.
* Limits: Refuted: the upper end of the distance of boxes is that of their centres; the surface of an object around another one can be farther, and the nearest object is removed by the filter.  Partial: as C140, where this is the condition sound_ranges.

### C142 Coarse levels do not remove the nearest object

* Status: partial. Theorems: `nn_end_coarse_refuted`, `nn_end_nearest_partial`.
* Model and method: EndNnModel.nn_levels.
* Limits: Refuted: with sound boxes and ranges, a coarse level that brings one object nearer removes the nearest one for good.  Partial: as C140, where this is the condition shrinking.

### C143 Objects compressed in parallel come back at every level

* Status: proved. Theorems: `compressed_objects_come_back`.
* Model and method: PipeModel: compressor, file, tile and decoder put together; refinement through CompressModel, TileModel, LodModel and the levels of PpmcLevels.
* Limits: Objects the compressor can handle (record compressible): closed meshes in one piece, positions on the grid, at least one round, symbols within the coder's range, a buffer that is large enough.  The rounds of the coder are those of C40-C60; what CGAL decides (order of half-edges, handles of new vertices) is left open.

### C144 The voxels of a decoded object hold the edges of its level

* Status: proved. Theorems: `level_edges_in_voxels`.
* Model and method: PipeModel.shown with VoxelModel.fill_voxel; the renaming of the decoder is pulled back to the level.
* Limits: Exact rationals.  The iterators of CGAL are any lists with one half-edge per edge and facet.

### C145 The voxels of a decoded object hold the surface of its level

* Status: partial. Theorems: `level_triangles_cover_refuted`, `level_triangles_in_voxels`.
* Model and method: PipeModel.shown, PpmcLevels.compressAll; witness by computation, the missing point by linear arithmetic.
* Limits: Refuted: a facet left by a removed vertex has more than three corners and only its first three are stored; a square pyramid loses half of its base one round below the finest level.  Proved: one triangle per facet, all on the surface; they cover it if all facets of the level are triangles.

### C146 Joins of compressed objects report points of the levels the compressor had

* Status: proved. Theorems: `reported_levels_intersect`, `computed_level_distances`.
* Model and method: All of the above with EndModel and EndDistModel.
* Limits: Exact rationals; the conditions of C126 and C129.  That every object can get there is can_arrive.

### C147 A tile finds its metadata wherever it is stored

* Status: partial. Theorems: `tile_opens_by_path_partial`, `tile_paths_refuted`.
* Model and method: `OpenModel.open_path` (paths, disk, message buffers) on top of `TileModel`; induction over the path
* Limits: Refuted: a folder with .dt in its name sends the metadata to another folder; a path of 173 characters overflows the message buffer; a file without .dt in its name is read as its own metadata. Proved for paths with exactly one .dt, at the end, that fit the message.

### C148 A tile shows what its data file holds

* Status: partial. Theorems: `tile_shows_its_data_partial`, `tile_written_anew_refuted`, `voxels_after_end`.
* Model and method: `OpenModel.open_path` with the records of C44; composition of C43 and C44
* Limits: Refuted: metadata left from an earlier data file is used for the new one. Proved when there is no metadata or it was made from the same data.

### C149 Threads may fetch objects of one tile at the same time

* Status: partial. Theorems: `lone_readers_fetch_right_partial`, `one_reader_fetches_right`, `shared_tile_refuted`, `reader_moves_position`.
* Model and method: `OpenModel.share_step` (any number of threads, any interleaving); invariant over all runs
* Limits: Refuted: the mutexes are commented out, two threads exchange the position in the file. Proved for all schedules in which no two threads are inside at once, in particular for one thread. fseek and fread are atomic each.

### C150 A mesh is read from its line and nothing else

* Status: partial. Theorems: `get_mesh_text_partial`, `get_mesh_reads_past`, `get_mesh_text_refuted`.
* Model and method: `ProgModel.get_mesh` (array, C string); induction over the text
* Limits: Refuted: the array has no room for the final zero and none is written, so every text is read past its end. Proved: if a zero happens to lie behind it, exactly the line is parsed.

### C151 list_files lists every regular file once

* Status: partial. Theorems: `files_listed_partial`, `files_listed_once`, `files_listed_refuted`.
* Model and method: `ProgModel.list_files` against a separate relation `leads`; induction over the tree of files
* Limits: Refuted: the result of stat is not looked at, a broken link may be listed as a file. Proved for all trees without broken links; no file is ever listed twice. Links to folders above are not modelled.

### C152 The decompressor writes every level

* Status: partial. Theorems: `decompressor_writes_levels_partial`, `decompressor_argument_uninitialised`, `decompressor_argument_refuted`.
* Model and method: `ProgModel.decompress_main` on the decoder of `PpmcLevels` and the levels of `LodModel`; composition with C143, induction over the levels
* Limits: Refuted: with an argument below 10 the pointer himesh is never set and then used, for every object. Proved: all files hold the mesh of their level, and without an argument or with 10 the program ends. Floating-point stop test in exact arithmetic as in C15; statistics with zlib left out.

### C153 The partitioner makes tiles for the folder it is given

* Status: partial. Theorems: `partitioner_repeats_partial`, `partitioner_stale_refuted`.
* Model and method: `ProgModel.partitioner` on `SpModel`; composition with C50
* Limits: Refuted: tmp.part is used whatever folder it was made for, objects of another folder are in no tile. Proved for a first run whose tree is full: later runs give the same tiles; that these cover the objects is C49, what happens to other trees C75.

### C154 Launches of the distance kernel fit the device

* Status: proved. Theorems: `gpu_launches_fit`.
* Model and method: `SegGpuModel.launches`; arithmetic on the launches
* Limits: The largest sizes are below 2^32 - 1024 (the unsigned counter does not wrap). The fixed width 1024 of get_vector_kernel and TriInt_cuda is a literal in C66 and C156.

### C155 Opening a record ends for every header

* Status: partial. Theorems: `header_opens_partial`, `header_opens_refuted`, `header_opens_at`.
* Model and method: `PipeModel.construct` on `LodModel`, header by `BitsModel`; induction over the batches
* Limits: Refuted: a header with a level that is not convex, above 0 and below the number of rounds, keeps the constructor in its loop for ever, though writeBaseMesh writes such a header for such an object. Proved: exactly these headers do so. The stop test is in exact arithmetic as in C15.

### C156 A batch of distances on the device treats each pair by itself

* Status: proved. Theorems: `gpu_batch_pairs_apart`.
* Model and method: `GpuAllModel.SegDist_batch_gpu` (all blocks interleaved, vectors filled in any order) refines `SegGpuModel.gpu_batch` for each pair; projection of interleavings
* Limits: Floats are rationals, products of unsigned numbers exact; the ranges of the pair lie inside the buffer.

### C157 Quantised coordinates fit their bits in single precision

* Status: proved. Theorems: `float_coordinates_fit`, `to_int_truncates`.
* Model and method: FloatQuantModel on SpecFloat, linked to Flocq's rounding theorems in FloatLink; monotonicity of rounded subtraction and division.
* Limits: Ranges between 2^-100 and 2^100; the theorem uses the axioms of the standard library's reals.

### C158 A full R-tree node is divided by the quadratic rule

* Status: proved. Theorems: `rtree_split_quadratic`.
* Model and method: RTreeModel.SplitNode; inductive relation `quadratic` of the groups, following PickSeeds, the greedy loop and the fill rule
* Limits: Coordinates are integers and volumes rationals (exact); ties as in the code.

### C159 Insertion goes down the branch that grows least

* Status: proved. Theorems: `rtree_pick_branch`.
* Model and method: RTreeModel.PickBranch; induction with the best branch so far
* Limits: Volumes are exact rationals.

### C160 When an octree leaf is divided

* Status: proved. Theorems: `octree_split_rule`.
* Model and method: OctreeModel.addObject; equation for one leaf, weight handed to the octants counted independently
* Limits: Total weight below 2^28, so that the weights of the children do not wrap.

### C161 Building an octree ends

* Status: partial. Theorems: `octree_build_ends_refuted`, `octree_touch_ends_refuted`, `octree_build_ends_partial`, `octree_apart_ends_partial`.
* Model and method: OctreeModel.build_octree; for all fuel None by induction on the fuel; measure of box sides; boxes that meet in pairs have a common point
* Limits: Refuted: two or more objects that have an inner point in common and weigh more than the limit are divided for ever, e.g. 401 overlapping boxes in a join (limit 400, weight 1 each); so are boxes that only touch in a point where no box is ever cut.  Partial: if no point is in (or on) boxes weighing more than the limit, building ends (open is only the case of common points on cutting planes); where every box with sides up to some d > 0 meets objects of at most the limit, building ends, and its depth is logarithmic in extent / d.  Exact arithmetic: with floats the middle of a box of adjacent floats is one of its ends, so the box is its own child and the recursion does not end either.

### C162 Filling holes adds faces only along open sides

* Status: proved. Theorems: `fill_holes_only_open`.
* Model and method: FixerModel.fill_holes; trace of the next-vertex table, which has one entry per vertex

### C163 The edge table of the fixer is ordered without duplicates

* Status: proved. Theorems: `fixer_edges_in_order`.
* Model and method: FixerModel.add_face; sorted insertion

### C164 Rotating by the computed angles takes the frame to the axes

* Status: proved. Theorems: `rotation_takes_frame_to_axes`.
* Model and method: RotModel with exact trigonometry; product of the rotations computed symbolically
* Limits: Exact arithmetic: acos, sin, cos and sqrt are any functions satisfying their equations; the length of (n_x, n_y) is a given rational.

### C165 A rotated residual is within six of the exact rotation

* Status: proved. Theorems: `rotation_rounding_bounded`, `half_angles_exact`.
* Model and method: RotModel.frenetRotation against the exact product; error of each shear added up
* Limits: Shears are rounded to integers by round(); trigonometric functions are exact.

### C166 The shared queue of sampling is used under the lock only

* Status: partial. Theorems: `sampling_queue_race_refuted`, `sampling_lock_excludes`, `sampling_changes_locked`.
* Model and method: SampleModel; invariant over all interleavings
* Limits: Refuted: the main thread reads input_lines.size() and workers read empty() without the lock while a worker pops under it.  Proved: changes to the queue happen under the lock only, and at most one thread holds it.

### C167 The number of voxels of an object

* Status: proved. Theorems: `voxel_count`.
* Model and method: VoxelModel.generate_voxels; at most one point of the skeleton is kept per round

### C168 Every tile is deleted once and not used afterwards

* Status: proved. Theorems: `tiles_deleted_once`, `joiner_tiles_apart`, `shared_tile_deleted_twice_refuted`.
* Model and method: JoinMainModel over JoinModel; events added to the interleavings, invariant on joined and queued pairs
* Limits: Uses of a tile are the events of a thread joining a pair that has it.  The hypothesis that pairs share no tile is met by joiner.cpp and needed: the last theorem shows a tile in two pairs used after deletion and deleted twice.

### C169 A join returns for every number of threads

* Status: partial. Theorems: `join_without_threads_refuted`, `join_returns_partial`.
* Model and method: JoinMainModel.join_returns; progress of every reachable state
* Limits: Refuted: with no threads (--threads 0 is accepted) and a pair to join, the caller waits for the queue to empty for ever.  Proved: with at least one thread, a schedule that cannot go on has an empty queue and ended threads, and conversely.  That joining a pair ends is not part of this theorem.

### C170 The queue of tile pairs is used under the lock only

* Status: partial. Theorems: `tile_queue_race_refuted`, `tile_queue_changes_locked`.
* Model and method: JoinModel; invariant over all interleavings
* Limits: Refuted: threads test empty() before taking the lock, so one can read the queue while another removes its front.  Proved: changes to the queue happen under the lock only and at most one thread is in such a step.

### C171 A compressed object fits the buffer made for it

* Status: partial. Theorems: `compressed_fits_refuted`, `compressed_size_partial`.
* Model and method: BufferModel with PipeModel and the coder; bytes written or held back grow by at most three for each symbol; witness computed
* Limits: Refuted: a triangular prism with coordinates of one digit, a line of 92 characters, compresses to 93 bytes: each of its three rounds removes one vertex and takes 18 bytes.  The order in which CGAL stores half-edges, which decides the first gates, is written out for this prism.  Positions are exact rationals (the step is a power of two).  Proved: the base mesh takes exactly its bits rounded up to bytes and each round at most 19 bytes and three for each symbol.

### C172 A vertex is refused for removal only for one of the stated reasons

* Status: proved. Theorems: `manifold_test_exact`, `removable_exactly`, `removable_any_start`, `removable_answers`.
* Model and method: PpmcModel.willViolateManifold and isRemovable; ring and facet walks identified with the mesh
* Limits: isConvex is any test here (C111 covers it); vertex_begin() is any half-edge at hand.

### C173 TriDist answers the smallest distance of two triangles

* Status: partial. Theorems: `tridist_smallest_refuted`, `tridist_smallest_partial`.
* Model and method: TriDistModel; a closest pair of points is slid along the triangles until it lies on two sides or on a corner and a face
* Limits: Refuted: SegPoints does not clamp the parameter of the first side before it computes the second (as C37 for SegDist), so two triangles that share a corner are answered the distance sqrt(2) and two triangles more than 0.7 apart are answered 0.  Proved: whenever the closest points of the nine pairs of sides are right, the answer is the smallest distance of points of the triangles, attained, in all branches (sides, corner over a face, touching or crossing).  Arithmetic is exact; no program of the repository calls TriDist.

### C174 TriDist_single answers the smallest distance of all pairs of triangles

* Status: proved. Theorems: `tridist_single_minimum`, `tridist_single_smallest`.
* Model and method: TriDistModel.TriDist_single; fold of minima over all pairs
* Limits: Arithmetic is exact; the second theorem has the condition of C173 for each pair.

### C175 Box distances in single precision are bounds

* Status: partial. Theorems: `box_distance_float_refuted`, `box_distance_float_lower`, `box_distance_float_near`, `box_distance_float_ordered`.
* Model and method: FloatBoxModel: rounding to 24 bits, ties to even, over the rationals; monotonicity and relative error of the rounding
* Limits: Refuted: two boxes 11587 apart are answered 134258576, more than the exact 134258569 of two of their points.  Proved: the answer is at most the distance the same arithmetic computes for any two points of the boxes, it is within six roundings of the exact lower distance, and the range is never exchanged.  No overflow or underflow: exponents are unbounded.

### C176 The octree misses nothing by rounding

* Status: proved. Theorems: `octree_within_float_exact`.
* Model and method: FloatBoxModel.query_within_f over the tree of OctreeModel; box distance in floats is monotone in the boxes through points
* Limits: No overflow or underflow; the cells are divided exactly.

### C177 The distance of two segments does not depend on how they are written

* Status: partial. Theorems: `segdist_order_refuted`, `segdist_order_partial`, `segdist_reversed`, `segdist_reversed_gpu`.
* Model and method: SegDistModel; reversing maps the parameters to 1-t and 1-u, parallel segments by minimality
* Limits: Refuted for the order: with the two segments exchanged the answer changes from 26 to 29, as the first parameter is not clamped (C37).  Proved: reversing a segment never changes the answer on either device, and the order does not matter if each segment contains a point as close to the other line as its own line gets.  Arithmetic is exact.

### C178 With --aabb distances are computed at the level of the round

* Status: proved. Theorems: `tree_levels_right`, `tree_always_current`.
* Model and method: TreeCacheModel: meshes with level, filled levels and tree; refinement of a join that builds each tree when it is asked
* Limits: What a tree answers is in C97; the second theorem holds for levels in any order.

### C179 With --aabb no tree is left over after a level

* Status: partial. Theorems: `within_trees_released_refuted`, `nn_trees_released`.
* Model and method: TreeCacheModel; trees present are candidates still to be asked
* Limits: Refuted for the within join: trees are built for objects with a single candidate too, but those are passed over where trees are used and deleted; the tree stays with the mesh, out of date, until the mesh is deleted (it is never asked again: C178).  Proved for the nearest-neighbour join.

### C180 The analysis line divides the time of a join

* Status: partial. Theorems: `distance_analysis_refuted`, `intersect_analysis`, `distance_analysis_partial`.
* Model and method: TimeModel: programs of clock readings with arbitrary durations; account kept from level to level, merged over joins
* Limits: Refuted for within and nearest-neighbour joins: the packing time is measured inside the computation time and then added to it, the three numbers can add up to 1.6 times the time per repetition.  Proved for intersection joins (up to the time between the first two readings of the clock, of which the earlier one belongs to index and the later one to overall); for the other joins the numbers without packing fit, so the sum is at most twice the time.  The clock never goes back.

### C181 The parts of the time printed add up to the total

* Status: partial. Theorems: `report_parts_refuted`, `report_adds_up`.
* Model and method: TimeModel.report
* Limits: Refuted of the six parts: packing and updatelist are contained in other as well.  Proved: index, decode, computation and other add up to the total.

### C182 Every HDF5 file gets its own OFF file

* Status: partial. Theorems: `h5_name_refuted`, `h5_name`, `h5_no_clash`.
* Model and method: H5Model.process_file: the buffer with its earlier contents, the characters set one by one
* Limits: Refuted: with a path of 255 characters or more the name of the OFF file is written beyond the buffer of 256.  Proved for all paths up to 254 characters.

### C183 The converter from HDF5 keeps the shape

* Status: partial. Theorems: `h5_values_refuted`, `h5_columns_refuted`, `h5_values`.
* Model and method: H5Model.convert: tables as memory, rows by offset, %.1f as rounding to the nearest tenth (ties to even)
* Limits: Refuted: coordinates are written with one digit after the point, so corners less than 0.1 apart can become the same one; faces with more than three corners lose the others, tables with fewer than three columns are read beyond their memory.  Proved: every coordinate is within 0.05, tenths are exact, corners more than 0.1 apart along an axis stay different, triangles are kept.

### C184 Voxels can be made of every mesh

* Status: partial. Theorems: `voxels_every_mesh_refuted`, `voxels_exit_iff`, `voxels_with_asserts`, `skeleton_kept`.
* Model and method: SkelModel: CGAL's triangulation and skeletonization are parameters
* Limits: Refuted: triangulate_faces is called inside an assert, which is compiled out, so a mesh with enough vertices and a facet that is not a triangle makes the program exit.  Proved: it exits exactly then (and when no skeleton of the level is kept); it would not with asserts; a skeleton is computed once for a level.

### C185 The surface of a face is its area

* Status: proved. Theorems: `triangle_surface`, `face_surface`.
* Model and method: SurfModel over the reals; Heron's formula, sums going round, triangle inequality
* Limits: Exact real arithmetic; the code rounds to float.

### C186 The error of a removal measures the vertex removed

* Status: partial. Theorems: `removal_error_refuted`, `removal_error_moved_refuted`, `removal_error_value`.
* Model and method: SurfModel.removalError over the reals
* Limits: Refuted: the vertex is not used at all (the barycenter stands in its place), and the result depends on where the origin is.  Proved: the value is that of (|N|/2 - A) * (b . n) / 3, so 0 for flat polygons.  Called by no program.

### C187 The planarity test accepts exactly the flat polygons

* Status: partial. Theorems: `planar_only_refuted`, `planar_only_partial`, `planar_passes`.
* Model and method: SurfModel.isPlanar over the reals; determinant of three vectors in a plane
* Limits: Refuted: a closed polygon whose area vector is zero gets the null vector as normal and passes whatever its shape.  Proved for all polygons with another area vector, and that flat polygons always pass.  Called by no program; exact real arithmetic.

### C188 The text of a mesh is read as it was written

* Status: proved. Theorems: `off_line_real`, `off_text_read`.
* Model and method: OffFileModel.read_real_mesh, BufferModel.read_off; induction on digits, separators and lists
* Limits: A leading plus sign, a capital E and an exponent without a sign are left out, and so is the rounding to double.  off_text_read: the same for the reader that takes the whole line, unsigned numbers.

### C189 The mesh read does not depend on the memory behind its line

* Status: partial. Theorems: `mesh_behind_real_partial`, `mesh_behind_partial`, `mesh_behind_refuted`.
* Model and method: OffReadModel and OffFileModel, numbers taken one by one, with ProgModel.get_mesh_in_memory; induction on the lists
* Limits: Refuted: a line that ends with its last number takes digits behind it into that number.  Proved: a line that ends with a bar or blank gives its mesh whatever lies behind, and so does any line with no digit (point, sign or e for coordinates) behind.  Notation as in C188; CGAL's skipping of colours is not modelled.

### C190 The R-tree frees every node it takes off the tree

* Status: proved. Theorems: `rtree_no_leak`, `rtree_no_leak_total`.
* Model and method: RTreeMemModel: the operations of RTreeModel with numbers of AllocNode, FreeNode, AllocListNode and FreeListNode; erasure to RTreeModel and induction on histories
* Limits: rtree_no_leak_total: no history fails, for capacities with a minimum of at least 2 and exact volume differences.

### C191 Copies of an R-tree can be destroyed independently

* Status: partial. Theorems: `rtree_copy_independent`, `rtree_assign_refuted`.
* Model and method: RTreeMemModel: nodes as cells of a heap; representation predicate, frame lemmas and induction on the height
* Limits: Refuted: RTree declares no assignment, so after one the destructors of any two trees free the same nodes and the nodes of the target are lost.  Proved for the copy constructor.  No program assigns or copies a tree.

### C192 Time stamps in the log tell the time

* Status: partial. Theorems: `stamps_ordered`, `stamp_fraction_refuted`.
* Model and method: LogModel.time_string; order of texts by characters, induction on digits
* Limits: Refuted: milliseconds are printed with four digits, so the fraction read is a tenth of the real one.  Proved: stamps of one day are ordered as the moments to the millisecond.  Changes of the local clock are left out.

### C193 The generator writes every run to files of its own

* Status: partial. Theorems: `names_tell`, `run_names_differ`, `names_refuted`, `names_fit_partial`, `names_fit_refuted`.
* Model and method: LogModel.output_name; cutting at separators, lengths of numbers
* Limits: Refuted: runs that differ only in the fraction of shrink write the same files, and paths of 233 characters or more overflow the arrays.  Proved: the names tell the kind of file and all other options, and fit for paths of up to 181 characters.

### C194 Progress is reported up to the end

* Status: partial. Theorems: `compress_progress_partial`, `compress_progress_refuted`, `compress_progress_ends`, `partition_progress_partial`, `partition_progress_refuted`.
* Model and method: LogModel.compress_reports and partition_reports; induction on the lines with the percentage as invariant
* Limits: Refuted: the percentage is compared for equality, so a first line of a hundredth of the file or more, or lines not taken by the sample, end all reports.  Proved for files without long lines (all taken, for the partitioner).  maximum_lines is not reached.

### C195 A sample has the rate asked for

* Status: partial. Theorems: `sample_rate`, `sample_ends`, `sample_float_refuted`.
* Model and method: LogModel.get_rand_sample; induction counting residues
* Limits: Refuted: possibility 1 does not take RAND_MAX (that form is not called).  Proved for rates in percent, as a count over the values of rand.

### C196 Every tile and every box is written to a file of its own

* Status: partial. Theorems: `tile_names_differ`, `box_names_differ`, `tile_names_refuted`.
* Model and method: LogModel.tile_name and box_name; digits determine the number
* Limits: Refuted for different prefixes, where a digit of the prefix may stand for one of the number.  Proved for equal prefixes.

### C197 The error of a removal does not depend on the size of the mesh

* Status: proved. Theorems: `removal_error_scale`.
* Model and method: SurfModel.removalError over the reals; lengths, areas and volumes scale with k, k^2 and k^3
* Limits: Exact real arithmetic, so pow is Rpower.  Moving the mesh does change the error, see C186.

### C198 A mesh written to an OFF file and read again has the same faces and coordinates to six digits

* Status: proved. Theorems: `off_file_read`.
* Model and method: OffFileModel.write_off and read_real_mesh with ProgModel.get_mesh_in_memory; numbers by TextModel.general and TextSpec.read_number; induction on points, corners and faces
* Limits: The text is CGAL's (operator<< in its ASCII form, six digits); the reader's rounding to double, comments and colours are left out.  A zero is taken to follow somewhere in memory, see C150.

### C199 The normal of a facet is the same however it is computed

* Status: proved. Theorems: `facet_normal`.
* Model and method: NormalModel.normal_of_facet and normal_of_gate with SurfModel.normal_of_polygon and normal_of_triangle; sums over the sides are permuted by rotation and reversed by rev
* Limits: Exact real arithmetic instead of float and double.

### C200 The normal of a vertex is the direction of the sum of its facets' normals

* Status: proved. Theorems: `vertex_normal_is`.
* Model and method: NormalModel.vertex_normal; induction on the facets
* Limits: Exact real arithmetic.  The function is not called in the repository.

### C201 The voxels written for a generated object hold the object

* Status: partial. Theorems: `voxels_hold_object_partial`, `voxels_hold_object_refuted`.
* Model and method: GenTextModel.object_written and voxel_written with TextModel.shown; error of printed numbers (C133)
* Limits: Refuted: the moved vertices are written with six digits, the voxels are moved in full, so a cube of side 0.126 at 1000 is written larger than its voxel.  Proved: a vertex is outside by at most half a unit of its sixth digit, and inside if six digits suffice.  Quantisation comes on top of this.

### C202 The arrays of vertices and corners describe the mesh

* Status: partial. Theorems: `arrays_describe_partial`, `arrays_describe_refuted`, `arrays_decoded`.
* Model and method: ArraysModel.fill_vertices and fill_topology; induction on vertices and facets
* Limits: Refuted: decoded vertices all have id 0, so all corners are the first vertex; ids beyond 65535 lose their high bits; facets of four corners lose one.  Proved: the array of vertices is right, and with ids in order, at most 65536 vertices and triangles only so is the other.  The functions are not called in the repository.

### C203 The local frame of a gate is orthonormal

* Status: partial. Theorems: `frame_orthonormal_partial`, `frame_rotated`, `frame_orthonormal_refuted`.
* Model and method: FrameModel.frame_t1 and frame_t2; vector algebra; C164 for the rotation
* Limits: Refuted for gates along the normal and for the null normal of a facet without area, where tangents stay null.  Proved for every other gate.  Exact rationals with a rational length of the flat part.  The function is not called in the repository.

### C204 The R-tree is right with the volume it is compiled with

* Status: proved. Theorems: `rtree_sphere`, `rtree_sphere_inserts`, `sphere_volume_is`.
* Model and method: SphereModel.RectSphericalVolume with every operation rounded; it keeps the order of proper boxes; the invariants of C52-C54 for proper boxes.
* Limits: Differences of volumes exact; C68 has the rounded ones.  Insert asks for min <= max, checked in debug builds only; rtree_sphere_improper_refuted shows that without it a split may leave an entry without a group.  The square root and pow are any functions that keep the order.

### C205 An R-tree iterator shows the rectangles inserted

* Status: proved. Theorems: `rtree_bounds_history`, `rtree_bounds`.
* Model and method: BoundsModel; the stack invariant of C56 with rectangles.
* Limits: As C52.  Minimal fill of one after removals: see C56.

### C206 One thread at a time has the processor

* Status: proved. Theorems: `cpu_exclusive`, `cpu_second_test`.
* Model and method: CpuModel.step: one step per access; invariant: who is past the lock holds it, busy exactly while someone computes
* Limits: The functions are private and not called in the repository.  cpu_busy is read outside the lock; sequential consistency is assumed.

### C207 Asking for the processor does not wait

* Status: partial. Theorems: `cpu_no_wait_refuted`, `cpu_no_wait_partial`.
* Model and method: As C206
* Limits: Refuted: two threads see cpu_busy false, one gets the lock and keeps it while it computes, the other is blocked in pthread_mutex_lock until it is released (and then gets true; the second test never fails).  Proved: whoever is blocked waits for a thread that can go on.

### C208 Faces that are the same compare equal

* Status: partial. Theorems: `face_equal_partial`, `face_equal_refuted`.
* Model and method: RedundantModel.face_equal; induction on the lists
* Limits: Refuted: the same triangle from another vertex on compares different.  Proved: faces compare equal exactly if their lists of vertices are the same.  Not called in the repository.

### C209 remove_redundant removes redundant faces

* Status: partial. Theorems: `redundant_reported_partial`, `redundant_removed_refuted`.
* Model and method: RedundantModel.remove_redundant; the map holds the first face of each key
* Limits: Refuted: the function only prints, it removes nothing; it misses rotated repetitions, and takes different quadrilaterals with the same first three vertices for one.  Proved: the polyhedron stays as it is, and printed is every face whose first three vertices are those of an earlier one, with the first such.  The only call is a comment.

### C210 The fixer's files can be read by the other programs

* Status: proved. Theorems: `fixer_output_read`.
* Model and method: FixerTextModel.fixer_text with OffFileModel.read_real_mesh; induction on the lists
* Limits: The reader's rounding to double is left out; a zero is taken to follow somewhere in memory, see C150.

### C211 A tile gives back its memory

* Status: partial. Theorems: `tile_memory_partial`, `tile_memory_single`, `tile_memory_disabled`, `tile_memory_refuted`.
* Model and method: TileMemModel, a trace of new, delete and use; the blocks owned by the objects are the live ones, kept by every operation
* Limits: Refuted: for an object with two voxels fill_voxel releases three arrays with delete.  Proved: every block is deleted exactly once and never used outside its life; delete and delete[] are right too if no object has several voxels, or the inner parts are disabled first.  One thread (C149 has several); memory of CGAL and of containers is left out.

### C212 Voxels are filled with the kind of data asked for

* Status: partial. Theorems: `fill_first_kind`, `fill_kind_partial`, `fill_kind_refuted`.
* Model and method: FillKindModel, calls on one object; a table of levels kept by every call and related to the list of calls
* Limits: Refuted: fill_voxel looks only whether the level has data, not of which kind, so triangles asked for after segments leave the segments and the triangles are read past the arrays.  Proved: every level keeps the kind first asked for since the last reset, so the claim holds whenever one kind is asked for, as each join does.  Which voxel is nearest is VoxelModel's business (C41).

### C213 A join gives back its memory

* Status: partial. Theorems: `join_memory_intersect`, `join_memory_partial`, `join_memory_leak`, `join_delete_refuted`, `join_memory_refuted`.
* Model and method: JoinMemModel, a trace of new, delete and use on top of TileMemModel and OctreeModel
* Limits: Refuted: mbb_nn and mbb_within never delete their octree, so every such join loses all nodes of the tree (join_memory_leak, for all inputs), and calculate_distance, its callers and SegDist_single release arrays with delete.  Proved: intersection joins are clean; in the others nothing is used or deleted outside its life, and what is left over is exactly the nodes of the tree.  Pairs are computed one after the other; device memory and containers are left out.

### C214 An octree gives back all its nodes

* Status: proved. Theorems: `octree_memory`.
* Model and method: JoinMemModel.m_build; it is shown to build the tree of OctreeModel, and the blocks in use are the nodes of the tree, by induction on the depth
* Limits: Whenever the building returns, see C161.  Containers of the nodes are left out.

### C215 The compressor gives back its memory

* Status: partial. Theorems: `compress_memory_partial`, `compress_memory_leak`, `compress_memory_refuted`.
* Model and method: CompressMemModel, a trace of new, delete and use; the blocks in use are those of the objects kept and the lost ones, by induction on the lines
* Limits: Refuted: get_mesh never deletes the copy of the text, and generate_voxels takes voxels without a vertex out of the vector without deleting them.  Proved for all input: nothing is used or deleted outside its life, all forms of delete are right, and what is left over is exactly one block for each line and one for each such voxel.  Models of the range coder, CGAL and containers are left out.

### C216 The decompressor's zlib statistics are right

* Status: partial. Theorems: `zlib_statistics_partial`, `zlib_overflow`, `zlib_statistics_refuted`.
* Model and method: ZlibStatModel; induction on the levels
* Limits: Refuted: compressedsize is handed to compress2 uninitialised, and then as the previous call left it, so bytes behind the buffer are overwritten when the vertices do not compress and it holds a large value, and a level with a longer result logs the length of an earlier one.  Proved: exactly what is logged, when nothing is written outside, and when the lengths are right.  zlib is its documented behaviour.

### C217 The generator gives its memory back

* Status: partial. Theorems: `generator_memory_partial`, `generator_strict_partial`, `generator_memory_leak`, `generator_delete_refuted`, `generator_memory_refuted`.
* Model and method: GenMemModel; invariant on the blocks held, induction on jobs, threads, prototypes and shifts
* Limits: Refuted: generate_unit deletes its two arrays with delete instead of delete[]; every compressed nucleus and vessel loses the copy of its text, every job its flags, generate_vessel its buffer; the voxels of the prototypes, vessel_taken and the second stream are never deleted.  Proved for all settings: nothing is used after it is deleted or deleted twice, what is left at the end is exactly these blocks, and only the threads delete in the wrong form.  Threads are taken one after the other.

### C218 The partitioner gives its memory back

* Status: partial. Theorems: `partitioner_memory_partial`, `sort_partition_memory`, `partitioner_memory_refuted`.
* Model and method: PartMemModel on the trees of SpModel; invariant on the blocks held, induction on trees and lines
* Limits: Refuted: get_mesh never releases the copy of the text, persist_tile never deletes the polyhedron of a tile.  Proved for all lines and all trees: everything else, in particular every node of the sort partition and every box, is given back exactly once and in the right way, nothing is used after that, and what is left is exactly one block per non-empty line and one per tile.  Threads are taken one after the other.

### C219 The fixer gives its memory back

* Status: proved. Theorems: `fixer_memory`, `fixer_memory_of_depart`.
* Model and method: FixMemModel, linked with FixerModel; invariant on the blocks held, induction on components, faces, walks and pieces
* Limits: The containers' own memory is left out; which boundary walks close is arbitrary.  fixer_memory_of_depart: the components and assignments that depart of FixerModel works with meet the hypotheses, and the pieces have the same numbers of points.

### C220 The barycenters of a face agree and lie in it

* Status: proved. Theorems: `barycenters_same`, `barycenter_order`, `barycenter_inside`, `barycenter_moves`.
* Model and method: BaryModel; every linear function takes the mean of its values, induction on the corners
* Limits: Exact rationals; rounding of the sums is left out.

### C221 The program that writes boxes gives back its memory

* Status: partial. Theorems: `get_boxes_memory_partial`, `get_boxes_memory_refuted`.
* Model and method: BoxMemModel on the steps of CompressMemModel; invariant on the blocks held
* Limits: Refuted: the text, the mesh with its codes, all voxels and the polyhedron of every box written are never deleted.  Proved for every object and both readings of delete: nothing is used or deleted outside its life or in the wrong way, and exactly 4 blocks, one for each voxel made and one for each box written are left.

### C222 The partitioner measures its input right

* Status: proved. Theorems: `getline_lines`, `file_sizes_sum`, `processed_size`, `percentage_defined`, `percentage_count`.
* Model and method: SizeModel; induction on the bytes of a file and on the list of files
* Limits: Regular files whose st_size is their length; the type long is unbounded; files do not change while they are read.

### C223 The distances between points are metrics

* Status: partial. Theorems: `mdistance_metric`, `distance_metric_partial`, `distance_metric_refuted`, `distances_compare`.
* Model and method: PointDistModel; algebra of squares and absolute values
* Limits: Refuted for distance and get_distance: they give the square, so the triangle inequality fails.  Proved: mdistance is a metric; the other two are the same function and satisfy everything else, and the triangle inequality up to a factor of two; the comparison holds.  Exact rationals.

### C224 The common box of get_boxes is the box of the object

* Status: proved. Theorems: `common_box_least`, `common_box_unique`.
* Model and method: BoxFileModel on VoxelModel; a box fits into another if and only if the points collected do, induction on the vertices
* Limits: Exact rationals; meshes without vertices are left out.
