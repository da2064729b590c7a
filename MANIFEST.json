{
 "claims": [
  {
   "property": "C01",
   "status": "proved",
   "theorems": [
    "range_coder_round_trip",
    "range_coder_lead_byte_255_refuted"
   ],
   "note": "Preconditions: lead byte below 255 (255 is taken for EOF by the reader), fewer than about 2^30 items per segment (32-bit counter of outstanding bytes)."
  },
  {
   "property": "C02",
   "status": "proved",
   "theorems": [
    "range_coder_segments_self_delimiting",
    "range_coder_read_is_local"
   ],
   "note": ""
  },
  {
   "property": "C03",
   "status": "proved",
   "theorems": [
    "adaptive_model_partition",
    "adaptive_model_no_overflow"
   ],
   "note": ""
  },
  {
   "property": "C04",
   "status": "proved",
   "theorems": [
    "symbol_lookup_inverts_slices",
    "symbol_lookup_small_precision_refuted"
   ],
   "note": "Needs a precision of at least 7 bits (the code uses 10 and 18); below that the acceleration table is partly uninitialised."
  },
  {
   "property": "C05",
   "status": "proved",
   "theorems": [
    "adaptive_stream_round_trip"
   ],
   "note": ""
  },
  {
   "property": "C06",
   "status": "proved",
   "theorems": [
    "removed_vertex_record_round_trip",
    "removed_vertex_outside_window_refuted"
   ],
   "note": "Residuals in signed 16 bits with spread below 65535, which contains the documented window; outside it the record is corrupted."
  },
  {
   "property": "C07",
   "status": "proved",
   "theorems": [
    "inserted_edge_record_round_trip"
   ],
   "note": ""
  },
  {
   "property": "C08",
   "status": "proved",
   "theorems": [
    "whole_object_round_trip",
    "progressive_stream_round_trip"
   ],
   "note": "The numbers of symbols the mesh traversal asks for are a parameter here; C90 is the same with the traversal modelled."
  },
  {
   "property": "C09",
   "status": "proved",
   "theorems": [
    "progressive_prefix_stable",
    "reading_ignores_what_follows",
    "coarse_levels_are_prefixes",
    "whole_object_round_trip"
   ],
   "note": ""
  },
  {
   "property": "C10",
   "status": "proved",
   "theorems": [
    "bit_fields_round_trip",
    "wide_bit_field_refuted"
   ],
   "note": "Widths 1 to 25, values fitting their width, buffer zero from the cursor on. 26 bits or more are undefined at some alignments."
  },
  {
   "property": "C11",
   "status": "proved",
   "theorems": [
    "base_mesh_round_trip"
   ],
   "note": "At least 3 bytes must follow the header, which the records guarantee. The bits per vertex id are a parameter bounded below (the code computes ceil(log n/log 2) in floating point)."
  },
  {
   "property": "C12",
   "status": "partial",
   "theorems": [
    "base_mesh_any_size_refuted",
    "large_face_written_refuted"
   ],
   "note": "Refuted: the property as stated is false. No buffer is read as a mesh with 65536 vertices or faces, a face of more than 10 corners, 64 rounds or more than 16 bits of quantisation."
  },
  {
   "property": "C13",
   "status": "proved",
   "theorems": [
    "quantisation_error_bounded",
    "flat_box_not_quantisable_refuted",
    "float_error_bounded_partial"
   ],
   "note": "Exact arithmetic; with IEEE floats the error is at most 9/10 of a step for boxes within 2^22 - 2^16 steps of the origin (float_error_bounded_partial, uses the axioms of the reals); a box of zero extent has no usable step (division by zero). The bound is half a step even for the clamped maximum."
  },
  {
   "property": "C14",
   "status": "proved",
   "theorems": [
    "quantised_positions_are_fixed_points",
    "quantisation_error_bounded"
   ],
   "note": "Exact arithmetic."
  },
  {
   "property": "C15",
   "status": "proved",
   "theorems": [
    "refining_path_independent",
    "refining_decodes_exactly",
    "refining_whole_rounds",
    "no_rounds_object_overread_refuted",
    "level_above_100_overread_refuted"
   ],
   "note": "At least one round and levels up to 100. Without rounds the test divides 0 by 0 and a round that does not exist is decoded; above level 100 decoding never stops."
  },
  {
   "property": "C16",
   "status": "proved",
   "theorems": [
    "box_mindist_tight"
   ],
   "note": "Exact arithmetic."
  },
  {
   "property": "C17",
   "status": "partial",
   "theorems": [
    "box_maxdist_bound_refuted",
    "box_maxdist_bound_partial"
   ],
   "note": "Refuted: the value is the squared distance of the box centres; two nested closed surfaces are farther apart. It holds for objects containing their box centre."
  },
  {
   "property": "C18",
   "status": "proved",
   "theorems": [
    "accumulated_box_least",
    "accumulated_box_order_irrelevant"
   ],
   "note": "Coordinates below DBL_MAX in magnitude."
  },
  {
   "property": "C19",
   "status": "proved",
   "theorems": [
    "overlap_test_exact",
    "overlap_test_symmetric",
    "overlap_with_container",
    "overlap_flat_refuted"
   ],
   "note": "Boxes of positive thickness; a flat box on the side of its container does not overlap it."
  },
  {
   "property": "C20",
   "status": "proved",
   "theorems": [
    "octree_intersect_exact"
   ],
   "note": "Objects of positive thickness inside the universe, total weight below 2^32, and a recursion that returned (explicit fuel; when it does is C161). The query excludes objects with the pointer of the query object."
  },
  {
   "property": "C21",
   "status": "proved",
   "theorems": [
    "octree_within_exact"
   ],
   "note": "As C20. Also proved: nothing else is reported."
  },
  {
   "property": "C22",
   "status": "proved",
   "theorems": [
    "octree_nn_keeps_nearest"
   ],
   "note": "As C20, and box ranges must bracket the true distances (C17 shows this is not automatic)."
  },
  {
   "property": "C23",
   "status": "partial",
   "theorems": [
    "octree_finds_flat_objects_refuted",
    "octree_finds_objects_partial"
   ],
   "note": "Refuted: a flat object lying in a split plane overlaps no octant and is lost. Objects of positive thickness are found."
  },
  {
   "property": "C24",
   "status": "proved",
   "theorems": [
    "octree_leaves_tile"
   ],
   "note": "As C20."
  },
  {
   "property": "C25",
   "status": "proved",
   "theorems": [
    "octree_leaf_contents"
   ],
   "note": "As C20."
  },
  {
   "property": "C26",
   "status": "proved",
   "theorems": [
    "within_filter_complete",
    "within_filter_result_refuted"
   ],
   "note": "Reported directly means reaching the place marked \"todo report here\" (SpatialJoin.cpp:269), which records nothing: the second theorem shows that such answers leave no trace in the result. Objects of the second tile are thick with total weight below 2^32 (C20). The limit is compared with squared distances."
  },
  {
   "property": "C27",
   "status": "partial",
   "theorems": [
    "within_filter_sound_refuted",
    "within_filter_sound_partial"
   ],
   "note": "Refuted: nested surfaces at least 1 apart are reported as within 0, because the upper distance of boxes is that of their centres. It holds when that value bounds the distance of the contents."
  },
  {
   "property": "C28",
   "status": "partial",
   "theorems": [
    "within_round_misattributes_refuted",
    "within_round_own_distance_partial"
   ],
   "note": "Refuted: after an entry is decided, the pairs of its further candidates do not advance the index, so later entries are judged by other pairs' distances, both reporting wrong objects and losing right ones. It holds when every entry has at most one candidate."
  },
  {
   "property": "C29",
   "status": "proved",
   "theorems": [
    "nn_candidates_any_order",
    "nn_filter_keeps_nearest"
   ],
   "note": "Ranges must bracket the true distances (C17 shows the upper one does not always)."
  },
  {
   "property": "C30",
   "status": "proved",
   "theorems": [
    "nn_join_keeps_nearest"
   ],
   "note": "Computed distances never below the true one and exact at the highest level."
  },
  {
   "property": "C31",
   "status": "proved",
   "theorems": [
    "intersection_join_exact",
    "intersection_join_touching_refuted"
   ],
   "note": "Hypothesis: voxels whose contents meet have boxes with a common inner point. Objects that merely touch at the side of their boxes are not reported (second theorem). The triangle test is assumed to be applied to every pair, which C34 shows the CPU batch does not do."
  },
  {
   "property": "C32",
   "status": "proved",
   "theorems": [
    "packing_exact",
    "packing_overflow_refuted"
   ],
   "note": "Less than 2^32 floats in all; beyond that the 32-bit offsets wrap and voxels overwrite each other (second theorem)."
  },
  {
   "property": "C33",
   "status": "partial",
   "theorems": [
    "distance_batch_complete",
    "distance_batch_once_partial",
    "distance_batch_once_refuted",
    "distance_batch_single_thread_twice"
   ],
   "note": "Refuted: with a single thread, the default, the caller runs the batch and then starts a thread that runs it again, so every pair is computed twice. All results are right in every case, and with two or more threads every pair is computed exactly once. Pair counts below 2^31."
  },
  {
   "property": "C34",
   "status": "partial",
   "theorems": [
    "intersect_batch_remainder_refuted",
    "intersect_batch_remainder_lost",
    "intersect_batch_covers_partial"
   ],
   "note": "Refuted: with t threads only the first t*(n/t) pairs are computed; the last theorem says exactly which."
  },
  {
   "property": "C35",
   "status": "proved",
   "theorems": [
    "join_each_pair_once",
    "join_terminates"
   ],
   "note": "At least one worker. The unlocked read of queue.empty() is taken to return the current state (formally a data race)."
  },
  {
   "property": "C36",
   "status": "proved",
   "theorems": [
    "segdist_attained"
   ],
   "note": "Exact rationals instead of floats."
  },
  {
   "property": "C37",
   "status": "partial",
   "theorems": [
    "segdist_minimal_refuted",
    "segdist_minimal_partial"
   ],
   "note": "Refuted: when the closest point of the line of the first segment lies outside it, the routine clamps and projects once and can miss the minimum (witness off by more than 3 in squared distance). It is the minimum whenever that point lies inside."
  },
  {
   "property": "C38",
   "status": "proved",
   "theorems": [
    "segdist_single_minimum"
   ],
   "note": "Minimum of the pairwise answers, over the first 10000 segments of each side as the code cuts larger sets."
  },
  {
   "property": "C60",
   "status": "proved",
   "theorems": [
    "segdist_devices_agree",
    "gpu_kernel_of_segments"
   ],
   "note": "Exact rationals."
  },
  {
   "property": "C61",
   "status": "proved",
   "theorems": [
    "segdist_zero_iff_meet"
   ],
   "note": ""
  },
  {
   "property": "C62",
   "status": "partial",
   "theorems": [
    "gpu_batch_minimum_refuted",
    "gpu_batch_minimum_partial",
    "gpu_batch_minimum_atomic",
    "gpu_kernel_of_segments"
   ],
   "note": "Refuted: threads of one launch read and write the same cell without atomics, so an interleaving can lose the smaller value. Proved: the value is always one of the pair's distances; it is the minimum when the second voxel holds one segment, and when every thread reads and writes without another in between and the first thread of the block comes first."
  },
  {
   "property": "C39",
   "status": "partial",
   "theorems": [
    "triint_sound_refuted",
    "triint_touch_refuted",
    "triint_corner_refuted",
    "triint_sound_partial"
   ],
   "note": "Refuted: 'disjoint' can be wrong for a first triangle parallel to the z axis (only x and y are compared), for a corner of the second triangle lying in the plane of the first, and for a crossing line through the first corner. 'Intersecting' is right for all triangles of positive area, 'disjoint' is right in general position."
  },
  {
   "property": "C40",
   "status": "proved",
   "theorems": [
    "triint_single_disjunction"
   ],
   "note": ""
  },
  {
   "property": "C63",
   "status": "proved",
   "theorems": [
    "triint_parallel_exact"
   ],
   "note": "Triangles of positive area."
  },
  {
   "property": "C64",
   "status": "partial",
   "theorems": [
    "triint_degenerate_refuted",
    "triint_needle_refuted",
    "triint_degenerate_partial"
   ],
   "note": "Refuted: a first triangle without area makes every height zero, and the coplanar branch then compares projections of triangles that are apart; a needle through the middle of a triangle is answered 'disjoint'.  Proved: if the first triangle has an area, 'intersecting' is right whatever the second one is."
  },
  {
   "property": "C65",
   "status": "proved",
   "theorems": [
    "triint_sets_sound"
   ],
   "note": "Triangles of positive area."
  },
  {
   "property": "C66",
   "status": "proved",
   "theorems": [
    "triint_device_batch"
   ],
   "note": "Offsets and sizes in range, products of offsets exact (no 32-bit overflow)."
  },
  {
   "property": "C58",
   "status": "proved",
   "theorems": [
    "tokenize_inverts_join",
    "tokenize_keeps_blanks",
    "tokenize_single_blank_refuted"
   ],
   "note": "The delimiters do not contain the zero character. A single empty field is lost even when blank fields are kept (third theorem)."
  },
  {
   "property": "C59",
   "status": "partial",
   "theorems": [
    "rotation_reversible_refuted",
    "rotation_reversible_partial"
   ],
   "note": "Refuted: round() sends halves away from zero, so round(x+a) is not x+round(a) at a tie; the witness is an orthonormal frame with angle arccos(15/17). Reversible for every run without such a tie, for any values of the trigonometric functions."
  },
  {
   "property": "C52",
   "status": "proved",
   "theorems": [
    "rtree_search_exact"
   ],
   "note": "Volumes exact, not negative and growing with the box (C204 is about the volume compiled in, which grows only for boxes with min <= max); TMINNODES at most half of TMAXNODES+1. Coordinates are integers (only compared)."
  },
  {
   "property": "C53",
   "status": "proved",
   "theorems": [
    "rtree_shape"
   ],
   "note": "As C52."
  },
  {
   "property": "C54",
   "status": "partial",
   "theorems": [
    "rtree_removal_partial",
    "rtree_removal_defined",
    "rtree_remove_one",
    "rtree_removal_refuted"
   ],
   "note": "Refuted for a minimal fill of one (TMAXNODES 2 or 3 with the default minimum): removals can leave an inner root without branches and the next insertion reads a branch that does not exist. Proved for a minimal fill of two or more; for a minimal fill of one every search answers for exactly the stored entries until that insertion, which is the only way a history can go wrong (rtree_removal_defined). Removal compares values, not boxes, so among entries with equal values it may take out one with another box."
  },
  {
   "property": "C55",
   "status": "proved",
   "theorems": [
    "rtree_save_load",
    "rtree_copy",
    "rtree_load_refused"
   ],
   "note": "For every history that is defined, whatever the minimal fill. The stream is a sequence of typed values; sizes and I/O errors are not modelled."
  },
  {
   "property": "C56",
   "status": "partial",
   "theorems": [
    "rtree_iterator",
    "rtree_iterator_history",
    "rtree_iterator_refuted"
   ],
   "note": "Refuted for a minimal fill of one after removals: an inner root without branches is left, and GetFirst follows a branch that is not there.  Proved for insertions and, with a minimal fill of two or more, for all histories; the second theorem discharges the depth condition for fewer than 2^32 entries."
  },
  {
   "property": "C57",
   "status": "proved",
   "theorems": [
    "rtree_count",
    "rtree_count_total",
    "rtree_count_inserts"
   ],
   "note": "For every history that is defined; by C54 the only undefined one is an insertion into a root emptied with a minimal fill of one. A removal that finds nothing does not count."
  },
  {
   "property": "C67",
   "status": "proved",
   "theorems": [
    "rtree_search_stop"
   ],
   "note": "As C52."
  },
  {
   "property": "C68",
   "status": "partial",
   "theorems": [
    "rtree_float_split_refuted",
    "rtree_single_refuted",
    "rtree_single_partial",
    "rnd24_single",
    "rtree_rounded_partial",
    "rtree_rounded_history_partial",
    "rtree_sphere_single_refuted",
    "rtree_sphere_single_partial",
    "rtree_sphere_rounded_partial"
   ],
   "note": "Refuted: with capacities 3 and 1, four equal squares of side 8192 and subtraction rounded to 24 bits, PickSeeds finds no pair and LoadNodes indexes with -1. Positive part: if all inserted boxes lie in a box of volume at most 2^23 - 1, insertion, removal (minimal fill of two or more), count and search are right for every rounding that keeps the order and the halves up to 2^23, as single precision does. The same for the volume compiled in (spheres, C204), all of whose operations may round; four equal boxes of 6144 by 8192 refute it there."
  },
  {
   "property": "C41",
   "status": "proved",
   "theorems": [
    "voxel_fill_partition",
    "voxel_fill_once"
   ],
   "note": "Exact rationals; counts without int overflow. The cores must be initialised if there are several voxels. The arrays are released with delete instead of delete[], which is outside the model."
  },
  {
   "property": "C42",
   "status": "partial",
   "theorems": [
    "voxel_boxes_refuted",
    "voxel_boxes_partial"
   ],
   "note": "Refuted: primitives are assigned by their first point and boxes grow by vertices only, so long edges stick out of all boxes; witness: a prism with 1000 vertices, something at distance one is over 300000 away from every box, so box pruning loses it. The first point of every primitive does lie in its voxel's box at the level the voxels were made for."
  },
  {
   "property": "C69",
   "status": "partial",
   "theorems": [
    "skeleton_sampling_refuted",
    "skeleton_sampling_few_refuted",
    "skeleton_sampling_partial",
    "skeleton_sampling_choice"
   ],
   "note": "Refuted: get_rand_number returns 1..n, so with n points the index n is out of bounds, and the fallback search is dead code, so fewer points than wanted may be kept. With more points than wanted the sampling is safe, keeps 1..n of the points other than the first."
  },
  {
   "property": "C43",
   "status": "proved",
   "theorems": [
    "tile_meta_round_trip"
   ],
   "note": "Files shorter than 2^63 bytes, fewer than 2^31 voxels per object; any file contents, also garbage. The same bytes give the same boxes."
  },
  {
   "property": "C44",
   "status": "proved",
   "theorems": [
    "tile_data_located"
   ],
   "note": "As C43."
  },
  {
   "property": "C45",
   "status": "proved",
   "theorems": [
    "tile_boxes_least",
    "stored_corner_floats"
   ],
   "note": "Floats are finite; objects without voxels have no box."
  },
  {
   "property": "C46",
   "status": "partial",
   "theorems": [
    "tile_crash_refuted",
    "tile_crash_partial"
   ],
   "note": "Refuted: the file is written in place and read without checks, so a truncated file is accepted: fewer objects, or an invented one. Every prefix shows the complete records followed by at most one further object."
  },
  {
   "property": "C47",
   "status": "partial",
   "theorems": [
    "tile_capacity_refuted",
    "tile_capacity_partial"
   ],
   "note": "Refuted: the first opening (no metadata) ignores the capacity; a capacity of 2^32 is cut to an int and hides everything. With metadata and capacity below 2^31 it holds."
  },
  {
   "property": "C70",
   "status": "partial",
   "theorems": [
    "tile_add_raw_refuted",
    "tile_add_raw_keeps_objects"
   ],
   "note": "Refuted: add_raw enlarges the tile's box but drops the object; no tile ever gains an object."
  },
  {
   "property": "C71",
   "status": "proved",
   "theorems": [
    "tile_innerpart_disabled"
   ],
   "note": "Exact rationals."
  },
  {
   "property": "C48",
   "status": "proved",
   "theorems": [
    "compress_complete",
    "compress_one_worker",
    "compress_contiguous",
    "compress_no_overwrite",
    "compress_can_finish"
   ],
   "note": "Sequentially consistent memory (the program's flags are plain bools; the C++ standard gives no such guarantee). At least one worker for termination; termination is stated as: from every reachable state the end can be reached (a fair scheduler is not modelled). maximum_lines 0 means no limit."
  },
  {
   "property": "C49",
   "status": "proved",
   "theorems": [
    "sort_partition_covers",
    "sort_partition_tight",
    "stored_box_update_least",
    "stored_box_default_empty"
   ],
   "note": "Exact rationals for the boxes; fewer than 2^31 objects. Any result of std::sort that is a permutation, any result of pow."
  },
  {
   "property": "C50",
   "status": "proved",
   "theorems": [
    "partition_roundtrip",
    "partition_float_boxes"
   ],
   "note": "All full three-level trees whose inner nodes were made with add_child, as all of the program's are; files that can be written; fewer than 2^31 children. Weights are restored too."
  },
  {
   "property": "C51",
   "status": "partial",
   "theorems": [
    "sampling_complete_refuted",
    "sampling_groups_partial",
    "sampling_multiple_of_ten",
    "sampling_can_finish"
   ],
   "note": "Refuted: the reader hands over lines in groups of ten and drops the last incomplete group; with one sampled line nothing is processed. Every complete group is processed exactly once under every interleaving, and no interleaving gets stuck."
  },
  {
   "property": "C72",
   "status": "proved",
   "theorems": [
    "sort_partition_tiles"
   ],
   "note": "The truncated cube root is assumed not to exceed the real one."
  },
  {
   "property": "C73",
   "status": "proved",
   "theorems": [
    "sort_partition_ordered"
   ],
   "note": "Any std::sort result that is a sorted permutation."
  },
  {
   "property": "C74",
   "status": "partial",
   "theorems": [
    "sort_partition_weight_refuted",
    "sort_partition_weight_partial"
   ],
   "note": "Refuted: a new node's weight starts at 1, so each node counts itself. The weight is the sum plus the number of nodes of the subtree, modulo 2^32."
  },
  {
   "property": "C75",
   "status": "partial",
   "theorems": [
    "partition_saved_refuted",
    "partition_save_bounds_refuted",
    "partition_roundtrip"
   ],
   "note": "Refuted: the numbers of children are taken from the first node of each level, but slices differ: 14 objects and 12 tiles lose two tiles, 3 objects and 8 tiles read beyond a vector. Trees with equal numbers of children survive (C50)."
  },
  {
   "property": "C76",
   "status": "proved",
   "theorems": [
    "range_comparison_exact",
    "range_update_smallest"
   ],
   "note": "Exact arithmetic."
  },
  {
   "property": "C77",
   "status": "proved",
   "theorems": [
    "volume_monotone",
    "volume_additive",
    "volume_unit",
    "diagonal_is_diameter"
   ],
   "note": "Exact arithmetic."
  },
  {
   "property": "C78",
   "status": "partial",
   "theorems": [
    "octree_weight_wrap_refuted",
    "octree_weight_wrap_partial",
    "octree_finds_objects_partial"
   ],
   "note": "Refuted: weights are added modulo 2^32; when the weight of an inner node wraps to 0 the next object is put on a list no query reads. With a total below 2^32 objects of positive thickness are found."
  },
  {
   "property": "C79",
   "status": "proved",
   "theorems": [
    "remove_slash_spec"
   ],
   "note": "The empty path is out of range (at() throws)."
  },
  {
   "property": "C80",
   "status": "proved",
   "theorems": [
    "range_coder_trailer"
   ],
   "note": "As C01."
  },
  {
   "property": "C81",
   "status": "proved",
   "theorems": [
    "adaptive_model_pace"
   ],
   "note": ""
  },
  {
   "property": "C82",
   "status": "proved",
   "theorems": [
    "round_restores_mesh"
   ],
   "note": "CGAL's half-edge operations are modelled by their documented effect. Input meshes must have no border, no double edge and no facet on both sides of an edge. That rounds finish is C86."
  },
  {
   "property": "C83",
   "status": "proved",
   "theorems": [
    "round_keeps_mesh_closed"
   ],
   "note": "As C82."
  },
  {
   "property": "C84",
   "status": "proved",
   "theorems": [
    "round_without_removal_changes_nothing"
   ],
   "note": "As C82."
  },
  {
   "property": "C85",
   "status": "proved",
   "theorems": [
    "round_removes_independent_vertices"
   ],
   "note": "As C82."
  },
  {
   "property": "C86",
   "status": "proved",
   "theorems": [
    "round_always_finishes"
   ],
   "note": "The bounds on walks and queues in the model (lim, fuel) only have to exceed n*n and n^4 + 1 for n vertices: no run is cut off. As C82."
  },
  {
   "property": "C87",
   "status": "proved",
   "theorems": [
    "compression_always_finishes"
   ],
   "note": "As C82. The gate must be a half-edge of the mesh (the code takes the middle one of the storage)."
  },
  {
   "property": "C88",
   "status": "proved",
   "theorems": [
    "round_symbols_counted"
   ],
   "note": "As C82."
  },
  {
   "property": "C89",
   "status": "proved",
   "theorems": [
    "grid_rounds_codable"
   ],
   "note": "Exact rationals. 15 bits; with 16 bits the residuals may span more than the frequency table (limits of the codec, C07)."
  },
  {
   "property": "C90",
   "status": "proved",
   "theorems": [
    "levels_restored_from_bytes",
    "levels_restored_exactly"
   ],
   "note": "levels_restored_from_bytes holds for any arithmetic in which the compressed positions are fixed by quantisation (C91 is about floats) and takes codability and the limits of the header (C12) as hypotheses; levels_restored_exactly discharges them for exact rationals and a grid up to 2^15, except the limits of the header. At least one round (C15 records that an object without rounds is misread). The half-edge structure and CGAL's incremental builder are modelled by their documented effect."
  },
  {
   "property": "C91",
   "status": "partial",
   "theorems": [
    "float_positions_stable_refuted",
    "rounded_positions_stable_partial",
    "float_positions_stable_partial"
   ],
   "note": "Refuted: with 14 bits and a cell about as large as the spacing of floats the division rounds up to the next cell; a vertex is compressed at 8394071 and decoded at 8394072. Proved for boxes within 2^22 - 2^16 cells of the origin under the standard model of rounding (no underflow), and for the IEEE single-precision operations themselves (float_positions_stable_partial, uses the axioms of the reals)."
  },
  {
   "property": "C92",
   "status": "proved",
   "theorems": [
    "device_exclusive"
   ],
   "note": "Each read or write of lock and busy is atomic and steps interleave sequentially consistently; busy is a plain bool, for which C++ gives no such guarantee."
  },
  {
   "property": "C93",
   "status": "proved",
   "theorems": [
    "devices_never_deadlock",
    "requests_served_in_order",
    "every_run_recorded"
   ],
   "note": "As C92. Finitely many threads with finitely many requests. Possibility of finishing; starvation by an unfair scheduler is not excluded by the code."
  },
  {
   "property": "C94",
   "status": "partial",
   "theorems": [
    "request_always_served_refuted",
    "wanted_wraps_refuted"
   ],
   "note": "Refuted: get_gpus counts every device as at most 2048 MB and get_distance_gpu asks with force, so a batch of 100000000 segments loops for ever; the number of megabytes is computed from a product cut to 32 bits. C93 is the positive part (every request fits some device)."
  },
  {
   "property": "C95",
   "status": "partial",
   "theorems": [
    "device_parts_apart",
    "tri_batch_inside_partial",
    "seg_batch_inside_partial",
    "tri_batch_inside_refuted",
    "seg_batch_inside_refuted",
    "device_memory"
   ],
   "note": "Refuted: get_distance_gpu asks for the segments only, SegDist_batch_gpu also places their vectors: 80000000 segments are granted a 2048 MB device and end beyond it; the table of pairs is not counted either. Proved: parts never overlap; triangles with up to 52428 pairs, and segments whose vectors and tables take at most one megabyte, stay inside."
  },
  {
   "property": "C96",
   "status": "proved",
   "theorems": [
    "nn_last_round_only_nearest"
   ],
   "note": "The distances of the last level are taken to be exact, and the pair of voxels that realises the nearest distance has data at that level; entries settled before are covered by C30."
  },
  {
   "property": "C97",
   "status": "partial",
   "theorems": [
    "tree_distance_partial",
    "tree_distance_not_minimal_refuted"
   ],
   "note": "Refuted: the tree of the second object is asked for the vertices of the first only, so crossing edges at distance 1 are reported at 5, and exchanging the objects changes the answer. Proved: it is the exact minimum over vertices of the first and points on edges of the second."
  },
  {
   "property": "C98",
   "status": "proved",
   "theorems": [
    "nn_tree_round_own_distances",
    "tree_distances_fit",
    "within_tree_round_own_distances"
   ],
   "note": "Each candidate has one pair of voxels (no --multiple_mbb)."
  },
  {
   "property": "C99",
   "status": "partial",
   "theorems": [
    "within_tree_reports_far_refuted",
    "nn_tree_several_voxels_refuted"
   ],
   "note": "Refuted: calculate_distance passes over entries with a single candidate also in the within join, whose distance stays 0, so a far object is reported; with several pairs per candidate the distances are stored per candidate but read per pair. C98 is the positive part."
  },
  {
   "property": "C100",
   "status": "partial",
   "theorems": [
    "lods_list_partial",
    "lods_list_refuted"
   ],
   "note": "Refuted: a gap of 0 or less never ends, a base above the top reads before the start of an empty vector, a large gap overflows int. Proved for a positive gap, base at most top, and top + gap an int."
  },
  {
   "property": "C101",
   "status": "proved",
   "theorems": [
    "reports_any_order"
   ],
   "note": "Times and distances are exact rationals; float sums depend on the order in the last digits."
  },
  {
   "property": "C102",
   "status": "partial",
   "theorems": [
    "reported_distance_partial",
    "reported_distance_refuted"
   ],
   "note": "Refuted: the report is the maximum over all levels, so coarse distances of early levels stay in it; an object without data at a level makes it infinite. Proved: if finite, it is never below a nearest distance, and exact when only the highest level is used."
  },
  {
   "property": "C103",
   "status": "proved",
   "theorems": [
    "nuclei_apart"
   ],
   "note": "Exact rationals for floats; the boxes of prototypes are exact. The second nuclei (shifted at random) may overlap by design. Non-negative rand() assumed."
  },
  {
   "property": "C104",
   "status": "partial",
   "theorems": [
    "generator_in_bounds_partial",
    "generator_in_bounds_refuted"
   ],
   "note": "Refuted: get_rand_number(n) yields 1..n, so slot n is read beyond taken (one draw in n); voxel coordinates are divided by counts instead of sizes and index beyond vessel_taken; a single prototype makes a division by zero; a vessel over 200000 bytes overflows its buffer. Proved: draws never leave the arrays if no random number is -1 modulo the slots."
  },
  {
   "property": "C105",
   "status": "partial",
   "theorems": [
    "generated_number_partial",
    "generated_number_refuted",
    "generator_ends_refuted"
   ],
   "note": "Refuted: ++generated < n makes n - 1 nuclei and reports n; if every slot counts as taken the search never ends (Stuck for every sequence of random numbers). Proved: exactly n - 1 are made when it ends."
  },
  {
   "property": "C106",
   "status": "partial",
   "theorems": [
    "nuclei_clear_of_vessel_partial",
    "nuclei_clear_of_vessel_refuted"
   ],
   "note": "Refuted: slot numbers of voxels are computed by dividing by the number of slots instead of their size, so overlapped slots stay unmarked. Proved where the size of a slot equals the number of slots along each axis: every nucleus is apart from every voxel along some axis."
  },
  {
   "property": "C107",
   "status": "partial",
   "theorems": [
    "jobs_once_partial",
    "one_thread_at_a_time",
    "jobs_once_refuted"
   ],
   "note": "Refuted: the queue is tested outside the lock, so with two threads and a last job one pops an empty queue. Proved: no job is lost or doubled by any number of threads; with one thread never a bad pop, and all jobs are written when it ends."
  },
  {
   "property": "C108",
   "status": "partial",
   "theorems": [
    "vessel_number_partial",
    "vessel_number_refuted"
   ],
   "note": "Refuted: the number is cut to x*x*z (30 becomes 27); 0 divides by zero. Proved for every cube root x >= 1 found with x^3 at most the number: distinct places, short by less than x*x; nuclei shared up to the remainder. Products are not cut to 32 bits; pow is taken as any such x."
  },
  {
   "property": "C109",
   "status": "proved",
   "theorems": [
    "generated_file_opens"
   ],
   "note": "Compression of the shifted meshes is C90; the bytes of a mesh are a parameter here. Requires that the buffers were large enough (see C104)."
  },
  {
   "property": "C110",
   "status": "proved",
   "theorems": [
    "second_nucleus_near"
   ],
   "note": "Exact rationals for floats; positive range."
  },
  {
   "property": "C111",
   "status": "proved",
   "theorems": [
    "convexity_test",
    "projection_in_plane"
   ],
   "note": "Coordinates are exact rationals; the normal is kept undivided and squares are compared, which gives the same answers as dividing by the square root."
  },
  {
   "property": "C112",
   "status": "partial",
   "theorems": [
    "convexity_of_any_size_partial",
    "convexity_of_any_size_refuted"
   ],
   "note": "Refuted: the tolerance is an absolute number, so a clearly concave quadrilateral passes when it is ten thousand times smaller. Proved: a polygon that passes enlarged also passes at its own size."
  },
  {
   "property": "C113",
   "status": "partial",
   "theorems": [
    "accepted_ring_simple_partial",
    "accepted_ring_simple_refuted"
   ],
   "note": "Refuted: a polygon that runs back along one of its lines passes, and two of its sides without a common corner overlap. Proved for polygons whose corners off a side are strictly on one side of it."
  },
  {
   "property": "C114",
   "status": "proved",
   "theorems": [
    "removed_vertices_convex"
   ],
   "note": "Any positions; the mesh coder is the model of C82 with its convexity test now the real one."
  },
  {
   "property": "C115",
   "status": "partial",
   "theorems": [
    "coarser_level_meets_only_what_the_object_meets_refuted",
    "levels_inside_box"
   ],
   "note": "Refuted: removability does not ask whether a vertex sticks out, so a hollow is replaced by a flat facet; a triangle standing in the hollow meets the coarser level and no facet of the object. This shows that the hypothesis of C31 on the coarser tests is not guaranteed by the compressor. What does hold is C116."
  },
  {
   "property": "C116",
   "status": "proved",
   "theorems": [
    "levels_inside_box"
   ],
   "note": "Positions before quantisation."
  },
  {
   "property": "C117",
   "status": "proved",
   "theorems": [
    "depart_components"
   ],
   "note": "Termination included: with enough fuel there is a result."
  },
  {
   "property": "C118",
   "status": "proved",
   "theorems": [
    "fill_holes_closes"
   ],
   "note": "For meshes whose edge table is that of their faces, as after loading or taking apart."
  },
  {
   "property": "C119",
   "status": "partial",
   "theorems": [
    "fill_holes_closes_all_refuted",
    "fill_holes_closes"
   ],
   "note": "Refuted: the table of next vertices has one entry per vertex, so of two holes that meet in a vertex one is not closed. What holds is C118."
  },
  {
   "property": "C120",
   "status": "proved",
   "theorems": [
    "merge_vertex_corners"
   ],
   "note": "Points compared by an equality test, as in the map of coordinate triples."
  },
  {
   "property": "C121",
   "status": "partial",
   "theorems": [
    "merge_then_fill_refuted",
    "merge_vertex_corners"
   ],
   "note": "Refuted: merging renumbers the faces but not the table of edges, so that filling adds a face to a closed mesh.  Merged points also stay in the file."
  },
  {
   "property": "C122",
   "status": "partial",
   "theorems": [
    "fixer_writes_closed_pieces_partial",
    "fixer_writes_closed_pieces_refuted",
    "fixer_same_name"
   ],
   "note": "Refuted: names consist of the numbers of points and faces; any connected mesh of more than 100 points and a copy of it elsewhere are written under one name (fixer_same_name), and one is lost.  Partial: all pieces are written closed, and can be found where the names differ."
  },
  {
   "property": "C123",
   "status": "partial",
   "theorems": [
    "fixer_separate_faces_refuted",
    "merge_vertex_corners"
   ],
   "note": "Refuted for every such mesh: pieces are taken apart before points are merged, so each face is a piece of 3 points and nothing is written."
  },
  {
   "property": "C124",
   "status": "proved",
   "theorems": [
    "evaluate_counts_edges"
   ],
   "note": ""
  },
  {
   "property": "C125",
   "status": "partial",
   "theorems": [
    "fixer_files_partial",
    "fixer_text_partial",
    "fixer_digits",
    "fixer_text_refuted",
    "fixer_files_refuted"
   ],
   "note": "Refuted: every face is read as three vertices, though filling holes writes faces with more; coordinates are printed with six digits.  Partial: triangles and coordinates of at most six digits are read back; longer whole numbers are rounded to six digits; fixer_text_partial is about the characters of the file and any coordinates."
  },
  {
   "property": "C126",
   "status": "proved",
   "theorems": [
    "intersection_end_sound",
    "filled_objects_carry"
   ],
   "note": "Exact rationals; levels are taken as decoded and filled (C41, C90)."
  },
  {
   "property": "C127",
   "status": "proved",
   "theorems": [
    "intersection_end_exact",
    "intersection_end_reports"
   ],
   "note": ""
  },
  {
   "property": "C128",
   "status": "partial",
   "theorems": [
    "intersection_end_threads_refuted",
    "intersection_end_few_pairs_lost",
    "intersection_end_agree_partial"
   ],
   "note": "Refuted: the remainder of pairs/threads is never tested, so with fewer voxel pairs than threads nothing at all is reported.  Partial: device and one thread agree, more threads never add an object."
  },
  {
   "property": "C129",
   "status": "proved",
   "theorems": [
    "distance_end_attained",
    "distance_end_not_below",
    "distance_end_filters"
   ],
   "note": "Exact rationals; edges with two different ends (others are moved by 0.1, C41); less than 2^32 floats."
  },
  {
   "property": "C130",
   "status": "partial",
   "theorems": [
    "distance_end_surface_refuted",
    "distance_end_surface_partial"
   ],
   "note": "Refuted: only edges are compared, so two facets that cross each other have a distance above 0.  Partial: if nearest points of the surfaces lie on edges and are nearest on their lines, their distance is stored."
  },
  {
   "property": "C131",
   "status": "partial",
   "theorems": [
    "within_end_crossing_refuted",
    "within_end_sound_partial",
    "within_end_reports_partial"
   ],
   "note": "Refuted: crossing objects are not reported for a small limit.  Partial: with one candidate per object reports are sound at the level of edges, and objects with nearest points on edges are reported unless the filter dropped them (C26); with several candidates distances are misattributed (C28)."
  },
  {
   "property": "C132",
   "status": "partial",
   "theorems": [
    "within_end_limit_refuted",
    "within_end_sound_partial"
   ],
   "note": "Refuted: max_dist is compared with squared distances.  Partial: the square of the distance of what is reported is below the limit."
  },
  {
   "property": "C133",
   "status": "proved",
   "theorems": [
    "text_number_nearest",
    "text_number_close"
   ],
   "note": "Numbers below 10^99 and zero or above 10^-99 (exponents of two digits, all floats); NaN, infinities and -0 left out."
  },
  {
   "property": "C134",
   "status": "proved",
   "theorems": [
    "towkt_reads_back",
    "polyhedron_wkt_reads_back"
   ],
   "note": "Objects are given by the points of their faces at level 100 (C90 gives these)."
  },
  {
   "property": "C135",
   "status": "partial",
   "theorems": [
    "text_apart_refuted",
    "text_apart_partial"
   ],
   "note": "Refuted: streams keep their default precision of six digits, so a triangle near 2000000 is written as one point four times.  Partial: order is never exchanged, and numbers that differ by more than 1/100000 of their size stay different."
  },
  {
   "property": "C136",
   "status": "proved",
   "theorems": [
    "cube_is_the_box",
    "cube_is_linked"
   ],
   "note": "CGAL's make_tetrahedron, split_edge and split_facet by their documented effect."
  },
  {
   "property": "C137",
   "status": "proved",
   "theorems": [
    "adjust_scales",
    "adjust_done",
    "adjust_undefined"
   ],
   "note": "Exact rationals after the rounding to six digits."
  },
  {
   "property": "C138",
   "status": "partial",
   "theorems": [
    "adjust_shift_refuted",
    "adjust_shift_partial"
   ],
   "note": "Refuted: the shift is divided by the factor.  Partial: every vertex moves by shift/shrink."
  },
  {
   "property": "C139",
   "status": "partial",
   "theorems": [
    "adjust_place_refuted",
    "adjust_place_partial"
   ],
   "note": "Refuted: the smallest corner is put on the truncated mean, so the object sticks out of its old box.  Partial: coordinates that are not negative stay so and at most double."
  },
  {
   "property": "C140",
   "status": "partial",
   "theorems": [
    "nn_end_crossing_refuted",
    "nn_end_nearest_partial"
   ],
   "note": "Refuted: distances are those of edges; an object that crosses another one loses against a third that it does not touch.  Partial: if boxes contain what they stand for, the upper ends of their ranges are not too low, coarse levels give larger distances and the nearest points lie on edges and are nearest on their lines, then every object ends with its nearest object, alone or among objects just as near, whatever the threads do."
  },
  {
   "property": "C141",
   "status": "partial",
   "theorems": [
    "nn_end_around_refuted",
    "nn_end_nearest_partial"
   ],
   "note": "Refuted: the upper end of the distance of boxes is that of their centres; the surface of an object around another one can be farther, and the nearest object is removed by the filter.  Partial: as C140, where this is the condition sound_ranges."
  },
  {
   "property": "C142",
   "status": "partial",
   "theorems": [
    "nn_end_coarse_refuted",
    "nn_end_nearest_partial"
   ],
   "note": "Refuted: with sound boxes and ranges, a coarse level that brings one object nearer removes the nearest one for good.  Partial: as C140, where this is the condition shrinking."
  },
  {
   "property": "C143",
   "status": "proved",
   "theorems": [
    "compressed_objects_come_back"
   ],
   "note": "Objects the compressor can handle (record compressible): closed meshes in one piece, positions on the grid, at least one round, symbols within the coder's range, a buffer that is large enough.  The rounds of the coder are those of C40-C60; what CGAL decides (order of half-edges, handles of new vertices) is left open."
  },
  {
   "property": "C144",
   "status": "proved",
   "theorems": [
    "level_edges_in_voxels"
   ],
   "note": "Exact rationals.  The iterators of CGAL are any lists with one half-edge per edge and facet."
  },
  {
   "property": "C145",
   "status": "partial",
   "theorems": [
    "level_triangles_cover_refuted",
    "level_triangles_in_voxels"
   ],
   "note": "Refuted: a facet left by a removed vertex has more than three corners and only its first three are stored; a square pyramid loses half of its base one round below the finest level.  Proved: one triangle per facet, all on the surface; they cover it if all facets of the level are triangles."
  },
  {
   "property": "C146",
   "status": "proved",
   "theorems": [
    "reported_levels_intersect",
    "computed_level_distances"
   ],
   "note": "Exact rationals; the conditions of C126 and C129.  That every object can get there is can_arrive."
  },
  {
   "property": "C147",
   "status": "partial",
   "theorems": [
    "tile_opens_by_path_partial",
    "tile_paths_refuted"
   ],
   "note": "Refuted: a folder with .dt in its name sends the metadata to another folder; a path of 173 characters overflows the message buffer; a file without .dt in its name is read as its own metadata. Proved for paths with exactly one .dt, at the end, that fit the message."
  },
  {
   "property": "C148",
   "status": "partial",
   "theorems": [
    "tile_shows_its_data_partial",
    "tile_written_anew_refuted",
    "voxels_after_end"
   ],
   "note": "Refuted: metadata left from an earlier data file is used for the new one. Proved when there is no metadata or it was made from the same data."
  },
  {
   "property": "C149",
   "status": "partial",
   "theorems": [
    "lone_readers_fetch_right_partial",
    "one_reader_fetches_right",
    "shared_tile_refuted",
    "reader_moves_position"
   ],
   "note": "Refuted: the mutexes are commented out, two threads exchange the position in the file. Proved for all schedules in which no two threads are inside at once, in particular for one thread. fseek and fread are atomic each."
  },
  {
   "property": "C150",
   "status": "partial",
   "theorems": [
    "get_mesh_text_partial",
    "get_mesh_reads_past",
    "get_mesh_text_refuted"
   ],
   "note": "Refuted: the array has no room for the final zero and none is written, so every text is read past its end. Proved: if a zero happens to lie behind it, exactly the line is parsed."
  },
  {
   "property": "C151",
   "status": "partial",
   "theorems": [
    "files_listed_partial",
    "files_listed_once",
    "files_listed_refuted"
   ],
   "note": "Refuted: the result of stat is not looked at, a broken link may be listed as a file. Proved for all trees without broken links; no file is ever listed twice. Links to folders above are not modelled."
  },
  {
   "property": "C152",
   "status": "partial",
   "theorems": [
    "decompressor_writes_levels_partial",
    "decompressor_argument_uninitialised",
    "decompressor_argument_refuted"
   ],
   "note": "Refuted: with an argument below 10 the pointer himesh is never set and then used, for every object. Proved: all files hold the mesh of their level, and without an argument or with 10 the program ends. Floating-point stop test in exact arithmetic as in C15; statistics with zlib left out."
  },
  {
   "property": "C153",
   "status": "partial",
   "theorems": [
    "partitioner_repeats_partial",
    "partitioner_stale_refuted"
   ],
   "note": "Refuted: tmp.part is used whatever folder it was made for, objects of another folder are in no tile. Proved for a first run whose tree is full: later runs give the same tiles; that these cover the objects is C49, what happens to other trees C75."
  },
  {
   "property": "C154",
   "status": "proved",
   "theorems": [
    "gpu_launches_fit"
   ],
   "note": "The largest sizes are below 2^32 - 1024 (the unsigned counter does not wrap). The fixed width 1024 of get_vector_kernel and TriInt_cuda is a literal in C66 and C156."
  },
  {
   "property": "C155",
   "status": "partial",
   "theorems": [
    "header_opens_partial",
    "header_opens_refuted",
    "header_opens_at"
   ],
   "note": "Refuted: a header with a level that is not convex, above 0 and below the number of rounds, keeps the constructor in its loop for ever, though writeBaseMesh writes such a header for such an object. Proved: exactly these headers do so. The stop test is in exact arithmetic as in C15."
  },
  {
   "property": "C156",
   "status": "proved",
   "theorems": [
    "gpu_batch_pairs_apart"
   ],
   "note": "Floats are rationals, products of unsigned numbers exact; the ranges of the pair lie inside the buffer."
  },
  {
   "property": "C157",
   "status": "proved",
   "theorems": [
    "float_coordinates_fit",
    "to_int_truncates"
   ],
   "note": "Ranges between 2^-100 and 2^100; the theorem uses the axioms of the standard library's reals."
  },
  {
   "property": "C158",
   "status": "proved",
   "theorems": [
    "rtree_split_quadratic"
   ],
   "note": "Coordinates are integers and volumes rationals (exact); ties as in the code."
  },
  {
   "property": "C159",
   "status": "proved",
   "theorems": [
    "rtree_pick_branch"
   ],
   "note": "Volumes are exact rationals."
  },
  {
   "property": "C160",
   "status": "proved",
   "theorems": [
    "octree_split_rule"
   ],
   "note": "Total weight below 2^28, so that the weights of the children do not wrap."
  },
  {
   "property": "C161",
   "status": "partial",
   "theorems": [
    "octree_build_ends_refuted",
    "octree_touch_ends_refuted",
    "octree_build_ends_partial",
    "octree_apart_ends_partial"
   ],
   "note": "Refuted: two or more objects that have an inner point in common and weigh more than the limit are divided for ever, e.g. 401 overlapping boxes in a join (limit 400, weight 1 each); so are boxes that only touch in a point where no box is ever cut.  Partial: if no point is in (or on) boxes weighing more than the limit, building ends (open is only the case of common points on cutting planes); where every box with sides up to some d > 0 meets objects of at most the limit, building ends, and its depth is logarithmic in extent / d.  Exact arithmetic: with floats the middle of a box of adjacent floats is one of its ends, so the box is its own child and the recursion does not end either."
  },
  {
   "property": "C162",
   "status": "proved",
   "theorems": [
    "fill_holes_only_open"
   ],
   "note": ""
  },
  {
   "property": "C163",
   "status": "proved",
   "theorems": [
    "fixer_edges_in_order"
   ],
   "note": ""
  },
  {
   "property": "C164",
   "status": "proved",
   "theorems": [
    "rotation_takes_frame_to_axes"
   ],
   "note": "Exact arithmetic: acos, sin, cos and sqrt are any functions satisfying their equations; the length of (n_x, n_y) is a given rational."
  },
  {
   "property": "C165",
   "status": "proved",
   "theorems": [
    "rotation_rounding_bounded",
    "half_angles_exact"
   ],
   "note": "Shears are rounded to integers by round(); trigonometric functions are exact."
  },
  {
   "property": "C166",
   "status": "partial",
   "theorems": [
    "sampling_queue_race_refuted",
    "sampling_lock_excludes",
    "sampling_changes_locked"
   ],
   "note": "Refuted: the main thread reads input_lines.size() and workers read empty() without the lock while a worker pops under it.  Proved: changes to the queue happen under the lock only, and at most one thread holds it."
  },
  {
   "property": "C167",
   "status": "proved",
   "theorems": [
    "voxel_count"
   ],
   "note": ""
  },
  {
   "property": "C168",
   "status": "proved",
   "theorems": [
    "tiles_deleted_once",
    "joiner_tiles_apart",
    "shared_tile_deleted_twice_refuted"
   ],
   "note": "Uses of a tile are the events of a thread joining a pair that has it.  The hypothesis that pairs share no tile is met by joiner.cpp and needed: the last theorem shows a tile in two pairs used after deletion and deleted twice."
  },
  {
   "property": "C169",
   "status": "partial",
   "theorems": [
    "join_without_threads_refuted",
    "join_returns_partial"
   ],
   "note": "Refuted: with no threads (--threads 0 is accepted) and a pair to join, the caller waits for the queue to empty for ever.  Proved: with at least one thread, a schedule that cannot go on has an empty queue and ended threads, and conversely.  That joining a pair ends is not part of this theorem."
  },
  {
   "property": "C170",
   "status": "partial",
   "theorems": [
    "tile_queue_race_refuted",
    "tile_queue_changes_locked"
   ],
   "note": "Refuted: threads test empty() before taking the lock, so one can read the queue while another removes its front.  Proved: changes to the queue happen under the lock only and at most one thread is in such a step."
  },
  {
   "property": "C171",
   "status": "partial",
   "theorems": [
    "compressed_fits_refuted",
    "compressed_size_partial"
   ],
   "note": "Refuted: a triangular prism with coordinates of one digit, a line of 92 characters, compresses to 93 bytes: each of its three rounds removes one vertex and takes 18 bytes.  The order in which CGAL stores half-edges, which decides the first gates, is written out for this prism.  Positions are exact rationals (the step is a power of two).  Proved: the base mesh takes exactly its bits rounded up to bytes and each round at most 19 bytes and three for each symbol."
  },
  {
   "property": "C172",
   "status": "proved",
   "theorems": [
    "manifold_test_exact",
    "removable_exactly",
    "removable_any_start",
    "removable_answers"
   ],
   "note": "isConvex is any test here (C111 covers it); vertex_begin() is any half-edge at hand."
  },
  {
   "property": "C173",
   "status": "partial",
   "theorems": [
    "tridist_smallest_refuted",
    "tridist_smallest_partial"
   ],
   "note": "Refuted: SegPoints does not clamp the parameter of the first side before it computes the second (as C37 for SegDist), so two triangles that share a corner are answered the distance sqrt(2) and two triangles more than 0.7 apart are answered 0.  Proved: whenever the closest points of the nine pairs of sides are right, the answer is the smallest distance of points of the triangles, attained, in all branches (sides, corner over a face, touching or crossing).  Arithmetic is exact; no program of the repository calls TriDist."
  },
  {
   "property": "C174",
   "status": "proved",
   "theorems": [
    "tridist_single_minimum",
    "tridist_single_smallest"
   ],
   "note": "Arithmetic is exact; the second theorem has the condition of C173 for each pair."
  },
  {
   "property": "C175",
   "status": "partial",
   "theorems": [
    "box_distance_float_refuted",
    "box_distance_float_lower",
    "box_distance_float_near",
    "box_distance_float_ordered"
   ],
   "note": "Refuted: two boxes 11587 apart are answered 134258576, more than the exact 134258569 of two of their points.  Proved: the answer is at most the distance the same arithmetic computes for any two points of the boxes, it is within six roundings of the exact lower distance, and the range is never exchanged.  No overflow or underflow: exponents are unbounded."
  },
  {
   "property": "C176",
   "status": "proved",
   "theorems": [
    "octree_within_float_exact"
   ],
   "note": "No overflow or underflow; the cells are divided exactly."
  },
  {
   "property": "C177",
   "status": "partial",
   "theorems": [
    "segdist_order_refuted",
    "segdist_order_partial",
    "segdist_reversed",
    "segdist_reversed_gpu"
   ],
   "note": "Refuted for the order: with the two segments exchanged the answer changes from 26 to 29, as the first parameter is not clamped (C37).  Proved: reversing a segment never changes the answer on either device, and the order does not matter if each segment contains a point as close to the other line as its own line gets.  Arithmetic is exact."
  },
  {
   "property": "C178",
   "status": "proved",
   "theorems": [
    "tree_levels_right",
    "tree_always_current"
   ],
   "note": "What a tree answers is in C97; the second theorem holds for levels in any order."
  },
  {
   "property": "C179",
   "status": "partial",
   "theorems": [
    "within_trees_released_refuted",
    "nn_trees_released"
   ],
   "note": "Refuted for the within join: trees are built for objects with a single candidate too, but those are passed over where trees are used and deleted; the tree stays with the mesh, out of date, until the mesh is deleted (it is never asked again: C178).  Proved for the nearest-neighbour join."
  },
  {
   "property": "C180",
   "status": "partial",
   "theorems": [
    "distance_analysis_refuted",
    "intersect_analysis",
    "distance_analysis_partial"
   ],
   "note": "Refuted for within and nearest-neighbour joins: the packing time is measured inside the computation time and then added to it, the three numbers can add up to 1.6 times the time per repetition.  Proved for intersection joins (up to the time between the first two readings of the clock, of which the earlier one belongs to index and the later one to overall); for the other joins the numbers without packing fit, so the sum is at most twice the time.  The clock never goes back."
  },
  {
   "property": "C181",
   "status": "partial",
   "theorems": [
    "report_parts_refuted",
    "report_adds_up"
   ],
   "note": "Refuted of the six parts: packing and updatelist are contained in other as well.  Proved: index, decode, computation and other add up to the total."
  },
  {
   "property": "C182",
   "status": "partial",
   "theorems": [
    "h5_name_refuted",
    "h5_name",
    "h5_no_clash"
   ],
   "note": "Refuted: with a path of 255 characters or more the name of the OFF file is written beyond the buffer of 256.  Proved for all paths up to 254 characters."
  },
  {
   "property": "C183",
   "status": "partial",
   "theorems": [
    "h5_values_refuted",
    "h5_columns_refuted",
    "h5_values"
   ],
   "note": "Refuted: coordinates are written with one digit after the point, so corners less than 0.1 apart can become the same one; faces with more than three corners lose the others, tables with fewer than three columns are read beyond their memory.  Proved: every coordinate is within 0.05, tenths are exact, corners more than 0.1 apart along an axis stay different, triangles are kept."
  },
  {
   "property": "C184",
   "status": "partial",
   "theorems": [
    "voxels_every_mesh_refuted",
    "voxels_exit_iff",
    "voxels_with_asserts",
    "skeleton_kept"
   ],
   "note": "Refuted: triangulate_faces is called inside an assert, which is compiled out, so a mesh with enough vertices and a facet that is not a triangle makes the program exit.  Proved: it exits exactly then (and when no skeleton of the level is kept); it would not with asserts; a skeleton is computed once for a level."
  },
  {
   "property": "C185",
   "status": "proved",
   "theorems": [
    "triangle_surface",
    "face_surface"
   ],
   "note": "Exact real arithmetic; the code rounds to float."
  },
  {
   "property": "C186",
   "status": "partial",
   "theorems": [
    "removal_error_refuted",
    "removal_error_moved_refuted",
    "removal_error_value"
   ],
   "note": "Refuted: the vertex is not used at all (the barycenter stands in its place), and the result depends on where the origin is.  Proved: the value is that of (|N|/2 - A) * (b . n) / 3, so 0 for flat polygons.  Called by no program."
  },
  {
   "property": "C187",
   "status": "partial",
   "theorems": [
    "planar_only_refuted",
    "planar_only_partial",
    "planar_passes"
   ],
   "note": "Refuted: a closed polygon whose area vector is zero gets the null vector as normal and passes whatever its shape.  Proved for all polygons with another area vector, and that flat polygons always pass.  Called by no program; exact real arithmetic."
  },
  {
   "property": "C188",
   "status": "proved",
   "theorems": [
    "off_line_real",
    "off_text_read"
   ],
   "note": "A leading plus sign, a capital E and an exponent without a sign are left out, and so is the rounding to double.  off_text_read: the same for the reader that takes the whole line, unsigned numbers."
  },
  {
   "property": "C189",
   "status": "partial",
   "theorems": [
    "mesh_behind_real_partial",
    "mesh_behind_partial",
    "mesh_behind_refuted"
   ],
   "note": "Refuted: a line that ends with its last number takes digits behind it into that number.  Proved: a line that ends with a bar or blank gives its mesh whatever lies behind, and so does any line with no digit (point, sign or e for coordinates) behind.  Notation as in C188; CGAL's skipping of colours is not modelled."
  },
  {
   "property": "C190",
   "status": "proved",
   "theorems": [
    "rtree_no_leak",
    "rtree_no_leak_total"
   ],
   "note": "rtree_no_leak_total: no history fails, for capacities with a minimum of at least 2 and exact volume differences."
  },
  {
   "property": "C191",
   "status": "partial",
   "theorems": [
    "rtree_copy_independent",
    "rtree_assign_refuted"
   ],
   "note": "Refuted: RTree declares no assignment, so after one the destructors of any two trees free the same nodes and the nodes of the target are lost.  Proved for the copy constructor.  No program assigns or copies a tree."
  },
  {
   "property": "C192",
   "status": "partial",
   "theorems": [
    "stamps_ordered",
    "stamp_fraction_refuted"
   ],
   "note": "Refuted: milliseconds are printed with four digits, so the fraction read is a tenth of the real one.  Proved: stamps of one day are ordered as the moments to the millisecond.  Changes of the local clock are left out."
  },
  {
   "property": "C193",
   "status": "partial",
   "theorems": [
    "names_tell",
    "run_names_differ",
    "names_refuted",
    "names_fit_partial",
    "names_fit_refuted"
   ],
   "note": "Refuted: runs that differ only in the fraction of shrink write the same files, and paths of 233 characters or more overflow the arrays.  Proved: the names tell the kind of file and all other options, and fit for paths of up to 181 characters."
  },
  {
   "property": "C194",
   "status": "partial",
   "theorems": [
    "compress_progress_partial",
    "compress_progress_refuted",
    "compress_progress_ends",
    "partition_progress_partial",
    "partition_progress_refuted"
   ],
   "note": "Refuted: the percentage is compared for equality, so a first line of a hundredth of the file or more, or lines not taken by the sample, end all reports.  Proved for files without long lines (all taken, for the partitioner).  maximum_lines is not reached."
  },
  {
   "property": "C195",
   "status": "partial",
   "theorems": [
    "sample_rate",
    "sample_ends",
    "sample_float_refuted"
   ],
   "note": "Refuted: possibility 1 does not take RAND_MAX (that form is not called).  Proved for rates in percent, as a count over the values of rand."
  },
  {
   "property": "C196",
   "status": "partial",
   "theorems": [
    "tile_names_differ",
    "box_names_differ",
    "tile_names_refuted"
   ],
   "note": "Refuted for different prefixes, where a digit of the prefix may stand for one of the number.  Proved for equal prefixes."
  },
  {
   "property": "C197",
   "status": "proved",
   "theorems": [
    "removal_error_scale"
   ],
   "note": "Exact real arithmetic, so pow is Rpower.  Moving the mesh does change the error, see C186."
  },
  {
   "property": "C198",
   "status": "proved",
   "theorems": [
    "off_file_read"
   ],
   "note": "The text is CGAL's (operator<< in its ASCII form, six digits); the reader's rounding to double, comments and colours are left out.  A zero is taken to follow somewhere in memory, see C150."
  },
  {
   "property": "C199",
   "status": "proved",
   "theorems": [
    "facet_normal"
   ],
   "note": "Exact real arithmetic instead of float and double."
  },
  {
   "property": "C200",
   "status": "proved",
   "theorems": [
    "vertex_normal_is"
   ],
   "note": "Exact real arithmetic.  The function is not called in the repository."
  },
  {
   "property": "C201",
   "status": "partial",
   "theorems": [
    "voxels_hold_object_partial",
    "voxels_hold_object_refuted"
   ],
   "note": "Refuted: the moved vertices are written with six digits, the voxels are moved in full, so a cube of side 0.126 at 1000 is written larger than its voxel.  Proved: a vertex is outside by at most half a unit of its sixth digit, and inside if six digits suffice.  Quantisation comes on top of this."
  },
  {
   "property": "C202",
   "status": "partial",
   "theorems": [
    "arrays_describe_partial",
    "arrays_describe_refuted",
    "arrays_decoded"
   ],
   "note": "Refuted: decoded vertices all have id 0, so all corners are the first vertex; ids beyond 65535 lose their high bits; facets of four corners lose one.  Proved: the array of vertices is right, and with ids in order, at most 65536 vertices and triangles only so is the other.  The functions are not called in the repository."
  },
  {
   "property": "C203",
   "status": "partial",
   "theorems": [
    "frame_orthonormal_partial",
    "frame_rotated",
    "frame_orthonormal_refuted"
   ],
   "note": "Refuted for gates along the normal and for the null normal of a facet without area, where tangents stay null.  Proved for every other gate.  Exact rationals with a rational length of the flat part.  The function is not called in the repository."
  },
  {
   "property": "C204",
   "status": "proved",
   "theorems": [
    "rtree_sphere",
    "rtree_sphere_inserts",
    "sphere_volume_is"
   ],
   "note": "Differences of volumes exact; C68 has the rounded ones.  Insert asks for min <= max, checked in debug builds only; rtree_sphere_improper_refuted shows that without it a split may leave an entry without a group.  The square root and pow are any functions that keep the order."
  },
  {
   "property": "C205",
   "status": "proved",
   "theorems": [
    "rtree_bounds_history",
    "rtree_bounds"
   ],
   "note": "As C52.  Minimal fill of one after removals: see C56."
  },
  {
   "property": "C206",
   "status": "proved",
   "theorems": [
    "cpu_exclusive",
    "cpu_second_test"
   ],
   "note": "The functions are private and not called in the repository.  cpu_busy is read outside the lock; sequential consistency is assumed."
  },
  {
   "property": "C207",
   "status": "partial",
   "theorems": [
    "cpu_no_wait_refuted",
    "cpu_no_wait_partial"
   ],
   "note": "Refuted: two threads see cpu_busy false, one gets the lock and keeps it while it computes, the other is blocked in pthread_mutex_lock until it is released (and then gets true; the second test never fails).  Proved: whoever is blocked waits for a thread that can go on."
  },
  {
   "property": "C208",
   "status": "partial",
   "theorems": [
    "face_equal_partial",
    "face_equal_refuted"
   ],
   "note": "Refuted: the same triangle from another vertex on compares different.  Proved: faces compare equal exactly if their lists of vertices are the same.  Not called in the repository."
  },
  {
   "property": "C209",
   "status": "partial",
   "theorems": [
    "redundant_reported_partial",
    "redundant_removed_refuted"
   ],
   "note": "Refuted: the function only prints, it removes nothing; it misses rotated repetitions, and takes different quadrilaterals with the same first three vertices for one.  Proved: the polyhedron stays as it is, and printed is every face whose first three vertices are those of an earlier one, with the first such.  The only call is a comment."
  },
  {
   "property": "C210",
   "status": "proved",
   "theorems": [
    "fixer_output_read"
   ],
   "note": "The reader's rounding to double is left out; a zero is taken to follow somewhere in memory, see C150."
  },
  {
   "property": "C211",
   "status": "partial",
   "theorems": [
    "tile_memory_partial",
    "tile_memory_single",
    "tile_memory_disabled",
    "tile_memory_refuted"
   ],
   "note": "Refuted: for an object with two voxels fill_voxel releases three arrays with delete.  Proved: every block is deleted exactly once and never used outside its life; delete and delete[] are right too if no object has several voxels, or the inner parts are disabled first.  One thread (C149 has several); memory of CGAL and of containers is left out."
  },
  {
   "property": "C212",
   "status": "partial",
   "theorems": [
    "fill_first_kind",
    "fill_kind_partial",
    "fill_kind_refuted"
   ],
   "note": "Refuted: fill_voxel looks only whether the level has data, not of which kind, so triangles asked for after segments leave the segments and the triangles are read past the arrays.  Proved: every level keeps the kind first asked for since the last reset, so the claim holds whenever one kind is asked for, as each join does.  Which voxel is nearest is VoxelModel's business (C41)."
  },
  {
   "property": "C213",
   "status": "partial",
   "theorems": [
    "join_memory_intersect",
    "join_memory_partial",
    "join_memory_leak",
    "join_delete_refuted",
    "join_memory_refuted"
   ],
   "note": "Refuted: mbb_nn and mbb_within never delete their octree, so every such join loses all nodes of the tree (join_memory_leak, for all inputs), and calculate_distance, its callers and SegDist_single release arrays with delete.  Proved: intersection joins are clean; in the others nothing is used or deleted outside its life, and what is left over is exactly the nodes of the tree.  Pairs are computed one after the other; device memory and containers are left out."
  },
  {
   "property": "C214",
   "status": "proved",
   "theorems": [
    "octree_memory"
   ],
   "note": "Whenever the building returns, see C161.  Containers of the nodes are left out."
  },
  {
   "property": "C215",
   "status": "partial",
   "theorems": [
    "compress_memory_partial",
    "compress_memory_leak",
    "compress_memory_refuted"
   ],
   "note": "Refuted: get_mesh never deletes the copy of the text, and generate_voxels takes voxels without a vertex out of the vector without deleting them.  Proved for all input: nothing is used or deleted outside its life, all forms of delete are right, and what is left over is exactly one block for each line and one for each such voxel.  Models of the range coder, CGAL and containers are left out."
  },
  {
   "property": "C216",
   "status": "partial",
   "theorems": [
    "zlib_statistics_partial",
    "zlib_overflow",
    "zlib_statistics_refuted"
   ],
   "note": "Refuted: compressedsize is handed to compress2 uninitialised, and then as the previous call left it, so bytes behind the buffer are overwritten when the vertices do not compress and it holds a large value, and a level with a longer result logs the length of an earlier one.  Proved: exactly what is logged, when nothing is written outside, and when the lengths are right.  zlib is its documented behaviour."
  },
  {
   "property": "C217",
   "status": "partial",
   "theorems": [
    "generator_memory_partial",
    "generator_strict_partial",
    "generator_memory_leak",
    "generator_delete_refuted",
    "generator_memory_refuted"
   ],
   "note": "Refuted: generate_unit deletes its two arrays with delete instead of delete[]; every compressed nucleus and vessel loses the copy of its text, every job its flags, generate_vessel its buffer; the voxels of the prototypes, vessel_taken and the second stream are never deleted.  Proved for all settings: nothing is used after it is deleted or deleted twice, what is left at the end is exactly these blocks, and only the threads delete in the wrong form.  Threads are taken one after the other."
  },
  {
   "property": "C218",
   "status": "partial",
   "theorems": [
    "partitioner_memory_partial",
    "sort_partition_memory",
    "partitioner_memory_refuted"
   ],
   "note": "Refuted: get_mesh never releases the copy of the text, persist_tile never deletes the polyhedron of a tile.  Proved for all lines and all trees: everything else, in particular every node of the sort partition and every box, is given back exactly once and in the right way, nothing is used after that, and what is left is exactly one block per non-empty line and one per tile.  Threads are taken one after the other."
  },
  {
   "property": "C219",
   "status": "proved",
   "theorems": [
    "fixer_memory",
    "fixer_memory_of_depart"
   ],
   "note": "The containers' own memory is left out; which boundary walks close is arbitrary.  fixer_memory_of_depart: the components and assignments that depart of FixerModel works with meet the hypotheses, and the pieces have the same numbers of points."
  },
  {
   "property": "C220",
   "status": "proved",
   "theorems": [
    "barycenters_same",
    "barycenter_order",
    "barycenter_inside",
    "barycenter_moves"
   ],
   "note": "Exact rationals; rounding of the sums is left out."
  },
  {
   "property": "C221",
   "status": "partial",
   "theorems": [
    "get_boxes_memory_partial",
    "get_boxes_memory_refuted"
   ],
   "note": "Refuted: the text, the mesh with its codes, all voxels and the polyhedron of every box written are never deleted.  Proved for every object and both readings of delete: nothing is used or deleted outside its life or in the wrong way, and exactly 4 blocks, one for each voxel made and one for each box written are left."
  },
  {
   "property": "C222",
   "status": "proved",
   "theorems": [
    "getline_lines",
    "file_sizes_sum",
    "processed_size",
    "percentage_defined",
    "percentage_count"
   ],
   "note": "Regular files whose st_size is their length; the type long is unbounded; files do not change while they are read."
  },
  {
   "property": "C223",
   "status": "partial",
   "theorems": [
    "mdistance_metric",
    "distance_metric_partial",
    "distance_metric_refuted",
    "distances_compare"
   ],
   "note": "Refuted for distance and get_distance: they give the square, so the triangle inequality fails.  Proved: mdistance is a metric; the other two are the same function and satisfy everything else, and the triangle inequality up to a factor of two; the comparison holds.  Exact rationals."
  },
  {
   "property": "C224",
   "status": "proved",
   "theorems": [
    "common_box_least",
    "common_box_unique"
   ],
   "note": "Exact rationals; meshes without vertices are left out."
  }
 ]
}