{"id": "C01", "title": "Range coder round trip", "statement": "Every sequence of coding steps (arbitrary frequency slices with power-of-two or general totals, raw bytes, raw shorts, adaptive-model symbols) that is encoded with the range coder and finished is decoded, step by step, to the same sequence.", "quantifier": "all step sequences of any length, all slice widths >= 1 and totals < 2^23, including arbitrarily long carry propagation", "why_tests_cant": "Carry chains (0xff runs) and 32-bit truncation depend on the whole history; only a vanishing fraction of step sequences can be sampled.", "anchors": ["src/PPMC/rangeCoder/rangecod.c: start_encoding, enc_normalize, encode_freq, encode_shift, done_encoding, start_decoding, dec_normalize, decode_culfreq, decode_culshift, decode_update, decode_byte, decode_short, done_decoding"]}
{"id": "C02", "title": "Coded segments are self-delimiting", "statement": "A finished coded segment can be embedded in a larger buffer: encoding leaves all bytes in front of the segment unchanged, decoding consumes exactly the bytes the encoder produced and its results do not depend on what follows, so consecutive segments can be decoded one after the other.", "quantifier": "all step sequences, all preceding buffer contents, all following bytes", "why_tests_cant": "An off-by-one in consumed bytes shows only for particular numbers of renormalisations and particular neighbours in the buffer.", "anchors": ["src/PPMC/rangeCoder/rangecod.c: done_encoding, done_decoding, start_decoding", "src/PPMC/mymesh.h: dataOffset", "src/PPMC/mymeshDecomp.cpp: beginUndecimationConquest, beginInsertedEdgeDecoding"]}
{"id": "C03", "title": "Adaptive model keeps a complete frequency partition", "statement": "After any history of updates the adaptive frequency model still gives every symbol at least one count, the slices are consecutive and non-overlapping, they add up to exactly the fixed total, and the internal fatal 'rescaling left' exit is never taken.", "quantifier": "all alphabet sizes and precisions accepted by the initialiser, all update histories of any length", "why_tests_cant": "Rescaling occurs at history-dependent times with integer rounding; the fatal branch needs a particular unreachable state.", "anchors": ["src/PPMC/rangeCoder/qsmodel.c: initqsmodel, resetqsmodel, dorescale, qsgetfreq, qsupdate"]}
{"id": "C04", "title": "Symbol lookup inverts the slice assignment", "statement": "For every reachable adaptive model and every cumulative count below the total, the looked-up symbol is the unique symbol whose slice contains that count, whatever the state of the lookup acceleration table.", "quantifier": "all reachable models, all counts in [0,total)", "why_tests_cant": "The acceleration table plus binary search interact with every possible frequency distribution.", "anchors": ["src/PPMC/rangeCoder/qsmodel.c: qsgetsym, dorescale (search table), qsgetfreq"]}
{"id": "C05", "title": "Adaptive symbol stream round trip", "statement": "Encoding any list of symbols with one adaptive model and the range coder and decoding with a freshly initialised model of the same parameters returns the same list, and both models end in the same state.", "quantifier": "all symbol lists, all model parameters within the coder's limits", "why_tests_cant": "Encoder and decoder models must stay in lock-step through every rescale on every history.", "anchors": ["src/PPMC/rangeCoder/qsmodel.c", "src/PPMC/rangeCoder/rangecod.c", "src/PPMC/mymeshComp.cpp: encodeInsertedEdges", "src/PPMC/mymeshDecomp.cpp: InsertedEdgeDecodingStep"]}
{"id": "C06", "title": "Removed-vertex records survive the codec", "statement": "For one decimation round, the split/no-split flags and the three residual coordinates of every removed vertex written to the stream are exactly those the decoder obtains, for positive and negative residuals alike.", "quantifier": "all per-face symbol lists and all residuals within the documented +-2^14 window", "why_tests_cant": "The alphabet is derived from min/max of the data and transmitted modulo 2^16; every combination cannot be enumerated.", "anchors": ["src/PPMC/mymeshComp.cpp: encodeRemovedVertices", "src/PPMC/mymeshDecomp.cpp: beginUndecimationConquest, undecimationStep, decodeGeometrySym"]}
{"id": "C07", "title": "Inserted-edge flags survive the codec", "statement": "For one decimation round, the list of inserted-edge flags written is exactly the list the decoder obtains.", "quantifier": "all flag lists", "why_tests_cant": "History-dependent adaptive coding.", "anchors": ["src/PPMC/mymeshComp.cpp: encodeInsertedEdges", "src/PPMC/mymeshDecomp.cpp: beginInsertedEdgeDecoding, InsertedEdgeDecodingStep"]}
{"id": "C08", "title": "Whole progressive stream round trip", "statement": "A complete compressed object (header, then for each round the vertex record and the edge record, coarsest round first) is decoded round by round to exactly the records produced during compression, and the cursor ends at the end of the object.", "quantifier": "all numbers of rounds, all records", "why_tests_cant": "Errors accumulate across segments; only particular segment lengths expose them.", "anchors": ["src/PPMC/mymeshIO.cpp: writeCompressedData, readCompressedData, writeBaseMesh, readBaseMesh", "src/PPMC/mymeshComp.cpp", "src/PPMC/mymeshDecomp.cpp"]}
{"id": "C09", "title": "Progressive prefix stability", "statement": "What a reader decodes for the first k rounds depends only on the bytes of the header and those rounds: later rounds, or following objects in the same buffer, never change a coarser level of detail.", "quantifier": "all streams, all k, all continuations", "why_tests_cant": "Requires reasoning about every possible continuation of the stream.", "anchors": ["src/PPMC/mymeshDecomp.cpp: startNextDecompresssionOp", "src/storage/tile.cpp: retrieve_mesh"]}
{"id": "C10", "title": "Bit field I/O round trip", "statement": "Any sequence of values written as bit fields is read back unchanged with the same widths, and writing touches no bit outside the field.", "quantifier": "all field sequences with widths the format uses, all starting bit offsets, all values fitting the width", "why_tests_cant": "Fields straddle byte borders in 8 x width combinations per field, compounded over the sequence.", "anchors": ["src/PPMC/mymeshIO.cpp: writeBits, readBits, writeBaseMesh, readBaseMesh"]}
{"id": "C11", "title": "Base mesh header round trip", "statement": "The coarse mesh and stream parameters written by the compressor (bounding box, quantisation step, rounds, coordinates, face indices) are read back identically, with vertices renumbered in the order the writer emitted them.", "quantifier": "all base meshes with fewer than 65536 vertices and faces, all face degrees the format supports", "why_tests_cant": "Variable bit widths depend on counts, all combinations matter.", "anchors": ["src/PPMC/mymeshIO.cpp: writeBaseMesh, readBaseMesh"]}
{"id": "C12", "title": "Base mesh of any size is readable", "statement": "Every base mesh the compressor accepts can be read back, whatever its number of vertices and faces and the degree of its faces.", "quantifier": "all base meshes", "why_tests_cant": "The failing sizes (>= 65536 vertices, faces of degree above 10) are outside what a test would build.", "anchors": ["src/PPMC/mymeshIO.cpp: writeBaseMesh", "src/PPMC/configuration.h: NB_BITS_FACE_DEGREE_BASE_MESH"]}
{"id": "C13", "title": "Bounded quantisation error", "statement": "Quantising a coordinate and converting it back moves it by at most one quantisation step (at most half a step unless it is the clamped maximum) and never outside the bounding cube.", "quantifier": "all boxes with positive extent, all coordinates in the box, all bit depths, exact arithmetic", "why_tests_cant": "Universally quantified real inequality.", "anchors": ["src/PPMC/mymesh.cpp: determineQuantStep, quantizeVertexPositions, getQuantizedPos, getPos"]}
{"id": "C14", "title": "Quantised positions are fixed points", "statement": "Converting a stored grid position to coordinates and re-quantising returns the same grid position, so decode-encode-decode never drifts.", "quantifier": "all grid positions, all boxes and positive steps, exact arithmetic", "why_tests_cant": "Universally quantified.", "anchors": ["src/PPMC/mymesh.cpp: getPos, getQuantizedPos"]}
{"id": "C15", "title": "Refining an object is monotone and path independent", "statement": "Advancing an object through any sequence of level requests ends at the same decoded level as advancing directly to the largest one; a request not above the current level changes nothing; level 100 decodes every round.", "quantifier": "all numbers of rounds, all request sequences", "why_tests_cant": "All request histories cannot be enumerated.", "anchors": ["src/spatial/himesh.cpp: advance_to", "src/PPMC/mymeshDecomp.cpp: startNextDecompresssionOp", "src/PPMC/mymesh.cpp: completeOperation, batchOperation"]}
{"id": "C16", "title": "Box distance is a tight lower bound", "statement": "The minimum distance reported for two boxes is never larger than the (squared) distance of any two points of the boxes, and it is attained by some pair of points.", "quantifier": "all well-formed boxes, all points", "why_tests_cant": "Universally quantified geometry.", "anchors": ["src/geometry/aab.h: aab::distance, range"]}
{"id": "C17", "title": "Box upper distance bounds the object distance", "statement": "The maximum distance reported for two boxes is at least the true minimum distance of two objects having these bounding boxes.", "quantifier": "all pairs of objects", "why_tests_cant": "Counterexamples need objects concentrated at opposite corners.", "anchors": ["src/geometry/aab.h: aab::distance", "src/index/octree.cpp: query_nn", "src/join/SpatialJoin.cpp: nearest_neighbor"]}
{"id": "C18", "title": "Accumulated box is the least bounding box", "statement": "A box grown by points or boxes in any order is exactly the smallest box containing all of them, independent of order and repetition.", "quantifier": "all finite sequences of points and boxes", "why_tests_cant": "All orders and lengths.", "anchors": ["src/geometry/aab.h: aab::aab, update, contains, volume"]}
{"id": "C19", "title": "Overlap test is exact for open boxes", "statement": "The box overlap test holds exactly when the two open boxes share a point; it is symmetric; an object box always overlaps a box containing it if it has positive thickness.", "quantifier": "all boxes", "why_tests_cant": "Universally quantified geometry.", "anchors": ["src/geometry/aab.h: aab::intersect, contains"]}
{"id": "C20", "title": "Octree intersection query is exact", "statement": "After any sequence of insertions, the overlap query returns exactly the ids of the inserted objects whose box overlaps the query box (with multiplicity ignored), whatever splits and undone splits have happened.", "quantifier": "all insertion sequences of objects with positive thickness inside the universe, all tile sizes, all query boxes", "why_tests_cant": "Tree shape depends on entire history, including reverted splits.", "anchors": ["src/index/octree.cpp: addObject, query_intersect, build_octree"]}
{"id": "C21", "title": "Octree distance query misses nothing", "statement": "After any insertion sequence, every object whose minimum box distance to the query box is within the limit is reported by the within-distance query, with a distance range enclosing the box distance.", "quantifier": "all insertion sequences, all query boxes, all limits", "why_tests_cant": "Pruning decisions depend on node boxes over every history.", "anchors": ["src/index/octree.cpp: addObject, query_within"]}
{"id": "C22", "title": "Octree nearest-neighbour query keeps the nearest", "statement": "After any insertion sequence, if the upper box distance really bounds the object distance, the candidate list of the nearest-neighbour query contains the true nearest object.", "quantifier": "all insertion sequences, all query boxes, all true distance functions bracketed by the box ranges", "why_tests_cant": "List pruning with skipped elements over all histories.", "anchors": ["src/index/octree.cpp: query_nn, update_distance_list"]}
{"id": "C23", "title": "Every inserted object is findable", "statement": "Every object inserted in the octree is reported by a query that overlaps it, including objects with zero thickness in some axis.", "quantifier": "all objects in the universe", "why_tests_cant": "The lost objects are those lying exactly in a split plane.", "anchors": ["src/index/octree.cpp: addObject", "src/geometry/aab.h: aab::intersect"]}
{"id": "C24", "title": "Octree leaves tile the universe", "statement": "The leaf boxes cover the universe box and no two different leaves overlap, after every insertion history.", "quantifier": "all insertion histories", "why_tests_cant": "Histories with reverted splits.", "anchors": ["src/index/octree.cpp: addObject, genTiles"]}
{"id": "C25", "title": "Leaf occupancy matches contents", "statement": "Every leaf of the octree that contains an object has a box overlapping it, an object is stored in each leaf it overlaps and only once there, and internal nodes hold no objects.", "quantifier": "all insertion histories", "why_tests_cant": "Invariant over histories.", "anchors": ["src/index/octree.cpp: addObject"]}
{"id": "C26", "title": "Distance-join filter loses no answer", "statement": "For the within-distance join, each pair of objects within the limit is either reported directly by the filter or kept as candidate with at least one voxel pair realising the distance.", "quantifier": "all tiles, all limits, all voxel decompositions whose boxes contain their data", "why_tests_cant": "All configurations of boxes.", "anchors": ["src/join/SpatialJoin.cpp: mbb_within", "src/join/SpatialJoin.h: candidate_info, voxel_pair"]}
{"id": "C27", "title": "Distance-join filter reports no false answer", "statement": "A pair reported directly by the filter of the within-distance join really is within the limit.", "quantifier": "all pairs of objects", "why_tests_cant": "Needs objects for which the centre distance underestimates.", "anchors": ["src/join/SpatialJoin.cpp: mbb_within", "src/geometry/aab.h: aab::distance"]}
{"id": "C28", "title": "Distance-join refinement attributes distances to the right pair", "statement": "In each refinement round every remaining candidate pair is judged by the distance computed for that pair.", "quantifier": "all candidate lists, all distances", "why_tests_cant": "The misattribution needs an entry with several candidates where an early one is decided.", "anchors": ["src/join/SpatialJoin.cpp: within"]}
{"id": "C29", "title": "Nearest-neighbour candidate pruning is safe", "statement": "The voxel-level candidate maintenance of the nearest-neighbour join never discards the candidate holding the true nearest object, for every insertion order, provided distance ranges bracket the true distances.", "quantifier": "all orders, all ranges", "why_tests_cant": "All permutations and ranges.", "anchors": ["src/join/SpatialJoin.cpp: update_candidate_list, update_voxel_pair_list, mbb_nn"]}
{"id": "C30", "title": "Nearest-neighbour refinement is safe", "statement": "Every refinement round of the nearest-neighbour join keeps the true nearest object of every query object, provided computed distances are correct.", "quantifier": "all candidate tables, all LOD schedules", "why_tests_cant": "All histories of rounds.", "anchors": ["src/join/SpatialJoin.cpp: nearest_neighbor"]}
{"id": "C31", "title": "Intersection join reports every intersecting object", "statement": "Every object of the first tile that intersects some object of the second is reported by the intersection join and no other, given a correct triangle test.", "quantifier": "all tiles, all LOD schedules", "why_tests_cant": "All candidate configurations.", "anchors": ["src/join/SpatialJoin.cpp: intersect, mbb_intersect, update_candidate_list_intersect"]}
{"id": "C32", "title": "Batch packing hands each pair its own data", "statement": "In the packed geometry buffer every voxel is stored once, the slices of different voxels do not overlap, and the (offset,size) quadruple of each voxel pair designates exactly the data of its two voxels.", "quantifier": "all candidate tables, all voxel sizes, shared voxels", "why_tests_cant": "Aliasing depends on the sharing pattern.", "anchors": ["src/join/SpatialJoin.cpp: calculate_distance, intersect"]}
{"id": "C33", "title": "CPU distance batch computes every pair exactly once", "statement": "For every number of pairs and worker threads the CPU distance batch computes each pair exactly once, in every schedule, with no two workers writing the same result.", "quantifier": "all pair counts, all thread counts >= 1, all schedules", "why_tests_cant": "Chunk boundaries for all (n,T).", "anchors": ["src/geometry/geometry_computer.cpp: get_distance_cpu, SegDist_unit"]}
{"id": "C34", "title": "CPU intersection batch computes every pair", "statement": "For every number of pairs and worker threads the CPU intersection batch computes the result of every pair.", "quantifier": "all pair counts, all thread counts", "why_tests_cant": "Only pair counts not divisible by the thread count expose the loss.", "anchors": ["src/geometry/geometry_computer.cpp: get_intersect_cpu, TriInt_unit"]}
{"id": "C35", "title": "Tile pairs are joined exactly once under every schedule", "statement": "With any number of worker threads and any interleaving each queued tile pair is joined by exactly one worker, and all workers stop once the queue is drained.", "quantifier": "all numbers of tile pairs and workers, all interleavings", "why_tests_cant": "Interleavings.", "anchors": ["src/join/SpatialJoin.cpp: join_unit, join"]}
{"id": "C36", "title": "Segment distance is attained", "statement": "The value returned for two segments of positive length is the squared distance between a point of the first and a point of the second segment, hence never smaller than the true distance.", "quantifier": "all non-degenerate segments, exact arithmetic", "why_tests_cant": "Universally quantified geometry.", "anchors": ["src/geometry/SegDist.cpp: SegDist"]}
{"id": "C37", "title": "Segment distance is minimal", "statement": "The value returned for two segments is the smallest squared distance between points of the two segments.", "quantifier": "all non-degenerate segments", "why_tests_cant": "The failing region is where the line-line closest parameter falls outside the first segment while the second lies inside.", "anchors": ["src/geometry/SegDist.cpp: SegDist"]}
{"id": "C38", "title": "Batch segment distance is the minimum over all pairs", "statement": "The distance of two segment sets is the smallest of the pairwise segment distances, and infinity only when there is no non-degenerate pair.", "quantifier": "all set sizes up to the limit of 10000 and all data", "why_tests_cant": "All set sizes.", "anchors": ["src/geometry/SegDist.cpp: SegDist_single"]}
{"id": "C39", "title": "Triangle test answers are sound", "statement": "When the non-coplanar triangle test answers 'intersecting' the triangles share a point; when it answers 'disjoint' they do not.", "quantifier": "all pairs of triangles with non-parallel planes, exact arithmetic", "why_tests_cant": "Real algebra over 18 parameters.", "anchors": ["src/geometry/TriInt.cpp: TriInt"]}
{"id": "C40", "title": "Triangle set test is the disjunction", "statement": "Two triangle sets are reported intersecting exactly when some pair is.", "quantifier": "all set sizes", "why_tests_cant": "All sizes.", "anchors": ["src/geometry/TriInt.cpp: TriInt_single"]}
{"id": "C41", "title": "Voxel filling partitions the primitives", "statement": "Each edge or triangle of an object is stored in exactly one voxel, one with a nearest core to its first point, nothing is lost or duplicated, and each voxel's buffer has exactly the announced size.", "quantifier": "all meshes, all sets of voxel cores", "why_tests_cant": "All sizes and ties.", "anchors": ["src/spatial/himesh.cpp: fill_voxel"]}
{"id": "C42", "title": "Voxel boxes contain their primitives", "statement": "Every primitive stored in a voxel lies inside the voxel's box, so box distances are valid lower bounds for primitive distances.", "quantifier": "all meshes, all sets of voxels", "why_tests_cant": "Needs primitives crossing a voxel border.", "anchors": ["src/spatial/himesh.cpp: generate_voxels, fill_voxel"]}
{"id": "C43", "title": "Tile metadata round trip", "statement": "Opening a tile from the saved metadata gives the same objects (ids, boxes, voxels, data positions) as parsing the raw data file.", "quantifier": "all data files", "why_tests_cant": "All object counts, voxel counts and sizes.", "anchors": ["src/storage/tile.cpp: Tile::Tile, parse_raw, persist, load"]}
{"id": "C44", "title": "Object data is located exactly", "statement": "For every object of a tile, the recorded position and size delimit exactly the bytes that were written for this object by the compressor.", "quantifier": "all data files", "why_tests_cant": "All sizes.", "anchors": ["src/storage/tile.cpp: parse_raw, load, retrieve_mesh", "src/test/compress.cpp: flush_mesh_buffer"]}
{"id": "C45", "title": "Tile box is the union of its objects", "statement": "After opening, the tile's box is the least box containing all boxes of its objects, each of which is the least box containing the object's voxels.", "quantifier": "all data files", "why_tests_cant": "All sequences.", "anchors": ["src/storage/tile.cpp: parse_raw, load", "src/storage/tile.h: HiMesh_Wrapper"]}
{"id": "C46", "title": "A crash while saving metadata is detected", "statement": "If the process stops at any point while metadata is being saved, a later opening does not silently show fewer or different objects.", "quantifier": "all crash points (byte prefixes of the metadata file)", "why_tests_cant": "Every prefix length matters.", "anchors": ["src/storage/tile.cpp: persist, load, Tile::Tile"]}
{"id": "C47", "title": "Opening with a capacity limits the objects", "statement": "A tile opened with capacity k shows the first min(k,n) objects, no matter whether metadata exists.", "quantifier": "all data files, all capacities, both kinds of opening", "why_tests_cant": "Needs the same file opened in two ways.", "anchors": ["src/storage/tile.cpp: Tile::Tile, load, parse_raw"]}
{"id": "C48", "title": "Parallel compression writes each object once", "statement": "With any number of workers and any interleaving, each input line is compressed by exactly one worker and each object's record appears exactly once, contiguous, in the output file.", "quantifier": "all inputs, all worker counts, all interleavings (sequentially consistent memory)", "why_tests_cant": "Interleavings.", "anchors": ["src/test/compress.cpp: main, mycompress, flush_mesh_buffer"]}
{"id": "C49", "title": "Sort partition keeps each object once and covers it", "statement": "Building the sort partition assigns every object to exactly one leaf, and the leaf's box and all its ancestors' boxes contain the object.", "quantifier": "all object lists, all numbers of tiles", "why_tests_cant": "All sizes and remainders.", "anchors": ["src/index/stree.cpp: build_sort_partition", "src/index/index.h: SPNode"]}
{"id": "C50", "title": "Partition tree save/load round trip", "statement": "A saved partition tree is loaded back with the same shape and boxes.", "quantifier": "all full three-level trees", "why_tests_cant": "All shapes.", "anchors": ["src/index/stree.cpp: persist, load"]}
{"id": "C51", "title": "Sampling processes every selected line", "statement": "When extracting voxels from input files in parallel every sampled line is processed exactly once, under every interleaving.", "quantifier": "all inputs, all sampling outcomes, all interleavings", "why_tests_cant": "The last incomplete batch and interleavings.", "anchors": ["src/partition/partition.cpp: get_voxels, get_mbbs_unit"]}
{"id": "C52", "title": "R-tree search is exact", "statement": "After any sequence of insertions the search reports exactly the inserted entries whose rectangle overlaps the query, each as often as it was inserted.", "quantifier": "all insertion sequences, all node capacities, all split heuristics outcomes, all queries", "why_tests_cant": "Tree shape depends on the whole history.", "anchors": ["src/index/RTree.h: Insert, InsertRect, InsertRectRec, AddBranch, SplitNode, Search, Overlap"]}
{"id": "C53", "title": "R-tree shape invariants", "statement": "After any sequence of insertions all leaves are at the same depth, every node has at most the maximal and every non-root node at least the minimal number of branches, and every branch rectangle is the exact cover of its child.", "quantifier": "all insertion sequences", "why_tests_cant": "Histories.", "anchors": ["src/index/RTree.h: InsertRect, InsertRectRec, SplitNode, ChoosePartition, LoadNodes, NodeCover"]}
{"id": "C54", "title": "R-tree removal removes exactly one entry", "statement": "Removing an entry that is present removes exactly one occurrence of that value and leaves all other entries searchable; removing an absent value changes nothing.", "quantifier": "all histories of insertions and removals", "why_tests_cant": "Under-full nodes are dissolved and re-inserted.", "anchors": ["src/index/RTree.h: Remove, RemoveRect, RemoveRectRec, ReInsert, DisconnectBranch"]}
{"id": "C55", "title": "R-tree save/load round trip", "statement": "Saving and loading an R-tree yields a tree with identical structure and answers.", "quantifier": "all trees", "why_tests_cant": "All shapes.", "anchors": ["src/index/RTree.h: Save, SaveRec, Load, LoadRec"]}
{"id": "C56", "title": "R-tree iterator enumerates everything once", "statement": "Iterating visits every stored entry exactly once.", "quantifier": "all trees up to the iterator's stack depth", "why_tests_cant": "All shapes.", "anchors": ["src/index/RTree.h: Iterator, GetFirst, FindNextData"]}
{"id": "C57", "title": "R-tree count equals number of entries", "statement": "Count equals the number of insertions minus removals.", "quantifier": "all histories", "why_tests_cant": "Histories.", "anchors": ["src/index/RTree.h: Count, CountRec, RemoveAll"]}
{"id": "C58", "title": "Tokenising inverts joining", "statement": "Joining non-empty fields free of delimiters and quotes with a delimiter and tokenising the result gives the fields back; quoting protects delimiters.", "quantifier": "all field lists", "why_tests_cant": "All strings.", "anchors": ["src/util/util.h: tokenize"]}
{"id": "C59", "title": "Integer rotation is reversible", "statement": "The integer coordinate rotation followed by its inverse returns the original integer vector.", "quantifier": "all integer vectors and all rotation frames", "why_tests_cant": "All vectors/frames; rounding ties.", "anchors": ["src/PPMC/frenetRotation.cpp: frenetRotation, invFrenetRotation"]}
{"id": "C60", "title": "Both devices compute the same segment distances", "statement": "For every pair of segments the CPU routine and the GPU kernel give the same answer, including the case of a segment without length.", "quantifier": "all pairs of segments, exact arithmetic", "why_tests_cant": "All real inputs; the two texts differ.", "anchors": ["src/geometry/SegDist.cpp: SegDist", "src/geometry/SegDist.cu: SegDist_kernel"]}
{"id": "C61", "title": "Distance zero means the segments meet", "statement": "The segment distance is zero exactly when the two segments have a common point.", "quantifier": "all pairs of segments of positive length, exact arithmetic", "why_tests_cant": "All real inputs.", "anchors": ["src/geometry/SegDist.cpp: SegDist"]}
{"id": "C62", "title": "GPU distance batch is the minimum under any schedule", "statement": "Whatever order the device threads run in, the value stored for a pair is the smallest segment distance of the pair.", "quantifier": "all batches, all interleavings of the threads of a launch", "why_tests_cant": "Interleavings of thousands of threads.", "anchors": ["src/geometry/SegDist.cu: SegDist_cuda, SegDist_batch_gpu"]}
{"id": "C63", "title": "Triangles in parallel planes are tested exactly", "statement": "For two triangles of positive area in parallel planes the test answers 'intersecting' exactly when they have a common point, including touching, nested and overlapping ones.", "quantifier": "all pairs of triangles with parallel planes, exact arithmetic", "why_tests_cant": "Many degenerate contacts over 18 parameters.", "anchors": ["src/geometry/TriInt.cpp: coplanar_tri_tri, TriInt"]}
{"id": "C64", "title": "Triangles without area are tested soundly", "statement": "When the test answers 'intersecting' for triangles that may have no area, they have a common point.", "quantifier": "all pairs of triangles, exact arithmetic", "why_tests_cant": "Degenerate inputs are rare.", "anchors": ["src/geometry/TriInt.cpp: TriInt, coplanar_tri_tri"]}
{"id": "C65", "title": "Reported intersections of triangle sets are real", "statement": "When two sets of triangles of positive area are reported intersecting, some triangle of one shares a point with one of the other.", "quantifier": "all sets of triangles, exact arithmetic", "why_tests_cant": "All sizes and positions.", "anchors": ["src/geometry/TriInt.cpp: TriInt_single"]}
{"id": "C66", "title": "GPU intersection batch computes every pair", "statement": "After the device batch the cell of each pair says whether some triangle of its first range meets one of its second, for any order of the threads.", "quantifier": "all batches, all thread orders", "why_tests_cant": "All sizes; thread orders.", "anchors": ["src/geometry/TriInt.cu: TriInt_cuda, TriInt_batch_gpu"]}
{"id": "C67", "title": "A stopped R-tree search has seen a prefix", "statement": "If the callback asks to stop, it has been called on a prefix of the full answer, ending with the first entry it refused; otherwise on the full answer.", "quantifier": "all insertion sequences, all queries, all callbacks (also depending on what they saw)", "why_tests_cant": "Unboundedly many trees and callbacks.", "anchors": ["src/index/RTree.h: Search"]}
{"id": "C68", "title": "R-tree insertion works in single precision", "statement": "Inserting never leaves an entry without a node, also when volumes are subtracted in single precision.", "quantifier": "all capacities the constructor accepts, all insertion sequences", "why_tests_cant": "Needs equal boxes of large volume at a split.", "anchors": ["src/index/RTree.h: PickSeeds, ChoosePartition, LoadNodes"]}
{"id": "C69", "title": "Skeleton sampling keeps the wanted number of cores", "statement": "Choosing n cores among the points of a skeleton stays inside the array and keeps exactly n of the points, in their order.", "quantifier": "all point lists, all n up to their number, all results of the random generator", "why_tests_cant": "Depends on the random numbers; the bad index needs n equal to the number of points.", "anchors": ["src/spatial/himesh.cpp: get_skeleton_points", "src/util/util.h: get_rand_number"]}
{"id": "C70", "title": "Objects added from memory become visible", "statement": "After adding an object's record to a tile the tile shows one object more.", "quantifier": "all records, all tiles", "why_tests_cant": "Every record matters; the effect is missing in general.", "anchors": ["src/storage/tile.cpp: add_raw"]}
{"id": "C71", "title": "Disabling inner parts covers the object with one voxel", "statement": "After disabling inner parts an object that had several voxels has exactly one, whose box is the object's box, contains all former voxels and its own core.", "quantifier": "all lists of voxels", "why_tests_cant": "All shapes.", "anchors": ["src/storage/tile.cpp: disable_innerpart"]}
{"id": "C72", "title": "Sort partition respects the number of tiles", "statement": "Building the sort partition of at least one object gives at least one and at most the requested number of tiles, no tile without objects and none with more than the three successive cuts allow.", "quantifier": "all object lists, all positive numbers of tiles", "why_tests_cant": "All sizes and remainders.", "anchors": ["src/index/stree.cpp: build_sort_partition, genTiles"]}
{"id": "C73", "title": "Sort partition cuts follow the coordinates", "statement": "Objects below an earlier child start no later, along the axis of that level, than objects below a later child.", "quantifier": "all object lists, all numbers of tiles, any order of equal keys", "why_tests_cant": "All sizes; ties.", "anchors": ["src/index/stree.cpp: build_sort_partition"]}
{"id": "C74", "title": "Partition node weight is the weight of its objects", "statement": "The weight of a partition node is the sum of the weights of the objects below it.", "quantifier": "all object lists, all numbers of tiles", "why_tests_cant": "Weights are never printed.", "anchors": ["src/index/index.h: SPNode::add_child, add_object", "src/geometry/aab.h: weighted_aab"]}
{"id": "C75", "title": "Built partitions survive saving", "statement": "Saving a partition that was built from objects and loading it again gives the same tiles.", "quantifier": "all object lists, all numbers of tiles", "why_tests_cant": "Depends on the remainders of three divisions.", "anchors": ["src/index/stree.cpp: build_sort_partition, persist, load"]}
{"id": "C76", "title": "Distance ranges compare and merge correctly", "statement": "Of two distance ranges exactly one of nearer, farther, overlapping is reported, and each means what it says for the distances inside; merging keeps the smallest ends.", "quantifier": "all ranges that are not inverted", "why_tests_cant": "All orders of four numbers, with ties; only single orders are exercised.", "anchors": ["src/geometry/aab.h: range"]}
{"id": "C77", "title": "Volume and diagonal of boxes", "statement": "Volume and squared diagonal are not negative and grow with the box; volume adds up when a box is cut; the squared diagonal is the largest squared distance of two points in the box.", "quantifier": "all boxes, exact arithmetic", "why_tests_cant": "Continuously many boxes.", "anchors": ["src/geometry/aab.h: volume, diagonal_length"]}
{"id": "C78", "title": "Octree finds objects whatever they weigh", "statement": "An object with positive extent overlapping the query box is reported whatever the weights of the objects inserted.", "quantifier": "all lists of objects with weights representable in 32 bits", "why_tests_cant": "Needs weights adding up to 2^32.", "anchors": ["src/index/octree.cpp: addObject", "src/geometry/aab.h: weighted_aab"]}
{"id": "C79", "title": "Exactly one trailing slash is removed", "statement": "Normalising a non-empty path removes one trailing slash if there is one and changes nothing else.", "quantifier": "all paths", "why_tests_cant": "All strings.", "anchors": ["src/util/util.h: remove_slash"]}
{"id": "C80", "title": "A coded segment ends with its length", "statement": "The last three bytes of a range coder segment are its length in bytes (modulo 2^24), and the length is at least 5 and at most 4 per item and 9 more.", "quantifier": "all messages of codable items", "why_tests_cant": "All messages; the count is only read by a person.", "anchors": ["src/PPMC/rangeCoder/rangecod.c: start_encoding, enc_normalize, done_encoding"]}
{"id": "C81", "title": "Adaptive frequencies change at bounded intervals", "statement": "After any history the answers stay as they are for a number of updates bounded by the larger of the rescale interval and n/16+2; then the widths become the collected counts.", "quantifier": "all histories, all numbers of symbols, precisions and rescale intervals", "why_tests_cant": "Unboundedly many histories.", "anchors": ["src/PPMC/rangeCoder/qsmodel.c: dorescale, qsupdate, resetqsmodel"]}
{"id": "C82", "title": "Decoding a round undoes the compression round", "statement": "For a closed mesh, the symbols produced by one compression round together with the coarser mesh it leaves let the decompression round rebuild exactly the finer mesh (same facets, edges and vertices); kept vertices keep their position, the restored ones get their quantised position, and no symbol beyond those of the round is read.", "quantifier": "all closed connected meshes, all convexity tests, starting half-edges, departure edges, positions and storage orders", "why_tests_cant": "Needs all meshes: the code relies on both sides walking the mesh in the same order.", "anchors": ["src/PPMC/mymeshComp.cpp: decimationStep, vertexCut, determineResiduals, RemovedVertexCodingStep, InsertedEdgeCodingStep", "src/PPMC/mymeshDecomp.cpp: undecimationStep, InsertedEdgeDecodingStep, insertRemovedVertices, removeInsertedEdges"]}
{"id": "C83", "title": "Every level is a closed surface", "statement": "After a compression round the mesh is again closed, has no double edge, each of its vertices has one fan of facets, no facet lies on both sides of an edge, it is in one piece, and it has no new vertex.", "quantifier": "all closed connected meshes and all convexity tests", "why_tests_cant": "All meshes; a wrong cut shows up only on meshes where the neighbourhood is unusual.", "anchors": ["src/PPMC/mymeshComp.cpp: vertexCut", "src/PPMC/mymeshCompTests.cpp: isRemovable, willViolateManifold"]}
{"id": "C84", "title": "A round that removes nothing changes nothing", "statement": "If a compression round removes no vertex, the mesh is unchanged and no symbols are produced.", "quantifier": "all closed connected meshes", "why_tests_cant": "All meshes.", "anchors": ["src/PPMC/mymeshComp.cpp: decimationStep"]}
{"id": "C85", "title": "Removed vertices are independent and the departure edge stays", "statement": "No two vertices removed in the same round are neighbours, and the departure edge from which both sides start their walk is still an edge afterwards.", "quantifier": "all closed connected meshes, starting half-edges and departure edges", "why_tests_cant": "All meshes and walks.", "anchors": ["src/PPMC/mymeshComp.cpp: decimationStep, vertexCut", "src/PPMC/mymeshUtils.cpp: pushHehInit"]}
{"id": "C86", "title": "Every compression round finishes", "statement": "One round of the compressor ends on every closed connected mesh, whatever the convexity test answers and wherever it starts; unless it reports that compression is over, it has removed at least one vertex.", "quantifier": "all closed connected meshes, starting half-edges, departure edges and convexity tests", "why_tests_cant": "Non-termination shows only on the mesh that causes it.", "anchors": ["src/PPMC/mymeshComp.cpp: decimationStep, vertexCut, determineResiduals, encodeInsertedEdges", "src/PPMC/mymesh.cpp: completeOperation"]}
{"id": "C87", "title": "Every compression finishes", "statement": "Compressing a mesh ends after at most as many rounds as vertices were removed; each level of detail is closed, connected, keeps the departure edge and has no vertex the next finer one lacks; the finest is the input.", "quantifier": "all closed connected meshes, gates and convexity tests", "why_tests_cant": "All meshes; the number of rounds is not bounded in advance.", "anchors": ["src/PPMC/mymesh.cpp: completeOperation, batchOperation", "src/PPMC/mymeshComp.cpp: startNextCompresssionOp, endDecimationConquest"]}
{"id": "C88", "title": "Number of symbols of a round", "statement": "A round emits exactly one connectivity symbol per facet of the coarser mesh, exactly one residual per removed vertex, and at most one edge symbol, 0 or 1, per edge of the coarser mesh.", "quantifier": "all rounds of all meshes", "why_tests_cant": "The decoder asks for symbols in this number; all meshes.", "anchors": ["src/PPMC/mymeshComp.cpp: RemovedVertexCodingStep, InsertedEdgeCodingStep"]}
{"id": "C89", "title": "Residuals fit the entropy coder", "statement": "If the vertices lie on a grid of at most 2^15 cells a side, every round can be coded: the residuals fit a short, their span fits the frequency table, whatever the barycentres.", "quantifier": "all meshes on such a grid with fewer than 2^28 - 1 half-edges, exact arithmetic", "why_tests_cant": "Overflow needs extreme residuals.", "anchors": ["src/PPMC/mymeshComp.cpp: determineGeometryMinMax, encodeRemovedVertices", "src/PPMC/mymeshUtils.cpp: barycenter", "src/PPMC/mymesh.cpp: getQuantizedPos, getPos"]}
{"id": "C90", "title": "Every level of detail is restored from the bytes", "statement": "Writing the base mesh and the rounds of a compression and decoding any number j of rounds from those bytes gives level j of the compression: same vertices up to their handles, same positions, same facets; after the last round the compressed mesh itself, with the read cursor exactly behind the object.", "quantifier": "all closed connected meshes, all j, all bytes that follow, all contents of uninitialised memory, all orders of storage", "why_tests_cant": "Unbounded meshes and all levels.", "anchors": ["src/PPMC/mymesh.cpp: MyMesh, completeOperation", "src/PPMC/mymeshIO.cpp: writeCompressedData, readBaseMesh, buildFromBuffer", "src/PPMC/mymeshDecomp.cpp: startNextDecompresssionOp, undecimationStep, InsertedEdgeDecodingStep, insertRemovedVertices, removeInsertedEdges", "src/PPMC/mymeshBaseBuilder.h"]}
{"id": "C91", "title": "Quantised positions are stable in floating point", "statement": "A vertex moved to the centre of its quantisation cell lies in that cell also when computed in floats, so that it is decoded where the compressor put it.", "quantifier": "all box corners, steps and cells", "why_tests_cant": "Depends on single bits of the coordinates.", "anchors": ["src/PPMC/mymesh.cpp: quantizeVertexPositions, getQuantizedPos, getPos, determineQuantStep"]}
{"id": "C92", "title": "Devices are used by one thread at a time", "statement": "However threads that call get_distance and get_intersect interleave, a device never computes for two of them; the device given has more memory than asked for; when no thread is inside, every device is unlocked and not busy.", "quantifier": "all numbers of threads and devices, all sequences of requests, all interleavings of their reads and writes", "why_tests_cant": "Interleavings are unbounded, and busy is read outside the lock.", "anchors": ["src/geometry/geometry_computer.cpp: request_gpu, release_gpu, get_distance_gpu, get_intersect_gpu"]}
{"id": "C93", "title": "Sharing the devices cannot deadlock", "statement": "If every request fits some device then, from every state that threads sharing the devices can get into, all of them can still finish their requests, and leave all devices free; a thread that has finished has computed exactly its requests, in their order.", "quantifier": "all reachable states of all interleavings", "why_tests_cant": "A deadlock needs a rare interleaving.", "anchors": ["src/geometry/geometry_computer.cpp: request_gpu, release_gpu"]}
{"id": "C94", "title": "Every batch gets a device", "statement": "A call of get_distance with a non-empty set of devices is served.", "quantifier": "all batch sizes and devices", "why_tests_cant": "Needs batches of gigabytes.", "anchors": ["src/geometry/geometry_computer.cpp: request_gpu, get_distance_gpu", "src/geometry/cuda_common.cu: get_gpus"]}
{"id": "C95", "title": "A batch stays inside the memory of its device", "statement": "The parts of a batch (segments or triangles, vectors, results, table) placed in the memory of the device do not overlap and end inside the memory allocated.", "quantifier": "all numbers of segments, triangles and pairs for which the device was granted", "why_tests_cant": "Needs batches of gigabytes.", "anchors": ["src/geometry/SegDist.cu: SegDist_batch_gpu", "src/geometry/TriInt.cu: TriInt_batch_gpu", "src/geometry/geometry_computer.cpp: get_distance_gpu, get_intersect_gpu"]}
{"id": "C96", "title": "The last level leaves only nearest objects", "statement": "After a nearest-neighbour join whose last level is the highest one, every candidate still listed for an object is at the distance of its nearest object: only ties are left.", "quantifier": "all tiles, schedules of levels and data, exact distances", "why_tests_cant": "All tiles; a candidate too many shows only if somebody checks its distance.", "anchors": ["src/join/SpatialJoin.cpp: nearest_neighbor, update_candidate_list, update_voxel_pair_list"]}
{"id": "C97", "title": "Distances with --aabb are distances of the objects", "statement": "With --aabb the distance computed for two objects is the smallest distance of a point on an edge of one to a point on an edge of the other, and it does not depend on their order.", "quantifier": "all meshes", "why_tests_cant": "Continuously many meshes.", "anchors": ["src/join/SpatialJoin.cpp: calculate_distance", "src/spatial/himesh.cpp: get_aabb_tree, get_segments"]}
{"id": "C98", "title": "Distances with --aabb reach their pairs", "statement": "In a nearest-neighbour join with --aabb, without several boxes per object, each pair is refined with the distance of its own two objects; never more distances are stored than there is room for.", "quantifier": "all tables of candidates, all distances", "why_tests_cant": "All tables; a shifted index shows only in wrong neighbours.", "anchors": ["src/join/SpatialJoin.cpp: calculate_distance, nearest_neighbor"]}
{"id": "C99", "title": "All joins may use --aabb", "statement": "Also the within join, and joins with several boxes per object, refine pairs with the distances of their own objects when run with --aabb.", "quantifier": "all tables of candidates, all distances", "why_tests_cant": "All tables; the check is an assertion that is compiled out.", "anchors": ["src/join/SpatialJoin.cpp: calculate_distance, within, nearest_neighbor"]}
{"id": "C100", "title": "The levels of a join are as asked for", "statement": "From --base_lod, --top_lod and --lod_gap the joiner makes the increasing list base, base + gap, ... ending with top, so that top counts as the highest level.", "quantifier": "all int values of the three options", "why_tests_cant": "2^96 combinations.", "anchors": ["src/test/joiner.cpp: main", "src/join/SpatialJoin.h: highest_lod"]}
{"id": "C101", "title": "Reports do not depend on the schedule", "statement": "The times and the distance summed up from the tile pairs are the same in whatever order the threads finish.", "quantifier": "all numbers of tile pairs and orders, exact arithmetic", "why_tests_cant": "All orders.", "anchors": ["src/join/SpatialJoin.h: merge", "src/join/SpatialJoin.cpp: within, nearest_neighbor, intersect"]}
{"id": "C102", "title": "The max min distance reported is the largest nearest distance", "statement": "A nearest-neighbour join reports as max min distance the largest distance of an object to its nearest one among the objects that had to be refined.", "quantifier": "all tiles and schedules of levels", "why_tests_cant": "All tiles; nobody knows the right number.", "anchors": ["src/join/SpatialJoin.cpp: nearest_neighbor", "src/join/SpatialJoin.h: merge, report"]}
{"id": "C103", "title": "Generated nuclei do not overlap", "statement": "Any two nuclei the data generator places in its first file, in one vessel or in two, are separated along an axis, and each lies in the box of its vessel.", "quantifier": "all prototypes, vessels, random numbers, exact arithmetic", "why_tests_cant": "All random sequences; an overlap of two among millions is not seen.", "anchors": ["src/test/data_generator.cpp: load_prototype, generate_nuclei", "src/util/util.h: get_rand_number"]}
{"id": "C104", "title": "The generator stays inside its arrays", "statement": "Drawing slots, choosing prototypes, marking the voxels of the vessel and writing records never leave the arrays allocated.", "quantifier": "all prototypes, options and random numbers", "why_tests_cant": "The bad draw has probability one in the number of slots.", "anchors": ["src/test/data_generator.cpp: load_prototype, generate_nuclei, generate_vessel", "src/util/util.h: get_rand_number"]}
{"id": "C105", "title": "The generator makes as many nuclei as asked for", "statement": "For each vessel the number of nuclei written is the number asked for and the number reported, and the search for free slots ends.", "quantifier": "all numbers and random sequences", "why_tests_cant": "All numbers and occupied slots.", "anchors": ["src/test/data_generator.cpp: generate_nuclei, generate_unit"]}
{"id": "C106", "title": "Nuclei stay clear of the vessel", "statement": "No nucleus is placed in a slot that a voxel of the vessel overlaps.", "quantifier": "all vessels and prototypes", "why_tests_cant": "Continuously many vessels.", "anchors": ["src/test/data_generator.cpp: load_prototype, generate_nuclei"]}
{"id": "C107", "title": "Every generator job is done exactly once", "statement": "Every vessel position is taken by exactly one thread and written once, and no thread takes from an empty queue.", "quantifier": "all schedules, numbers of threads and jobs", "why_tests_cant": "All schedules.", "anchors": ["src/test/data_generator.cpp: generate_unit, main"]}
{"id": "C108", "title": "The generator places the vessels asked for", "statement": "The vessels form a grid of distinct places as many as asked for, and the nuclei asked for are shared out among them.", "quantifier": "all numbers", "why_tests_cant": "All numbers.", "anchors": ["src/test/data_generator.cpp: main"]}
{"id": "C109", "title": "Generated files open as tiles", "statement": "A file the generator wrote, whatever the order in which the threads wrote, opens as a tile with exactly the generated objects, their bytes and voxels.", "quantifier": "all jobs, orders and objects", "why_tests_cant": "All contents and orders.", "anchors": ["src/test/data_generator.cpp: organize_data, generate_unit, generate_vessel", "src/storage/tile.cpp: parse_raw, retrieve_mesh"]}
{"id": "C110", "title": "The second nucleus is near the first", "statement": "Each nucleus of the second file is shifted from its partner in the first along each axis by between one hundredth and shifted_range hundredths of the slot.", "quantifier": "all ranges, slots and random numbers, exact arithmetic", "why_tests_cant": "All random numbers.", "anchors": ["src/test/data_generator.cpp: generate_nuclei", "src/util/util.h: get_rand_number, get_rand_sample"]}
{"id": "C111", "title": "The convexity test says what it should", "statement": "A closed polygon passes exactly when for each side its corners do not lie clearly (by the tolerance) on both sides of it, seen along the polygon's area vector; the answer does not depend on where the polygon is, on the corner it starts at or on the direction it is read in.", "quantifier": "all polygons, exact arithmetic", "why_tests_cant": "Continuously many polygons.", "anchors": ["src/PPMC/mymeshCompTests.cpp: isConvex", "src/PPMC/mymeshUtils.cpp: computeNormal"]}
{"id": "C112", "title": "Convexity does not depend on size", "statement": "A polygon and the same polygon enlarged or shrunk get the same answer.", "quantifier": "all polygons and positive factors, exact arithmetic", "why_tests_cant": "Continuously many polygons and sizes.", "anchors": ["src/PPMC/mymeshCompTests.cpp: isConvex"]}
{"id": "C113", "title": "A ring that passes the convexity test is a simple polygon", "statement": "The sides of a polygon that passes meet only in common corners.", "quantifier": "all polygons, exact arithmetic", "why_tests_cant": "The failing polygons are degenerate ones that random tests do not hit.", "anchors": ["src/PPMC/mymeshCompTests.cpp: isConvex"]}
{"id": "C114", "title": "Removed vertices had a convex neighbourhood", "statement": "A vertex removed in a compression round has three to eight neighbours in the finer mesh; in the order met around it they pass the convexity test, and they are the corners of a facet of the coarser mesh that passes it too.", "quantifier": "all meshes, positions, departure edges and gates", "why_tests_cant": "All meshes and orders of conquest.", "anchors": ["src/PPMC/mymeshCompTests.cpp: isRemovable, isConvex", "src/PPMC/mymeshComp.cpp: decimationStep, vertexCut"]}
{"id": "C115", "title": "Coarser levels meet only what the object meets", "statement": "A triangle that meets a facet of a coarser level meets a facet of the object, so that a test at a coarser level reports only intersections that exist.", "quantifier": "all meshes and triangles", "why_tests_cant": "Continuously many shapes and positions.", "anchors": ["src/PPMC/mymeshCompTests.cpp: isRemovable", "src/join/SpatialJoin.cpp: intersect"]}
{"id": "C116", "title": "Every level stays within the box of the object", "statement": "All points of all facets of all levels lie in any axis-parallel box that holds the object's vertices.", "quantifier": "all meshes, rounds and boxes", "why_tests_cant": "All meshes and numbers of rounds.", "anchors": ["src/PPMC/mymeshComp.cpp: startNextCompresssionOp, decimationStep, vertexCut"]}
{"id": "C117", "title": "A mesh is taken apart into its connected pieces", "statement": "The fixer's parts are the connected pieces of the mesh: two points are in one part exactly when a chain of faces joins them, every point and face is in exactly one part, renumbered in order, coordinates unchanged.", "quantifier": "all meshes with valid indices", "why_tests_cant": "All meshes; the number of ways faces share vertices is unbounded.", "anchors": ["src/test/fixer.cpp: depart"]}
{"id": "C118", "title": "Filling holes closes a mesh", "statement": "Where no face runs along a side twice and no two holes share a vertex, filling holes adds one face per hole, leaves the rest unchanged, and in the result each side is run along exactly once in each direction.", "quantifier": "all meshes with any number of holes of any size", "why_tests_cant": "All meshes and holes.", "anchors": ["src/test/fixer.cpp: fill_holes, add_face"]}
{"id": "C119", "title": "Holes that meet are filled as well", "statement": "Also a mesh two of whose holes share a vertex has no open side left after filling holes.", "quantifier": "all meshes no two faces of which run along the same side in the same direction", "why_tests_cant": "All meshes; needs holes that meet.", "anchors": ["src/test/fixer.cpp: fill_holes"]}
{"id": "C120", "title": "Merging points keeps the shape", "statement": "Merging points changes no corner's coordinates; afterwards corners refer to the same point exactly when their coordinates are equal, namely to the first point with these coordinates.", "quantifier": "all meshes", "why_tests_cant": "All meshes.", "anchors": ["src/test/fixer.cpp: merge_vertex"]}
{"id": "C121", "title": "A mesh closed by merging stays closed", "statement": "When merging equal points closes a mesh, filling holes afterwards changes nothing.", "quantifier": "all meshes", "why_tests_cant": "All meshes; a stale edge table shows only later.", "anchors": ["src/test/fixer.cpp: merge_vertex, fill_holes, main"]}
{"id": "C122", "title": "Every large piece is written, closed", "statement": "From a mesh whose points differ, whose sides are run along once and whose holes do not meet, the fixer writes each piece of more than 100 points, closed, to a file of its own.", "quantifier": "all such meshes", "why_tests_cant": "All meshes; needs two pieces with equal numbers of points and faces.", "anchors": ["src/test/fixer.cpp: main, depart, merge_vertex, fill_holes"]}
{"id": "C123", "title": "Meshes of separate faces are repaired", "statement": "A mesh whose faces do not share points is joined at equal points and written.", "quantifier": "all lists of triangles", "why_tests_cant": "All meshes of this kind.", "anchors": ["src/test/fixer.cpp: main, depart, merge_vertex"]}
{"id": "C124", "title": "The number of edges printed is that of a closed mesh", "statement": "For a closed mesh without loops the numbers printed are those of its points, faces and edges, and V + F - E.", "quantifier": "all closed meshes", "why_tests_cant": "All meshes.", "anchors": ["src/test/fixer.cpp: evaluate"]}
{"id": "C125", "title": "Fixed meshes can be read back", "statement": "A mesh written by the fixer is read back by it with the same points and faces.", "quantifier": "all meshes, whole coordinates", "why_tests_cant": "All meshes; needs faces of more than three vertices or long coordinates.", "anchors": ["src/test/fixer.cpp: dumpto, load"]}
{"id": "C126", "title": "Intersection joins report only real intersections", "statement": "Every object that an intersection join reports has, at one of the levels joined, a facet that has a point in common with a facet of another object of the second tile, whether the join runs on a device or on any number of threads.", "quantifier": "all tiles, objects of any number of voxels, levels, thread counts, orders of threads, earlier memory contents; facets of positive area, less than 2^32 floats in memory", "why_tests_cant": "Unboundedly many objects, memory layouts and interleavings; whole pipeline from filled voxels to the answer.", "anchors": ["src/join/SpatialJoin.cpp: intersect", "src/geometry/geometry_computer.cpp: get_intersect", "src/geometry/TriInt.cu: TriInt_batch_gpu"]}
{"id": "C127", "title": "Intersection joins on a device miss nothing the test finds", "statement": "On a device or on one thread, an intersection join reports exactly the objects having a voxel that overlaps one of another object with triangles in them that pass the triangle test; in particular crossing facets in general position inside the boxes of single-voxel objects are reported.", "quantifier": "all tiles, objects, levels, orders of threads, earlier memory contents", "why_tests_cant": "Unboundedly many objects, memory layouts and interleavings.", "anchors": ["src/join/SpatialJoin.cpp: intersect", "src/geometry/TriInt.cu: TriInt_batch_gpu", "src/geometry/geometry_computer.cpp: get_intersect_cpu"]}
{"id": "C128", "title": "The answer of an intersection join does not depend on the number of threads", "statement": "An intersection join reports the same objects on a device and on every number of threads.", "quantifier": "all tiles, objects, levels, thread counts, orders of threads", "why_tests_cant": "Depends on the number of voxel pairs in relation to that of threads at every level.", "anchors": ["src/join/SpatialJoin.cpp: intersect", "src/geometry/geometry_computer.cpp: get_intersect_cpu"]}
{"id": "C129", "title": "Distances computed on the processor belong to their own two objects", "statement": "For every pair of voxels with edges, however many threads work and in whatever order, the distance stored is the squared distance of a point on an edge of the one object and a point on an edge of the other, hence never below the distance of the two surfaces; this covers the tables of candidates of both distance joins.", "quantifier": "all tiles, objects, edges, tables of candidates, thread counts, orders of threads", "why_tests_cant": "The layout of the packed buffer depends on all voxels, the results on the interleaving.", "anchors": ["src/join/SpatialJoin.cpp: calculate_distance, mbb_within, mbb_nn", "src/geometry/geometry_computer.cpp: get_distance_cpu, SegDist_unit"]}
{"id": "C130", "title": "Distances computed are distances of the surfaces", "statement": "The distance stored for two objects is the smallest squared distance of a point on the surface of the one and a point on the surface of the other.", "quantifier": "all objects", "why_tests_cant": "Only edges are compared; objects nearest inside of a facet are a continuum.", "anchors": ["src/join/SpatialJoin.cpp: calculate_distance", "src/geometry/SegDist.cpp: SegDist_single"]}
{"id": "C131", "title": "A within join reports exactly the objects below the limit", "statement": "With at most one candidate per object, every object reported has a point whose squared distance from another object is below the limit, and every object with such a point on its surface is reported.", "quantifier": "all tiles, objects, levels, limits, thread counts", "why_tests_cant": "All configurations; the loss needs objects nearest inside of a facet.", "anchors": ["src/join/SpatialJoin.cpp: within, mbb_within, calculate_distance"]}
{"id": "C132", "title": "max_dist is a distance", "statement": "The limit given with max_dist bounds the distance of the objects reported by the within join.", "quantifier": "all limits, objects", "why_tests_cant": "The two readings agree for limits 0 and 1 and give plausible results elsewhere.", "anchors": ["src/join/SpatialJoin.cpp: within, mbb_within", "src/test/joiner.cpp: main"]}
{"id": "C133", "title": "Numbers are written as well as six digits allow", "statement": "A number written to a text output (WKT, OFF) and read back is a number with at most six significant digits (ten in polyhedron_to_wkt), and no such number is nearer to the original; numbers that have so few digits come back unchanged.", "quantifier": "all finite coordinates, all precisions", "why_tests_cant": "Every float has its own text; a test sees a few.", "anchors": ["src/spatial/himesh.cpp: to_wkt", "src/spatial/spatial_common.cpp: polyhedron_to_wkt, write_polyhedron", "src/PPMC/mymeshIO.cpp: writeMeshOff"]}
{"id": "C134", "title": "The output of towkt describes the objects of the tile", "statement": "Read as lines number|WKT, the output of towkt gives the numbers 0,1,2,... and for each object one closed ring per face: the points of the face in order, each coordinate the best one with six digits, then the first point again.", "quantifier": "all tiles, all objects, faces of any number of vertices", "why_tests_cant": "Separators and closing points must be right for every number of objects, faces and vertices.", "anchors": ["src/test/towkt.cpp: main", "src/spatial/himesh.cpp: to_wkt", "src/spatial/spatial_common.cpp: polyhedron_to_wkt"]}
{"id": "C135", "title": "Different points stay different in text output", "statement": "Points that differ are written differently.", "quantifier": "all coordinates", "why_tests_cant": "The loss needs objects that are small compared with their distance from the origin.", "anchors": ["src/spatial/himesh.cpp: to_wkt", "src/PPMC/mymeshIO.cpp: writeMeshOff"]}
{"id": "C136", "title": "make_cube makes the surface of a box", "statement": "The surface made from a box has the eight corners of the box as vertices and one face of four vertices on each of its six sides, is closed, and its faces are seen counterclockwise from outside.", "quantifier": "all boxes", "why_tests_cant": "Coordinates are arbitrary; the half-edge operations are easily mixed up.", "anchors": ["src/spatial/spatial_common.cpp: make_cube"]}
{"id": "C137", "title": "Adjusting scales the shape", "statement": "adjust divides all differences of coordinates by the factor, after rounding the coordinates to six digits; it succeeds when there are vertices, the factor is not zero and the sum of the coordinates fits an int.", "quantifier": "all objects, shifts, factors", "why_tests_cant": "All shapes and factors; division by zero and overflow at the borders.", "anchors": ["src/test/adjust_polyhedron.cpp: adjust_polyhedron"]}
{"id": "C138", "title": "The shift of adjust is the distance moved", "statement": "adjust with a shift moves every vertex by that shift, compared with adjust without shift.", "quantifier": "all objects, shifts, factors", "why_tests_cant": "Right for the factor 1 that is tried first.", "anchors": ["src/test/adjust_polyhedron.cpp: adjust_polyhedron"]}
{"id": "C139", "title": "A shrunk object stays within its box", "statement": "adjust with shift 0 and a factor above 1 leaves every vertex inside the box of the original object.", "quantifier": "all objects, factors", "why_tests_cant": "Needs objects with unevenly spread vertices.", "anchors": ["src/test/adjust_polyhedron.cpp: adjust_polyhedron"]}
{"id": "C140", "title": "The nearest-neighbour join answers with the nearest object", "statement": "The object answered for an object of the first tile is one whose surface is nearest to it; in particular an object that crosses it is preferred to one that does not touch it.", "quantifier": "all tiles, level schedules, threads, distances at all levels", "why_tests_cant": "Filters, levels, voxels and threads act together; the wrong answer is a plausible object.", "anchors": ["src/join/SpatialJoin.cpp: nearest_neighbor, mbb_nn, calculate_distance, update_voxel_pair_list", "src/geometry/SegDist.cpp: SegDist_single"]}
{"id": "C141", "title": "An object around another one does not hide its nearest object", "statement": "The nearest-neighbour join answers with the nearest object also when the box of another object, whose surface is farther away, contains the object in question.", "quantifier": "all tiles of objects whose voxels lie in their boxes and contain their edges", "why_tests_cant": "Random objects that do not overlap never show it.", "anchors": ["src/join/SpatialJoin.cpp: mbb_nn, nearest_neighbor", "src/spatial/aab.h: distance"]}
{"id": "C142", "title": "Coarse levels do not remove the nearest object", "statement": "The nearest-neighbour join over several levels answers with the object that is nearest at the full level.", "quantifier": "all level schedules, all shapes of the coarse levels", "why_tests_cant": "Depends on how far the coarse shape lies outside of the full one.", "anchors": ["src/join/SpatialJoin.cpp: nearest_neighbor, update_candidate_list_nn"]}
{"id": "C143", "title": "Objects compressed in parallel come back at every level", "statement": "The file written by the compressor for any number of workers opens as a tile with one object per line, with its voxels; asked for any levels up to 100 in any sequence, an object decodes to the level that the compressor made at that share of its rounds, for level 100 to the quantised mesh itself, and no bytes are left over.", "quantifier": "all objects the compressor can handle, numbers of workers, interleavings, sequences of levels, memory contents of both programs", "why_tests_cant": "Spans the threads of one program, the file format and the decoder of another one.", "anchors": ["src/test/compress.cpp: compress", "src/PPMC/mymesh.cpp: MyMesh", "src/spatial/himesh.cpp: advance_to, HiMesh", "src/storage/tile.cpp: retrieve_mesh, decode_to"]}
{"id": "C144", "title": "The voxels of a decoded object hold the edges of its level", "statement": "After filling the voxels of a decoded object with segments they hold every edge of the level once, in one of the two directions, with the positions of the level, and nothing else.", "quantifier": "all levels, names of vertices, orders of CGAL's iterators, numbers of voxels", "why_tests_cant": "Depends on the renaming by the decoder and on the order of the iterators.", "anchors": ["src/spatial/himesh.cpp: fill_segments, fill_voxel", "src/storage/tile.cpp: HiMesh_Wrapper::fill_voxels"]}
{"id": "C145", "title": "The voxels of a decoded object hold the surface of its level", "statement": "After filling the voxels of a decoded object with triangles, the triangles stored lie on the surface of the level and cover all of it.", "quantifier": "all objects made of triangles, all levels", "why_tests_cant": "Facets with more corners arise only by removing vertices, and are planar only for some objects.", "anchors": ["src/spatial/himesh.cpp: fill_triangles", "src/PPMC/mymeshComp.cpp: startNextCompresssionOp"]}
{"id": "C146", "title": "Joins of compressed objects report points of the levels the compressor had", "statement": "For objects that went through the compressor, the file, the decoder and the voxels: what an intersection join reports has, at one of the levels of the join, a point in common with the surface of another object at that level; the distances computed are distances between points of the two surfaces at that level.", "quantifier": "all compressed objects whose facets have no three corners in line and whose edges are not points, all levels, devices and threads", "why_tests_cant": "The whole chain is only ever run on a few inputs, and wrong reports look like right ones.", "anchors": ["src/test/compress.cpp: compress", "src/storage/tile.cpp: decode_to", "src/spatial/himesh.cpp: fill_voxel", "src/join/SpatialJoin.cpp: intersect, calculate_distance", "src/geometry/TriInt.cpp: TriInt_single", "src/geometry/SegDist.cpp: SegDist_single"]}
{"id": "C147", "title": "A tile finds its metadata wherever it is stored", "statement": "new Tile(path) on an existing data file opens it wherever it lies and however it is called: the metadata goes into a file beside it, no other file is touched, the objects are those of the data file, and opening the path again gives the same objects.", "quantifier": "all paths, all contents of the disk, all data files", "why_tests_cant": "Tests open one short path ending in .dt in the working directory; folders with .dt in their names, other file names and long paths do not occur in them.", "anchors": ["src/storage/tile.cpp:24-47", "src/util/util.h:61-91"]}
{"id": "C148", "title": "A tile shows what its data file holds", "statement": "After new Tile(path) the k-th object is the k-th record of the data file as it is now, also when the data file has been written anew since the tile was opened the last time.", "quantifier": "all sequences of records before and after, all objects", "why_tests_cant": "A test writes a fresh data file; the metadata left over from an earlier run only shows when the same path is used twice.", "anchors": ["src/storage/tile.cpp:36-43", "src/test/compress.cpp:43-63"]}
{"id": "C149", "title": "Threads may fetch objects of one tile at the same time", "statement": "When several threads call decode_to or get_mesh on one tile, every mesh is built from the data of its own object.", "quantifier": "all tiles, all numbers of threads, all lists of objects to fetch, all interleavings of the steps", "why_tests_cant": "The wrong data appear only when a second thread moves the file position between one thread's fseek and fread.", "anchors": ["src/storage/tile.cpp:164-188", "src/storage/tile.h:75-95"]}
{"id": "C150", "title": "A mesh is read from its line and nothing else", "statement": "get_mesh on a line of text parses exactly that line, with every bar replaced by a line end when asked for, and looks at no memory outside of it.", "quantifier": "all lines, all contents of the memory behind them, with and without bars", "why_tests_cant": "Memory behind a fresh array is often zero, so tests see the right mesh; the read past the end shows only when it is not.", "anchors": ["src/spatial/spatial_common.cpp:99-131", "src/PPMC/mymesh.cpp:42-53"]}
{"id": "C151", "title": "list_files lists every regular file once", "statement": "list_files(path) puts the path of every regular file in or below the path into the vector, each once, and nothing else.", "quantifier": "all trees of files and folders, all names", "why_tests_cant": "Tests list one folder of files; nested folders, odd names and links that lead nowhere are not in it.", "anchors": ["src/util/util.h:107-141"]}
{"id": "C152", "title": "The decompressor writes every level", "statement": "decompress without an argument writes for each of the levels 0, 10, ..., 100 the mesh of that level; with an argument it writes that one level; then it ends.", "quantifier": "all objects the compressor can handle, all arguments up to 10, all machines", "why_tests_cant": "A test runs it without an argument and looks whether files appear; a pointer that was never set may well point to something.", "anchors": ["src/test/decompress.cpp:18-60", "src/spatial/spatial_common.cpp:149-155"]}
{"id": "C153", "title": "The partitioner makes tiles for the folder it is given", "statement": "partitioner writes tiles that hold every object of the folders on its command line; run again for the same folders it writes the same tiles.", "quantifier": "all sets of objects, all numbers of tiles, all contents of the working directory", "why_tests_cant": "A test starts in a clean directory; the file left over from an earlier run on another folder only matters later.", "anchors": ["src/test/partitioner.cpp:37-66", "src/index/stree.cpp:29-139"]}
{"id": "C154", "title": "Launches of the distance kernel fit the device", "statement": "Every launch of SegDist_cuda has at least one and at most 1024 threads per block, and each combination of a segment of the first and one of the second voxel belongs to exactly one thread of exactly one launch.", "quantifier": "all sizes of all pairs of a batch", "why_tests_cant": "Tests use small voxels, which need one launch; a device only logs a launch that is too wide, and its results stay whatever the memory held.", "anchors": ["src/geometry/SegDist.cu:209-220"]}
{"id": "C155", "title": "Opening a record ends for every header", "statement": "Constructing a decoder for a record (at level 0) returns, whatever number of rounds and whatever level that is not convex the header holds.", "quantifier": "all headers, all meshes", "why_tests_cant": "The compressor of this repository only writes headers that name no such level, so no test meets another.", "anchors": ["src/PPMC/mymesh.cpp:90-97", "src/PPMC/mymeshIO.cpp:181", "src/PPMC/mymeshIO.cpp:276"]}
{"id": "C156", "title": "A batch of distances on the device treats each pair by itself", "statement": "SegDist_batch_gpu stores for every pair a value that depends only on the segments of that pair: one of their distances, and the smallest one if the second side is a single segment, whatever the other pairs are, in whatever order all threads run and whatever the memory held before.", "quantifier": "all batches, all interleavings of all threads of all blocks, all orders in which the vectors are made, all earlier contents of the memory", "why_tests_cant": "Each run shows one interleaving of thousands of threads, on memory that holds the values of the run before.", "anchors": ["src/geometry/SegDist.cu:116-141", "src/geometry/SegDist.cu:159-227"]}
{"id": "C157", "title": "Quantised coordinates fit their bits in single precision", "statement": "A vertex inside the bounding box is quantised, with the float subtraction, division and truncation the code uses, to a number from 0 to 2^bits - 1 on every axis; in particular the number fits the field that writes it and the conversion from float to int is defined.", "quantifier": "all bit counts 1..16, all finite floats lo <= p <= hi on an axis, all ranges at least the float difference hi - lo (the greatest of three) between 2^-100 and 2^100", "why_tests_cant": "Rounding of the subtraction and of the division depends on all bits of the coordinates; the border cases (the greatest coordinate, whose quotient is 2^bits, and its neighbours) are a vanishing part of the input space.", "anchors": ["src/PPMC/mymesh.cpp:203-251"]}
{"id": "C158", "title": "A full R-tree node is divided by the quadratic rule", "statement": "When a branch is inserted into a full node, the two branches whose joint rectangle wastes most volume start the two groups; each further branch is the one for which the two enlargements differ most and joins the group it enlarges less (ties: smaller volume, then fewer members), until one group is so large that all remaining ones must go to the other; both nodes hold exactly their group's branches.", "quantifier": "all capacities with 2m <= M+1, all dimensions, all lists of M branches and new branch, any volume function monotone under combination", "why_tests_cant": "Which pair wastes most is a maximum over all pairs and each later choice depends on all earlier ones; tests compare only query results, which any division into two groups satisfies.", "anchors": ["src/index/RTree.h:1142-1445"]}
{"id": "C159", "title": "Insertion goes down the branch that grows least", "statement": "PickBranch returns the first branch among those of least volume among those whose volume increases least by the new rectangle.", "quantifier": "all non-empty lists of branches, all rectangles, any volume function, exact differences", "why_tests_cant": "Query results do not depend on the branch chosen, so tests of the results see no difference.", "anchors": ["src/index/RTree.h:1082-1116"]}
{"id": "C160", "title": "When an octree leaf is divided", "statement": "A leaf that receives an object becomes an inner node with eight children covering the octants exactly if it was not empty, its weight with the new object exceeds the limit, it may still be divided, and the children together receive less than twice the weight less one; otherwise it keeps all objects in order and is marked so that a failed division is not tried again.", "quantifier": "all limits, boxes, lists of objects of positive weight (total below 2^28), all recursion depths that return", "why_tests_cant": "The test uses the weights of all eight children after division; where it goes wrong only shape and cost of the tree change, not the results tests look at.", "anchors": ["src/index/octree.cpp:31-102"]}
{"id": "C161", "title": "Building an octree ends", "statement": "build_octree returns a tree for every list of objects.", "quantifier": "all limits and all lists of objects with boxes", "why_tests_cant": "The recursion ends or not depending on how many boxes meet in a point; test data with well separated nuclei never has as many as the limit.", "anchors": ["src/index/octree.cpp:31-102", "src/index/octree.cpp:206-218", "src/join/SpatialJoin.cpp:127", "src/storage/tile.cpp:189-195"]}
{"id": "C162", "title": "Filling holes adds faces only along open sides", "statement": "fill_holes returns for every mesh, keeps all points and faces, and every side of every added face is the reverse of a side that one face has and no face has reversed; no vertex is used twice by the added faces.", "quantifier": "all meshes (also non-manifold ones, with several holes meeting in a vertex) whose edge table was built by adding faces", "why_tests_cant": "Meshes with fins or touching holes are arbitrary graphs; tests have simple holes only.", "anchors": ["src/test/fixer.cpp:329-395"]}
{"id": "C163", "title": "The edge table of the fixer is ordered without duplicates", "statement": "After adding any faces, the edges are listed in lexicographic order, each once.", "quantifier": "all lists of faces in any order, with repeated sides", "why_tests_cant": "The order of later passes depends on it; single meshes in tests exercise few of the insert positions.", "anchors": ["src/test/fixer.cpp:277-289"]}
{"id": "C164", "title": "Rotating by the computed angles takes the frame to the axes", "statement": "For an orthonormal frame with normal n and tangents t1, t2, the product of the three rotations by the angles the code computes takes the normal to the z axis, t2 to the y axis and t1 to the x axis or its opposite.", "quantifier": "all orthonormal frames (exact arithmetic, any functions meeting the equations of acos, sin and cos)", "why_tests_cant": "The angles go through acos and case distinctions on signs; a wrong sign shows only for normals in some octants, and the coder inverts its own rotation, so round trips do not show it.", "anchors": ["src/PPMC/frenetRotation.cpp:46-236"]}
{"id": "C165", "title": "A rotated residual is within six of the exact rotation", "statement": "Each coordinate returned by frenetRotation differs by at most 6 from that of the exact rotation of the residual.", "quantifier": "all orthonormal frames, all integer residuals (exact trigonometry)", "why_tests_cant": "The three shears round seven times; the greatest total error arises for special angles and residuals only.", "anchors": ["src/PPMC/frenetRotation.cpp:46-236"]}
{"id": "C166", "title": "The shared queue of sampling is used under the lock only", "statement": "While one thread changes the queue of lines, no other thread reads or changes it.", "quantifier": "all numbers of workers, all interleavings", "why_tests_cant": "Races show only for unlucky interleavings and then as rare crashes.", "anchors": ["src/partition/partition.cpp:31-76", "src/partition/partition.cpp:102-140"]}
{"id": "C167", "title": "The number of voxels of an object", "statement": "An object of n vertices gets at most n / voxel_size voxels, and exactly one if n is less than voxel_size.", "quantifier": "all meshes, skeletons, random numbers and positive voxel sizes for which the voxels are generated", "why_tests_cant": "Depends on random samples of the skeleton and on which sampled points attract no vertex.", "anchors": ["src/spatial/himesh.cpp:93-156", "src/spatial/himesh.cpp:163-224"]}
{"id": "C168", "title": "Every tile is deleted once and not used afterwards", "statement": "When pairs of tiles that share no tile with other pairs, as the joiner makes them, are joined by any number of threads, no tile is used after it is deleted or deleted twice, and when all threads have ended every tile has been deleted, a pair of a tile with itself deleting it once.", "quantifier": "all numbers of pairs and threads, all interleavings", "why_tests_cant": "Use after deletion depends on how the threads interleave and usually goes unnoticed.", "anchors": ["src/join/SpatialJoin.cpp:816-862", "src/test/joiner.cpp:100-113"]}
{"id": "C169", "title": "A join returns for every number of threads", "statement": "join() comes back once all pairs of tiles are joined, for every number of threads the command line accepts.", "quantifier": "all numbers of pairs and threads, all interleavings", "why_tests_cant": "That no schedule gets stuck cannot be seen from the schedules tried, and the failing number of threads is one nobody tests.", "anchors": ["src/join/SpatialJoin.cpp:844-862", "src/test/joiner.cpp:45"]}
{"id": "C170", "title": "The queue of tile pairs is used under the lock only", "statement": "While one thread changes the queue of tile pairs, no other thread reads or changes it.", "quantifier": "all numbers of pairs and threads, all interleavings", "why_tests_cant": "Races show only for unlucky interleavings and then as rare crashes.", "anchors": ["src/join/SpatialJoin.cpp:816-862"]}
{"id": "C171", "title": "A compressed object fits the buffer made for it", "statement": "The compressor never writes beyond the buffer it allocates for the compressed object, which has as many bytes as the line the object is read from.", "quantifier": "all lines describing a closed mesh in one piece", "why_tests_cant": "Most objects shrink; a small one that does not writes a byte or two past its buffer, which allocators usually hide.", "anchors": ["src/spatial/spatial_common.cpp:100-118", "src/PPMC/mymesh.cpp:45", "src/PPMC/mymeshIO.cpp:30-46", "src/PPMC/rangeCoder/rangecod.c:98"]}
{"id": "C172", "title": "A vertex is refused for removal only for one of the stated reasons", "statement": "On a closed manifold mesh isRemovable answers true for a vertex exactly when the vertex is not one of the two departure vertices, is not conquered, has between 3 and 8 neighbours, passes the convexity test, and no two neighbours that are consecutive in a facet with more than three sides at that vertex are already joined by an edge. The answer does not depend on where the circulator starts, and the question is always answered.", "quantifier": "all closed manifold meshes, vertices, conquered flags, convexity tests and starting half-edges", "why_tests_cant": "Connectivity around a vertex has unboundedly many shapes; a test that is too strict only shows as slightly larger files.", "anchors": ["src/PPMC/mymeshCompTests.cpp:27-59", "src/PPMC/mymeshCompTests.cpp:190-213"]}
{"id": "C173", "title": "TriDist answers the smallest distance of two triangles", "statement": "For two triangles that have an area TriDist answers the square root of the smallest squared distance of a point of the one from a point of the other: no two points are closer, and some two points are that close; 0 is answered exactly if the triangles have a point in common.", "quantifier": "all pairs of triangles with rational coordinates and a squared normal above 1e-15", "why_tests_cant": "The answer is composed of nine pairs of sides and six corners with many special positions; sampled triangles rarely reach the branches that go wrong.", "anchors": ["src/geometry/TriDist.cpp:60-162", "src/geometry/TriDist.cpp:177-245", "src/geometry/TriDist.cpp:252-385", "src/geometry/TriDist.cpp:403-439"]}
{"id": "C174", "title": "TriDist_single answers the smallest distance of all pairs of triangles", "statement": "For two buffers of triangles TriDist_single answers the smallest answer of TriDist for a triangle of the first and one of the second, and the initial value only if one of the buffers is empty; where TriDist is right this is the smallest distance of a point of the one surface from a point of the other.", "quantifier": "all buffers and sizes", "why_tests_cant": "All pairs of unboundedly many triangles; a wrong stride shows for some positions of the closest pair only.", "anchors": ["src/geometry/TriDist.cpp:441-454"]}
{"id": "C175", "title": "Box distances in single precision are bounds", "statement": "With every operation rounded to single precision, the lower distance aab::distance answers for two boxes is at most the squared distance of every two points of the boxes, it is close to the exact lower distance, and lower and upper distance are never exchanged.", "quantifier": "all pairs of boxes and points, no overflow or underflow", "why_tests_cant": "Rounding errors depend on the last bits of six operations; sampled boxes with round coordinates are exact.", "anchors": ["src/geometry/aab.h:176-193", "src/geometry/geometry.h:75-80"]}
{"id": "C176", "title": "The octree misses nothing by rounding", "statement": "With the box distances rounded to single precision, the distance query of the octree reports exactly the objects other than the query whose own rounded lower box distance is at most the limit: rounding in the cells on the way never hides an object.", "quantifier": "all octrees built by insertions, query boxes and limits", "why_tests_cant": "An object is missed only if the rounded distance of an enclosing cell exceeds the rounded distance of the object by a last bit.", "anchors": ["src/index/octree.cpp:165-185", "src/geometry/aab.h:176-193"]}
{"id": "C177", "title": "The distance of two segments does not depend on how they are written", "statement": "The distance answered for two segments is the same whichever end of a segment is written first and whichever segment is passed first, on the processor and on the graphics card.", "quantifier": "all pairs of segments with rational coordinates", "why_tests_cant": "The order matters only for non-parallel segments whose common perpendicular misses one of them; sampled pairs are written one way only.", "anchors": ["src/geometry/SegDist.cpp:17-77", "src/geometry/SegDist.cu:55-114"]}
{"id": "C178", "title": "With --aabb distances are computed at the level of the round", "statement": "In a nearest-neighbour or within join with --aabb and rising levels, each distance of a round is computed from the vertices the first object has at the level of the round and from a tree of the edges the second object has at this level; a tree kept from a lower level never answers.", "quantifier": "all candidate lists, numbers of vertices and lists of levels", "why_tests_cant": "Trees are kept with the meshes across rounds and deleted by whoever used them last; a tree that is out of date answers a plausible distance.", "anchors": ["src/join/SpatialJoin.cpp:309-347", "src/spatial/himesh.cpp:474-490", "src/spatial/himesh.cpp:329-336"]}
{"id": "C179", "title": "With --aabb no tree is left over after a level", "statement": "After each level of a join with --aabb no mesh keeps a tree: the memory of the trees is free before the meshes are decoded further.", "quantifier": "all candidate lists, numbers of vertices and lists of levels", "why_tests_cant": "A tree left over changes no answer; it shows as memory only.", "anchors": ["src/join/SpatialJoin.cpp:309-347", "src/spatial/himesh.cpp:474-490"]}
{"id": "C180", "title": "The analysis line divides the time of a join", "statement": "The three numbers of the line 'analysis' a join prints add up to at most the time per repetition: no stretch of time is counted twice.", "quantifier": "all numbers of tile pairs and levels, all durations of the parts", "why_tests_cant": "Clock readings overlap only in some joins; a test cannot tell a part counted twice from a slow part.", "anchors": ["src/join/SpatialJoin.h:58-86", "src/join/SpatialJoin.cpp:299-401", "src/join/SpatialJoin.cpp:421-519", "src/join/SpatialJoin.cpp:674-799"]}
{"id": "C181", "title": "The parts of the time printed add up to the total", "statement": "The parts report prints (index, decode, packing, computation, updatelist, other) add up to the total it prints.", "quantifier": "all times with an overall time other than 0", "why_tests_cant": "Real times differ from run to run, so a printed sum is hardly ever compared.", "anchors": ["src/join/SpatialJoin.h:68-86"]}
{"id": "C182", "title": "Every HDF5 file gets its own OFF file", "statement": "The converter takes exactly the paths that are a name followed by '.h5', writes each to the path with '.OFF' in its place, and never two to the same path.", "quantifier": "all paths", "why_tests_cant": "Paths long enough to overrun the buffer hardly occur in tests, and an overrun by a byte or two usually goes unnoticed.", "anchors": ["src/test/H5ToOFF.cpp:91-112"]}
{"id": "C183", "title": "The converter from HDF5 keeps the shape", "statement": "The OFF file written holds the corners and faces of the dataset: different corners stay different, and every face keeps its corners.", "quantifier": "all vertex and face tables", "why_tests_cant": "Test data with coordinates in the hundreds hides that the output has one digit after the point.", "anchors": ["src/test/H5ToOFF.cpp:28-41", "src/test/H5ToOFF.cpp:44-89"]}
{"id": "C184", "title": "Voxels can be made of every mesh", "statement": "generate_voxels returns for every mesh whose facets can be cut into triangles, whatever the facets are; the skeleton it uses is computed once for each level.", "quantifier": "all meshes, levels and voxel sizes", "why_tests_cant": "Depends on the build: the call that cuts the facets stands inside an assert, so a test built with assertions passes.", "anchors": ["src/spatial/himesh.cpp:28-91", "src/spatial/himesh.cpp:163-224", "src/Makefile:11-15"]}
{"id": "C185", "title": "The surface of a face is its area", "statement": "triangleSurface is half the length of the cross product of two sides; faceSurface of a flat face that goes round its barycenter is half the length of its area vector, and for any face it is at least that.", "quantifier": "all triangles and all polygons, exact arithmetic", "why_tests_cant": "Identity over all real coordinates.", "anchors": ["src/PPMC/mymeshUtils.cpp:196-206", "src/PPMC/mymeshUtils.cpp:236-268", "src/PPMC/mymeshUtils.cpp:109-134"]}
{"id": "C186", "title": "The error of a removal measures the vertex removed", "statement": "removalError(v, polygon) tells a vertex far from the polygon of its neighbours from one in its plane, and does not depend on where the mesh lies.", "quantifier": "all polygons and vertices, exact arithmetic", "why_tests_cant": "The result is a plausible small number for every input.", "anchors": ["src/PPMC/mymeshCompTests.cpp:142-184"]}
{"id": "C187", "title": "The planarity test accepts exactly the flat polygons", "statement": "isPlanar(polygon, 0) answers true exactly when the corners lie in one plane; for a flat polygon it answers true for every tolerance that is not negative.", "quantifier": "all polygons, exact arithmetic", "why_tests_cant": "Polygons whose area vector vanishes are not met in examples.", "anchors": ["src/PPMC/mymeshCompTests.cpp:116-135"]}
{"id": "C188", "title": "The text of a mesh is read as it was written", "statement": "A line OFF with the number of points, facets and edges, the points and the facets is read as exactly these points and facets, whatever bars and blanks separate the numbers and whatever numbers follow.", "quantifier": "all meshes with coordinates in decimal notation (sign, fraction, exponent), all separators", "why_tests_cant": "Tests use a few files with one style of separators.", "anchors": ["src/PPMC/mymesh.cpp:51-53", "src/spatial/spatial_common.cpp:100-118"]}
{"id": "C189", "title": "The mesh read does not depend on the memory behind its line", "statement": "Although the text of a line is read past its end, the mesh get_mesh reads from it is the one written in the line.", "quantifier": "all lines describing a mesh with coordinates in decimal notation (sign, fraction, exponent), all contents of the memory behind the line up to a zero", "why_tests_cant": "The memory behind a fresh array is usually zero; only a digit behind a line without a final bar changes the mesh.", "anchors": ["src/PPMC/mymesh.cpp:51-53", "src/spatial/spatial_common.cpp:100-113"]}
{"id": "C190", "title": "The R-tree frees every node it takes off the tree", "statement": "After any history of insertions and removals the nodes allocated and not freed are exactly the nodes of the tree, the list entries used in removals are all freed, and the destructor frees as many nodes as are left.", "quantifier": "all histories, capacities and volume functions under which the operations succeed", "why_tests_cant": "A leaked node shows in no answer of the tree; only histories that remove enough to condense the tree free nodes at all.", "anchors": ["src/index/RTree.h:832-890", "src/index/RTree.h:1448-1482"]}
{"id": "C191", "title": "Copies of an R-tree can be destroyed independently", "statement": "A copy of a tree holds the same entries in memory of its own: either of the two can be destroyed without touching the other, and destroying both frees all their nodes once.", "quantifier": "all trees, all heaps, copies by the copy constructor and by assignment", "why_tests_cant": "Tests that copy by construction never see the assignment the compiler adds, and a double free may go unnoticed.", "anchors": ["src/index/RTree.h:480-492", "src/index/RTree.h:696-738", "src/index/RTree.h:61-378"]}
{"id": "C192", "title": "Time stamps in the log tell the time", "statement": "The time a log line starts with is ordered as the moments are, and read as a clock it is the time to the millisecond.", "quantifier": "all moments of a day", "why_tests_cant": "A stamp with a wrong fraction looks like any other; only comparing it with a second clock shows it.", "anchors": ["src/util/util.h:49-59"]}
{"id": "C193", "title": "The generator writes every run to files of its own", "statement": "The names of the three output files differ from each other and from those of a run with other options, and they fit the arrays they are made in.", "quantifier": "all output paths and options", "why_tests_cant": "Tests use few options and short paths.", "anchors": ["src/test/data_generator.cpp:335-342"]}
{"id": "C194", "title": "Progress is reported up to the end", "statement": "While a file is read, every percentage is reported in order (every odd one by the partitioner), up to the last.", "quantifier": "all files, all lengths of lines, all samples", "why_tests_cant": "Large test files of equal short lines show all reports.", "anchors": ["src/test/compress.cpp:138-162", "src/partition/partition.cpp:86-139"]}
{"id": "C195", "title": "A sample has the rate asked for", "statement": "Of the values of rand a rate of r takes r in a hundred, 100 takes everything and 0 nothing; a possibility of 1 takes everything.", "quantifier": "all rates from 0 to 100, all values of rand", "why_tests_cant": "The one value that is not taken with possibility 1 comes up once in 2^31 calls.", "anchors": ["src/util/util.h:98-105", "src/partition/partition.cpp:115"]}
{"id": "C196", "title": "Every tile and every box is written to a file of its own", "statement": "persist_tile gives different tiles different file names, and write_box different ids.", "quantifier": "all prefixes, all numbers", "why_tests_cant": "Collisions need particular pairs of prefixes and numbers.", "anchors": ["src/partition/partition.cpp:147-154", "src/spatial/spatial_common.cpp:51-55"]}
{"id": "C197", "title": "The error of a removal does not depend on the size of the mesh", "statement": "Making the mesh k times as large (from the origin) leaves the error of removing a vertex as it is.", "quantifier": "all k > 0, all vertices and polygons with a perimeter", "why_tests_cant": "Tests compare the errors of a few meshes at one size; equality for every size is a statement over the reals.", "anchors": ["src/PPMC/mymeshCompTests.cpp:142-184"]}
{"id": "C198", "title": "A mesh written to an OFF file and read again has the same faces and coordinates to six digits", "statement": "Reading the text that writeMeshOff or write_polyhedron puts out gives a mesh with the same faces in the same order and, for every coordinate, the number of six significant digits nearest to the written one, whatever lies in memory behind the text.", "quantifier": "all meshes with coordinates that are 0 or of magnitude 10^-99 to 10^99, all memory behind the text", "why_tests_cant": "Tests write and read a few meshes; whether every coordinate comes back as its nearest six-digit number, and what happens with other memory behind the text, is a statement over all numbers and all memory.", "anchors": ["src/PPMC/mymeshIO.cpp:333-344", "src/spatial/spatial_common.cpp:44-49", "src/spatial/spatial_common.cpp:98-113", "src/spatial/spatial_common.cpp:131-137", "src/PPMC/mymesh.cpp:42-53"]}
{"id": "C199", "title": "The normal of a facet is the same however it is computed", "statement": "The four computeNormal functions give the direction of the sum of the cross products along the sides of a facet: the same for a facet, its half-edges, its list of corners and (for triangles) its three points, whatever corner comes first; moving the facet leaves it, going round the other way gives its opposite, and it is at right angles to the plane of a plane facet.", "quantifier": "all polygons with real coordinates", "why_tests_cant": "Tests compare normals of a few facets; equality for every polygon, every first corner and every move is a statement over the reals.", "anchors": ["src/PPMC/mymeshUtils.cpp:23-78"]}
{"id": "C200", "title": "The normal of a vertex is the direction of the sum of its facets' normals", "statement": "computeVertexNormal gives the direction of the sum of the normals of the facets about the vertex, whatever their order; the common normal if they have one; and a direction in front of all facets is in front of the vertex.", "quantifier": "all lists of facets with real coordinates", "why_tests_cant": "Holds for all numbers of facets and all real coordinates.", "anchors": ["src/PPMC/mymeshUtils.cpp:81-92"]}
{"id": "C201", "title": "The voxels written for a generated object hold the object", "statement": "Every vertex of the mesh that data_generator writes for an object lies in the moved voxel that held it in the mesh as loaded.", "quantifier": "all prototypes, all shifts, all voxels", "why_tests_cant": "Whether a vertex leaves its voxel depends on the digits of its coordinate after the shift; tests see a few shifts only.", "anchors": ["src/test/data_generator.cpp:36-51", "src/test/data_generator.cpp:148-199"]}
{"id": "C202", "title": "The arrays of vertices and corners describe the mesh", "statement": "Reading three numbers of vertices from fill_topology for each facet, and their points from fill_vertices, gives the corners of the facets of the mesh in order.", "quantifier": "all decoded meshes, any number of vertices and facets", "why_tests_cant": "Small meshes with ids in order would pass; that ids are never set when decoding, 16-bit numbers and facets of more than three corners matter for all meshes.", "anchors": ["src/spatial/himesh.cpp:285-325", "src/PPMC/mymesh.h:193-224", "src/PPMC/mymeshIO.cpp:195-223"]}
{"id": "C203", "title": "The local frame of a gate is orthonormal", "statement": "determineFrenetFrame answers two tangents that, with the normal given, are of length 1, at right angles to each other and right-handed, the first one being the gate without its part along the normal; the rotation computed from them takes the normal to the z axis and the first tangent to the x axis or against it.", "quantifier": "all gates and all normals of length 1 (exact arithmetic)", "why_tests_cant": "Tests take a few gates; that every frame is orthonormal, and that a gate along the normal or a null normal breaks it, is a statement over all vectors.", "anchors": ["src/PPMC/frenetRotation.cpp:26-43"]}
{"id": "C204", "title": "The R-tree is right with the volume it is compiled with", "statement": "With CalcRectVolume being the volume of the sphere around a box (RTREE_USE_SPHERICAL_VOLUME), every history of insertions of boxes with min <= max and of removals leaves a tree of the right shape, whose count and searches are right; the operations inside the volume may round.", "quantifier": "all histories, dimensions, capacities with a minimal fill of at least two (any for insertions alone), units of the coordinates, roundings that keep the order; differences of volumes exact", "why_tests_cant": "The volume decides which seeds and branches are picked; whether some sequence of boxes leaves an entry without a group cannot be found by sampling.", "anchors": ["src/index/RTree.h:39", "src/index/RTree.h:1190-1230"]}
{"id": "C205", "title": "An R-tree iterator shows the rectangles inserted", "statement": "The loop over GetFirst, GetAt, GetBounds and GetNext reads every entry left in the tree once, with the rectangle it was inserted with.", "quantifier": "all histories with a minimal fill of at least two and fewer than 2^32 insertions, all histories of insertions up to 32 levels", "why_tests_cant": "Rectangles of data and covers of nodes lie in the same arrays; that the stack always points to a leaf needs an invariant.", "anchors": ["src/index/RTree.h:167-178", "src/index/Test.cpp:71-83"]}
{"id": "C206", "title": "One thread at a time has the processor", "statement": "Between a true answer of request_cpu and its release_cpu no other thread gets true, and cpu_busy is set exactly while some thread is in between.", "quantifier": "all numbers of threads, all interleavings of their reads and writes (sequentially consistent)", "why_tests_cant": "Races show up in rare interleavings only.", "anchors": ["src/geometry/geometry_computer.cpp:24-40"]}
{"id": "C207", "title": "Asking for the processor does not wait", "statement": "request_cpu answers without waiting for a thread that computes: the first look at cpu_busy sends away whoever comes while the processor is taken.", "quantifier": "all numbers of threads, all interleavings of their reads and writes (sequentially consistent)", "why_tests_cant": "The wait needs one interleaving: two threads that both look before either locks.", "anchors": ["src/geometry/geometry_computer.cpp:24-40"]}
{"id": "C208", "title": "Faces that are the same compare equal", "statement": "Two faces of the mesh repair compare equal exactly if they go around the same vertices in the same sense.", "quantifier": "all pairs of faces", "why_tests_cant": "Tests compare a few faces; the statement ranges over all rotations of all faces.", "anchors": ["src/test/fixer.cpp:74-88"]}
{"id": "C209", "title": "remove_redundant removes redundant faces", "statement": "After remove_redundant no two faces of the polyhedron go around the same vertices in the same sense, and every face removed was such a repetition.", "quantifier": "all polyhedra with faces of three or more vertices", "why_tests_cant": "Tests on clean meshes never meet a redundant face.", "anchors": ["src/test/fixer.cpp:290-304"]}
{"id": "C210", "title": "The fixer's files can be read by the other programs", "statement": "The text that dumpto or print of the fixer puts out is read by get_mesh as a mesh with the same faces, whatever their number of corners, in the same order, and every coordinate is the number of six significant digits nearest to the fixer's.", "quantifier": "all meshes with coordinates that are 0 or of magnitude 10^-99 to 10^99, all memory behind the text", "why_tests_cant": "All meshes and coordinates, and what lies in memory behind the text cannot be set by a test.", "anchors": ["src/test/fixer.cpp: dumpto, print", "src/spatial/spatial_common.cpp: get_mesh"]}
{"id": "C211", "title": "A tile gives back its memory", "statement": "However a tile is used, every array, mesh, voxel and tree it allocates is used and deleted only while it exists and is deleted exactly once when the tile is gone, arrays with delete[] and single objects with delete.", "quantifier": "all numbers of objects and voxels, all sequences of decoding, filling voxels, building and dropping trees, resetting and disabling inner parts", "why_tests_cant": "All sequences of operations; releasing an array with delete shows no effect with common allocators.", "anchors": ["src/storage/tile.cpp: retrieve_mesh, disable_innerpart, ~Tile", "src/spatial/himesh.cpp: fill_voxel, get_aabb_tree, clear_aabb_tree", "src/spatial/himesh.h: Voxel, HiMesh_Wrapper", "src/PPMC/mymesh.cpp: ~MyMesh"]}
{"id": "C212", "title": "Voxels are filled with the kind of data asked for", "statement": "After any calls on an object that end with fill_voxels for segments or triangles, copying the data of each voxel at the level reached as that kind gives exactly the segments, or the triangles, of that level that are nearest to the voxel, and reads nothing past the arrays.", "quantifier": "all meshes, all numbers of voxels, all sequences of advance_to, fill_voxels with either kind, and reset", "why_tests_cant": "All sequences of calls; the joins ask for one kind only, so the other order never shows in their results.", "anchors": ["src/spatial/himesh.cpp: fill_voxel, fill_voxels, advance_to", "src/spatial/himesh.h: Voxel, HiMesh_Wrapper", "src/join/SpatialJoin.cpp: copies of the data of voxels"]}
{"id": "C213", "title": "A join gives back its memory", "statement": "When the join of two tiles is over, every block of memory it took for its search tree, for the buffers of its rounds and for computing distances has been used and deleted only while it existed and deleted exactly once, arrays with delete[] and single objects with delete.", "quantifier": "all three joins, all objects of the second tile, all numbers and outcomes of rounds, with and without --aabb", "why_tests_cant": "A tree that is lost changes no result, and its size depends on the data; wrong forms of delete show no effect with common allocators.", "anchors": ["src/join/SpatialJoin.cpp: mbb_intersect, mbb_nn, mbb_within, calculate_distance, within, nearest_neighbor, intersect", "src/geometry/SegDist.cpp: SegDist_single", "src/index/octree.cpp"]}
{"id": "C214", "title": "An octree gives back all its nodes", "statement": "However objects are added to an octree, and whichever divisions are undone, no node is used or deleted when it does not exist, exactly the nodes of the tree are allocated, and deleting the root deletes each of them exactly once.", "quantifier": "all boxes, all lists of objects, all leaf sizes", "why_tests_cant": "All trees, with divisions nested in divisions that are undone later.", "anchors": ["src/index/octree.cpp: addObject, ~OctreeNode", "src/storage/tile.cpp: build_octree"]}
{"id": "C215", "title": "The compressor gives back its memory", "statement": "When a thread of the compressor has worked off its lines, every block of memory it took for a line (text, meshes, codes, base mesh, skeleton, voxels) has been used and deleted only while it existed and deleted exactly once, arrays with delete[] and single objects with delete.", "quantifier": "all numbers of lines, rounds, faces, skeleton points and voxels, whichever voxels stay without a vertex", "why_tests_cant": "All inputs; lost memory changes no output until it runs out.", "anchors": ["src/test/compress.cpp: mycompress, flush_mesh_buffer", "src/spatial/spatial_common.cpp: get_mesh", "src/spatial/himesh.cpp: generate_voxels, get_skeleton_points, extract_skeleton", "src/PPMC/mymesh.cpp, mymeshIO.cpp: readBaseMesh, mymeshComp.cpp"]}
{"id": "C216", "title": "The decompressor's zlib statistics are right", "statement": "The decompressor's trial compression of the vertices with zlib levels 1 to 9 writes nothing outside its buffer, and the number of bytes logged for a level is the length of zlib's result at that level.", "quantifier": "all meshes, all lengths of the results of the levels, whatever memory holds before", "why_tests_cant": "Depends on what the stack happens to hold and on vertices that do not compress; usually the value is harmless.", "anchors": ["src/test/decompress.cpp: main"]}
{"id": "C217", "title": "The generator gives its memory back", "statement": "Every block of memory the data generator takes is used only while it exists, is given back exactly once with the form of delete that belongs to it, and nothing is left when main returns.", "quantifier": "for all vessels, nuclei, voxel sizes, numbers of threads and distributions of the jobs", "why_tests_cant": "the loss does not show in the files and grows with the number of nuclei; a delete of the wrong form is undefined but mostly goes unnoticed", "anchors": ["src/test/data_generator.cpp: poly_to_himesh, poly_to_mesh, load_prototype, organize_data, generate_nuclei, generate_unit, generate_vessel, main"]}
{"id": "C218", "title": "The partitioner gives its memory back", "statement": "Every block of memory the partitioner takes for meshes, boxes of objects, nodes of the sort partition and surfaces of tiles is used only while it exists, is given back exactly once with the form of delete that belongs to it, and nothing is left at the end, whether the partition is built or loaded.", "quantifier": "all inputs with empty and non-empty lines, all trees built or loaded", "why_tests_cant": "The loss does not show in the files written; it grows with the sample and the number of tiles.", "anchors": ["src/test/partitioner.cpp: main", "src/partition/partition.cpp: get_mbbs_unit, persist_tile", "src/index/stree.cpp: build_sort_partition, load, genTiles", "src/index/index.h: SPNode"]}
{"id": "C219", "title": "The fixer gives its memory back", "statement": "Every point, face and polyhedron the fixer makes while loading, taking apart and filling holes is used only while it exists and is deleted exactly once, with the form of delete that belongs to it; nothing is left at the end, also where a walk along a boundary does not close.", "quantifier": "all meshes whose faces refer to existing points, all components, all holes", "why_tests_cant": "Copies of points and faces in several polyhedra with the same indices invite a double delete that only some meshes show.", "anchors": ["src/test/fixer.cpp: ~Polyhedron, load, depart, fill_holes, main"]}
{"id": "C220", "title": "The barycenters of a face agree and lie in it", "statement": "In exact arithmetic the three barycenter functions give the same point for the same corners, whatever the corner and direction the walk starts with; the point lies in every half-space that contains the corners and moves with them.", "quantifier": "all non-empty lists of corners, all half-spaces, all translations", "why_tests_cant": "Encoder and decoder reach a face through different half-edges; the residual is right only if both compute the same point.", "anchors": ["src/PPMC/mymeshUtils.cpp: barycenter (three overloads)"]}
{"id": "C221", "title": "The program that writes boxes gives back its memory", "statement": "get_boxes deletes everything it takes exactly once and in the right way, and uses nothing after it is deleted.", "quantifier": "all objects: any number of rounds, faces, skeleton points and voxels without a vertex", "why_tests_cant": "The process ends right after the leak, so no run shows it; how much is lost depends on the number of voxels of the object.", "anchors": ["src/test/get_boxes.cpp: main", "src/spatial/spatial_common.cpp: write_box, make_cube, read_mesh, get_mesh"]}
{"id": "C222", "title": "The partitioner measures its input right", "statement": "file_size of a list is the sum of the sizes of the files that exist. The bytes counted while reading are those of the files that can be opened, and one more for each last line without a newline. The percentage is never divided by zero, and exceeds 100 only through those missing newlines.", "quantifier": "all lists of files, missing, locked or readable, with any content; all samples of lines", "why_tests_cant": "Needs empty, missing and locked files in every mixture with readable ones; a division by zero would end the program.", "anchors": ["src/util/util.h: file_size (two overloads)", "src/partition/partition.cpp: get_voxels"]}
{"id": "C223", "title": "The distances between points are metrics", "statement": "distance, get_distance and mdistance of two points are never negative, zero only for the same point, symmetric, and not longer than a way over a third point; the square of mdistance lies between distance and three times distance.", "quantifier": "all points, in exact arithmetic", "why_tests_cant": "Comments call get_distance the Euclid distance; whoever adds or compares such values along a way relies on the triangle inequality, which single pairs do not show.", "anchors": ["src/spatial/spatial.h: distance, mdistance", "src/PPMC/mymesh.h: get_distance"]}
{"id": "C224", "title": "The common box of get_boxes is the box of the object", "statement": "The last box that get_boxes writes is the least box around all vertices of the object, whatever skeleton and random numbers assigned the vertices to voxels, and every other box written lies within it.", "quantifier": "all meshes with a vertex, all skeletons, random numbers and voxel sizes for which voxels are generated", "why_tests_cant": "Voxels that got no vertex are erased and empty boxes start at the largest numbers; a voxel lost or a box not reset would show only for some assignments.", "anchors": ["src/test/get_boxes.cpp: main", "src/spatial/himesh.cpp: generate_voxels", "src/geometry/aab.h: update"]}
