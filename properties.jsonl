{"id": "C01", "title": "list <-> padded conversions lose nothing", "statement": "Converting a list of tensors to a padded tensor and back with the recorded sizes returns the original list; the padded tensor has the maximum length as its width and holds the pad value at every position outside an entry.", "quantifier": "all lists of all lengths (including empty entries and an empty list), all element types and pad values", "why_tests_cant": "Tests sample a few ragged shapes; the law must hold for every ragged batch, including those with empty members.", "anchors": ["pytorch3d/structures/utils.py: list_to_padded, padded_to_list"]}
{"id": "C02", "title": "list -> packed bookkeeping is exact", "statement": "list_to_packed returns the concatenation together with counts, first indices and an item->list index such that row i of the packed tensor is row (i - first[idx[i]]) of list entry idx[i]; packed_to_list with the counts restores the list; padded_to_packed agrees with going through the list.", "quantifier": "all lists of tensors, every packed row index", "why_tests_cant": "The index arithmetic must be right for every ragged batch, in particular around empty entries where cumulative sums repeat.", "anchors": ["pytorch3d/structures/utils.py: list_to_packed, packed_to_list, padded_to_packed"]}
{"id": "C03", "title": "packed_to_padded / padded_to_packed operators are mutually inverse and adjoint", "statement": "For any first-index table of a valid batch, padded_to_packed(packed_to_padded(x)) = x, positions past the end of a batch element are zero, and the gradient the operators return is the adjoint of the forward map: <forward(x), g> = <x, backward(g)>.", "quantifier": "all batches, sizes, first-index tables, inputs and output gradients", "why_tests_cant": "A gradient test checks a handful of shapes with finite differences; adjointness is a statement about all inputs.", "anchors": ["pytorch3d/ops/packed_to_padded.py", "pytorch3d/csrc/packed_to_padded_tensor/packed_to_padded_tensor_cpu.cpp"]}
{"id": "C04", "title": "Meshes: every accessor describes the same meshes, in any call order", "statement": "After construction from lists or from padded tensors, and after any sequence of accessor calls and whole-batch edits, verts_list/faces_list, verts_padded/faces_padded and verts_packed/faces_packed (with offset face indices and the packed index tables) all describe the same list of meshes; the answer does not depend on which accessors were called before. This holds for every batch with at least one face; for a batch without any face the packed view and the counts lose the vertices, and a padded batch with only padding faces cannot be read as lists (shown as refutations).", "quantifier": "all batches of meshes and all finite sequences of accessor calls and edits", "why_tests_cant": "The representations are computed lazily and cached; the number of call orders is unbounded and tests exercise a few.", "anchors": ["pytorch3d/structures/meshes.py: Meshes.__init__, _compute_packed, _compute_padded, offset_verts_, scale_verts_, update_padded, clone"]}
{"id": "C05", "title": "Meshes: indexing, extending, splitting and joining obey the list laws", "statement": "m[i] holds exactly mesh i; extend(N) repeats every mesh N times in place order; split followed by join_meshes_as_batch gives the original batch back; join_meshes_as_scene concatenates vertices and shifts face indices so that each face still names the same three positions.", "quantifier": "all batches, all index lists and slices, all split sizes", "why_tests_cant": "Combinatorially many shapes; the composition laws are universally quantified.", "anchors": ["pytorch3d/structures/meshes.py: __getitem__, extend, split, join_meshes_as_batch, join_meshes_as_scene"]}
{"id": "C06", "title": "Meshes: edges_packed lists each undirected edge exactly once", "statement": "edges_packed contains no duplicates, each row is ordered low/high, it contains exactly the vertex pairs that are a side of some face, faces_packed_to_edges_packed[f][k] is the edge opposite vertex k of face f, and the edge->mesh table, per-mesh counts and first indices are consistent.", "quantifier": "all batches of meshes with in-range face indices", "why_tests_cant": "The implementation hashes an edge into one integer and calls unique; correctness depends on injectivity of the hash for all vertex counts.", "anchors": ["pytorch3d/structures/meshes.py: _compute_edges_packed"]}
{"id": "C07", "title": "Meshes: in-place vertex edits keep every cached quantity consistent", "statement": "After offset_verts_ / scale_verts_, quantities that were already cached (normals, areas, all representations) equal what a freshly built Meshes with the new vertices would report. The exception is scale_verts_, which keeps vertex normals that were already cached: they stay right exactly as long as no un-normalised normal crosses the 1e-6 clamp and the scale is not 0 (shown with a refutation for scale 0).", "quantifier": "all meshes, all subsets of caches already filled, all offsets and scales", "why_tests_cant": "The stale-cache state space is exponential in the number of caches.", "anchors": ["pytorch3d/structures/meshes.py: offset_verts_, scale_verts_, _compute_face_areas_normals, _compute_vertex_normals"]}
{"id": "C08", "title": "Pointclouds: every accessor describes the same clouds, in any call order", "statement": "For any construction that uses one format (lists throughout or padded tensors throughout, with or without normals and features) of a batch with at least one point, and for any sequence of accessor calls and edits, every accessor answers, and the list, padded and packed views of points, normals and features are those of one batch of clouds, independently of the order of the calls; update_padded is included when the padded tensors were computed or given in full. (Mixing lists with tensors, updating before the padded tensors exist and batches without any point are exceptions: there views can be lost, which is proved as refutations.)", "quantifier": "all batches of clouds, all mixes of construction formats, all finite call sequences", "why_tests_cant": "Lazy caching; tests fix a few call orders and never mix construction formats.", "anchors": ["pytorch3d/structures/pointclouds.py"]}
{"id": "C09", "title": "Pointclouds: batch operations keep points, features and normals aligned", "statement": "extend, split, join_pointclouds_as_batch/scene, offset_, scale_, subsample and update_padded never separate a point from its normal and features, and subsample keeps min(max_points, n) distinct points of each cloud.", "quantifier": "all batches, all parameters, all outcomes of the random choice", "why_tests_cant": "Random choices and unbounded batch shapes.", "anchors": ["pytorch3d/structures/pointclouds.py: extend, split, subsample, update_padded, join_pointclouds_as_batch, join_pointclouds_as_scene"]}
{"id": "C10", "title": "knn_points returns the true K nearest neighbours in sorted order", "statement": "For every query the returned distances are the K smallest distances to the first lengths2 points, in ascending order, each index points at a point having that distance, indices are distinct, and slots beyond lengths2 are zero.", "quantifier": "all point sets, dimensions, lengths, K and both norms, ties included", "why_tests_cant": "The heap-based selection must be right for every order of arrival and every tie pattern.", "anchors": ["pytorch3d/ops/knn.py: knn_points", "pytorch3d/csrc/knn/knn_cpu.cpp"]}
{"id": "C11", "title": "knn_points gradient is the derivative of the returned distances", "statement": "The backward pass returns, for every coordinate, the sum over queries and slots of upstream gradient times the partial derivative of the returned distance (for norm 1 at points of differentiability).", "quantifier": "all points, indices, upstream gradients", "why_tests_cant": "Finite differences sample points; correctness is an identity for all reals.", "anchors": ["pytorch3d/csrc/knn/knn_cpu.cpp: KNearestNeighborBackwardCpu"]}
{"id": "C12", "title": "ball_query returns the first K points inside the radius", "statement": "For every query the returned indices are the first min(K, count) indices, in increasing order, of points within the radius; remaining slots are -1; distances match; turning on skip_points_outside_cube never changes the result.", "quantifier": "all point sets, lengths, K, radii", "why_tests_cant": "Universally quantified over inputs; the optimisation flag must be behaviour preserving everywhere.", "anchors": ["pytorch3d/ops/ball_query.py", "pytorch3d/csrc/ball_query/ball_query_cpu.cpp"]}
{"id": "C13", "title": "sample_farthest_points is greedy max-min selection without repetition", "statement": "Sample 0 is the start index, every later sample maximises the minimum distance to the earlier samples, all returned indices are in range, slots beyond min(K,length) are -1, and a point is never returned twice.", "quantifier": "all clouds, lengths, K, start indices, including clouds with coincident points", "why_tests_cant": "Ties and duplicate points are corner cases with unboundedly many shapes.", "anchors": ["pytorch3d/ops/sample_farthest_points.py", "pytorch3d/csrc/sample_farthest_points/sample_farthest_points_cpu.cpp"]}
{"id": "C14", "title": "sample_pdf inverts the CDF and never leaves the bins", "statement": "For non-negative weights and u >= 0, every quantile yields a sample, the sample lies between the first and last bin edge, is monotone in u, and is the point where the piecewise-linear cumulative weight reaches u times (total weight + eps), capped at the total, within the stabiliser eps (exactly when every bin weight exceeds eps). The two search strategies and the Python reference obey the same law.", "quantifier": "all bin edges, weights, uniform draws", "why_tests_cant": "Real-valued inputs; boundary cases u=0, u=1 and zero weights.", "anchors": ["pytorch3d/renderer/implicit/sample_pdf.py", "pytorch3d/csrc/sample_pdf/sample_pdf_cpu.cpp"]}
{"id": "C15", "title": "sample_pdf: the thread partition covers every ray once and nothing else", "statement": "Whatever the batch size and thread count, each batch element is processed by exactly one thread and no thread touches an element outside the batch.", "quantifier": "all batch sizes and all thread counts the code can choose", "why_tests_cant": "Depends on the machine's thread count; out-of-range accesses do not fail tests reliably.", "anchors": ["pytorch3d/csrc/sample_pdf/sample_pdf_cpu.cpp: SamplePdfCpu"]}
{"id": "C16", "title": "Rasterizer: the row partition over threads covers every row once", "statement": "Each image row is rasterized by exactly one worker and no worker writes outside the image, so the output does not depend on the number of threads.", "quantifier": "all image heights and thread counts, all interleavings of the workers", "why_tests_cant": "Thread schedules.", "anchors": ["pytorch3d/csrc/rasterize_meshes/rasterize_meshes_cpu.cpp: RasterizeMeshesNaiveCpu"]}
{"id": "C17", "title": "Graph convolution gather/scatter: backward is the adjoint of forward", "statement": "For directed and undirected modes and any edge list, <forward(x), g> = <x, backward(g)>.", "quantifier": "all edge lists (self loops, repeated edges), features and gradients", "why_tests_cant": "Universally quantified linear-algebra identity.", "anchors": ["pytorch3d/csrc/gather_scatter/gather_scatter_cpu.cpp", "pytorch3d/ops/graph_conv.py"]}
{"id": "C18", "title": "alpha_composite is front-to-back compositing and its gradient is the derivative", "statement": "The output is sum_k a_k f_k prod_{j<k}(1-a_j) over the layers with a valid index; for alphas in [0,1] weights are non-negative and sum to at most one; the backward pass returns the partial derivatives with respect to features and alphas.", "quantifier": "all layer counts, alphas, features, index patterns", "why_tests_cant": "Products of unbounded length; invalid layers anywhere.", "anchors": ["pytorch3d/csrc/compositing/alpha_composite_cpu.cpp", "pytorch3d/renderer/compositing.py"]}
{"id": "C19", "title": "norm_weighted_sum is a convex combination and its gradient is the derivative", "statement": "When the total valid weight exceeds the clamp the result is the weighted mean (hence within the range of the inputs) and the backward pass is the derivative; inside the clamp the returned gradient should be the derivative of the clamped expression.", "quantifier": "all layer counts, weights, features, index patterns", "why_tests_cant": "Universally quantified; clamp region rarely sampled.", "anchors": ["pytorch3d/csrc/compositing/norm_weighted_sum_cpu.cpp"]}
{"id": "C20", "title": "weighted_sum and its gradient", "statement": "The output is the plain weighted sum over valid layers and the backward pass is its derivative in weights and features.", "quantifier": "all layer counts, weights, features, index patterns", "why_tests_cant": "Universally quantified identity.", "anchors": ["pytorch3d/csrc/compositing/weighted_sum_cpu.cpp"]}
{"id": "C21", "title": "sigmoid_alpha_blend is bounded, order independent, monotone and correctly differentiated", "statement": "The alpha is 1 - prod(1 - p_k) over valid faces, lies in [0,1], does not depend on the order of the faces, grows when a face is added, and the backward pass returns its derivative in each distance.", "quantifier": "all numbers of faces, distances, sigma > 0", "why_tests_cant": "Real-valued products of unbounded length.", "anchors": ["pytorch3d/csrc/blending/sigmoid_alpha_blend.cu and sigmoid_alpha_blend_cpu.cpp", "pytorch3d/renderer/blending.py: sigmoid_alpha_blend, softmax_rgb_blend"]}
{"id": "C22", "title": "Mesh rasterizer keeps the K nearest faces of each pixel in depth order", "statement": "For each pixel the K slots hold the K smallest (depth, face) hits in ascending order followed by -1, whatever order the faces are visited in.", "quantifier": "all face lists, hit patterns, depths and K", "why_tests_cant": "Every arrival order of hits.", "anchors": ["pytorch3d/csrc/rasterize_meshes/rasterize_meshes_cpu.cpp"]}
{"id": "C23", "title": "Point rasterizer keeps the K nearest points of each pixel in depth order", "statement": "For each pixel the K slots hold the K nearest points within the radius, sorted by depth, followed by -1.", "quantifier": "all clouds, radii, K", "why_tests_cant": "Every arrival order of hits.", "anchors": ["pytorch3d/csrc/rasterize_points/rasterize_points_cpu.cpp"]}
{"id": "C24", "title": "Coarse-to-fine rasterization finds every hit the naive rasterizer finds", "statement": "Every primitive that can contribute to a pixel is listed in the bin containing that pixel, so (absent overflow) the coarse-to-fine result equals the naive one.", "quantifier": "all image sizes (square or not), bin sizes and primitives", "why_tests_cant": "Geometric containment for all reals; non-square images.", "anchors": ["pytorch3d/csrc/rasterize_points/rasterize_points_cpu.cpp: RasterizePointsCoarseCpu", "pytorch3d/csrc/rasterize_meshes/rasterize_meshes_cpu.cpp: RasterizeMeshesCoarseCpu"]}
{"id": "C25", "title": "Barycentric coordinates used by the rasterizer", "statement": "Barycentric coordinates reconstruct the pixel, are all in [0,1] exactly inside the triangle, perspective correction yields the 3D barycentrics, clipping yields non-negative coordinates summing to one, and the backward routines are the derivatives.", "quantifier": "all triangles, pixels, depths", "why_tests_cant": "Identities over the reals.", "anchors": ["pytorch3d/csrc/utils/geometry_utils.h"]}
{"id": "C26", "title": "Pixel <-> NDC conversion", "statement": "Pixel centres are strictly increasing in NDC, symmetric about the image centre, lie strictly inside the NDC range, and the same spacing is used on both axes for non-square images.", "quantifier": "all image sizes", "why_tests_cant": "All sizes; off-by-half errors.", "anchors": ["pytorch3d/csrc/rasterize_points/rasterization_utils.h"]}
{"id": "C27", "title": "The GPU MinK structure keeps the K smallest keys", "statement": "After any sequence of insertions the structure holds the min(K,n) smallest keys with their values, and sort() puts them in ascending order.", "quantifier": "all insertion sequences and K", "why_tests_cant": "Unbounded histories.", "anchors": ["pytorch3d/csrc/utils/mink.cuh"]}
{"id": "C28", "title": "The GPU BitMask behaves as a 3-D array of independent bits", "statement": "After any sequence of set/unset/clear operations, get returns the last value written to that (y,x,d) cell and nothing else is affected.", "quantifier": "all sizes and all operation sequences", "why_tests_cant": "Unbounded histories and sizes.", "anchors": ["pytorch3d/csrc/rasterize_coarse/bitmask.cuh"]}
{"id": "C29", "title": "Point-to-segment and point-to-triangle distances are the true minima", "statement": "The returned squared distance equals the minimum over all points of the segment (triangle) of the squared distance to the query.", "quantifier": "all points, segments, triangles", "why_tests_cant": "Minimum over a continuum.", "anchors": ["pytorch3d/csrc/utils/geometry_utils.h: PointLineDistanceForward, PointTriangle3DDistanceForward"]}
{"id": "C30", "title": "pack_rectangles places all rectangles inside the sheet without overlap", "statement": "Every input rectangle gets a place inside the reported total size, possibly turned by 90 degrees, and no two rectangles overlap; pack_unique_rectangles gives equal identifiers the same place and marks the first occurrence.", "quantifier": "all lists of at least two rectangles with positive sizes", "why_tests_cant": "Greedy placement over unboundedly many inputs.", "anchors": ["pytorch3d/renderer/mesh/utils.py: pack_rectangles, _try_place_rectangle, pack_unique_rectangles"]}
{"id": "C31", "title": "Transform3d composition and inversion", "statement": "Transforming with a.compose(b,...) equals transforming with a, then b, ...; inverse() undoes the transform however it was composed; the closed-form inverses of Translate/Scale/Rotate agree with the matrix inverse; transform_normals preserves orthogonality to transformed tangents; indexing and stacking select/concatenate matrices.", "quantifier": "all composition trees, matrices, points", "why_tests_cant": "Unbounded composition trees over the reals.", "anchors": ["pytorch3d/transforms/transform3d.py"]}
{"id": "C32", "title": "Rotation conversions are mutually consistent", "statement": "quaternion_to_matrix yields a rotation and turns quaternion products into matrix products; matrix_to_quaternion inverts it on every rotation; quaternion_apply equals multiplying by the matrix; the fast and slow axis-angle paths agree; euler_angles_to_matrix and matrix_to_euler_angles are inverse away from gimbal lock; rotation_6d_to_matrix yields a rotation and inverts matrix_to_rotation_6d.", "quantifier": "all quaternions, rotation matrices, angles, conventions and batch sizes", "why_tests_cant": "Continuum with degenerate boundaries (angle 0, pi, gimbal lock).", "anchors": ["pytorch3d/transforms/rotation_conversions.py"]}
{"id": "C33", "title": "SO(3)/SE(3) exponential and logarithm", "statement": "hat/hat_inv are inverse and hat is the cross product; so3_exp_map yields a rotation fixing the axis and a one-parameter group; so3_log_map inverts it for angles below pi and so3_exp_map(so3_log_map(R)) = R for every rotation; so3_relative_angle is a symmetric distance, zero exactly for equal rotations; se3_exp_map yields a rigid transform, its inverse at the negated logarithm; se3_log_map undoes se3_exp_map and conversely at the default eps; the extrapolated acos is differentiable, strictly decreasing and equals acos inside the bounds.", "quantifier": "all logarithms, rotations, rigid transforms and bounds", "why_tests_cant": "Continuum, boundary eps.", "anchors": ["pytorch3d/transforms/so3.py", "pytorch3d/transforms/se3.py", "pytorch3d/transforms/math.py"]}
{"id": "C34", "title": "Camera projection and unprojection are inverse", "statement": "For every camera model, unproject_points(project(x) with depth) = x in both world and view coordinates; screen-space and NDC cameras describing the same camera project identically; NDC->screen and screen->NDC are inverse.", "quantifier": "all intrinsics, extrinsics, image sizes and visible points", "why_tests_cant": "Continuum of parameters.", "anchors": ["pytorch3d/renderer/cameras.py"]}
{"id": "C35", "title": "OpenCV conversion preserves the projection", "statement": "The cameras built from OpenCV parameters project every visible point to the same pixel as OpenCV does, and converting back returns the original parameters.", "quantifier": "all camera matrices, rotations, translations, image sizes, points", "why_tests_cant": "Continuum of parameters.", "anchors": ["pytorch3d/renderer/camera_conversions.py"]}
{"id": "C36", "title": "look_at rotations are rotations that look at the target", "statement": "look_at_view_transform returns a rotation and a translation that send the camera centre to the origin, the target to the positive z axis at its true distance and the up vector to the plane x=0 with y>0, whenever the camera is at least 1e-5 from the target and |up x direction| is at least 1e-5; camera_to_eye_at_up inverts it; rotate_on_spot turns a camera about its own centre.", "quantifier": "all camera positions, targets and up vectors", "why_tests_cant": "Continuum with degenerate cases.", "anchors": ["pytorch3d/renderer/cameras.py: look_at_rotation, look_at_view_transform, camera_position_from_spherical_angles", "pytorch3d/renderer/camera_utils.py: camera_to_eye_at_up, rotate_on_spot"]}
{"id": "C37", "title": "OBJ files survive a save/load round trip", "statement": "Loading what save_obj wrote returns the same faces exactly and the vertices rounded to the requested decimals; polygons are triangulated as fans; negative indices count from the end.", "quantifier": "all meshes, decimal places, face polygons", "why_tests_cant": "Unbounded inputs; formatting and parsing must be inverse for all numbers.", "anchors": ["pytorch3d/io/obj_io.py"]}
{"id": "C38", "title": "PLY files survive a save/load round trip and loading always terminates", "statement": "Loading a binary PLY written by save_ply returns the vertices bit for bit and the faces exactly; the reader rejects truncated files rather than looping; columns are assigned to x, y, z by name.", "quantifier": "all meshes, all byte sequences as input", "why_tests_cant": "All byte strings.", "anchors": ["pytorch3d/io/ply_io.py"]}
{"id": "C39", "title": "OFF files survive a save/load round trip, polygons become triangle fans, and loading terminates when the file has a line of counts", "statement": "Loading an OFF file written by the library returns the same faces, the vertices and per-vertex or per-face colours rounded to the decimals written; a file of polygons of any sizes loads as their triangle fans; loaded data have the documented shapes; the reader terminates on exactly those inputs in which a line of counts follows (on an empty or header-only file it loops for ever).", "quantifier": "all meshes, all byte sequences as input", "why_tests_cant": "All byte strings and all index magnitudes.", "anchors": ["pytorch3d/io/off_io.py"]}
{"id": "C40", "title": "IO: the last registered format that accepts a file wins", "statement": "load/save consult the interpreters in reverse registration order and use the first that accepts; unregistered files raise.", "quantifier": "all registration histories", "why_tests_cant": "Unbounded histories.", "anchors": ["pytorch3d/io/pluggable.py"]}
{"id": "C41", "title": "SubdivideMeshes splits every face into four and keeps meshes separate", "statement": "Each output mesh has V+E vertices and 4F faces, all indices are in range of their own mesh, the original vertices come first, and every output face consists of a corner and the two adjacent midpoints or of the three midpoints of an input face.", "quantifier": "all heterogeneous batches", "why_tests_cant": "Sorting/permutation bookkeeping over all ragged batches.", "anchors": ["pytorch3d/ops/subdivide_meshes.py"]}
{"id": "C42", "title": "cubify returns a closed, consistently oriented surface of the occupied voxels", "statement": "For every occupancy grid each directed edge of the result is matched by its reverse equally often, face indices are valid for the compacted vertex list, and a quad is emitted exactly for each occupied/empty voxel face.", "quantifier": "all grids, thresholds, batch sizes", "why_tests_cant": "2^(DHW) grids.", "anchors": ["pytorch3d/ops/cubify.py"]}
{"id": "C43", "title": "Splatting points into a volume conserves mass with non-negative weights", "statement": "Trilinear splatting of a point adds non-negative weights that sum to one when the point is inside the grid and adds nothing when it is outside; nearest mode adds one to one voxel; the backward pass is the derivative.", "quantifier": "all points (inside, outside, on the border), grid sizes and corner alignments", "why_tests_cant": "Continuum, borders rarely sampled.", "anchors": ["pytorch3d/csrc/points_to_volumes/points_to_volumes_cpu.cpp", "pytorch3d/ops/points_to_volumes.py"]}
{"id": "C44", "title": "Volumes coordinate conversions and indexing", "statement": "local_to_world and world_to_local are inverse; the coordinate grid places voxel i at the documented position for every grid of a ragged batch; indexing a batch keeps every property of the selected volumes; update_padded accepts the shapes features()/densities() return.", "quantifier": "all grid sizes, voxel sizes, translations, align_corners settings, indices", "why_tests_cant": "Ragged batches and flags combine unboundedly.", "anchors": ["pytorch3d/structures/volumes.py"]}
{"id": "C45", "title": "Emission-absorption raymarching is a partition of light", "statement": "The ray weights are non-negative and together with the transmitted remainder sum to one up to the stabiliser eps (exactly for eps = 0); opacity equals one minus the product of transmissions and lies in [0,1]; the absorption-only raymarcher returns the same opacity; the rendered feature is the weighted sum.", "quantifier": "all ray lengths and densities in [0,1]", "why_tests_cant": "Unbounded products.", "anchors": ["pytorch3d/renderer/implicit/raymarching.py"]}
{"id": "C46", "title": "The graph Laplacian rows", "statement": "The uniform Laplacian has -1 on the diagonal, 1/deg on edges and zero row sums on every non-isolated vertex, annihilates constants, and is determined by the edge set. The cotangent Laplacian is symmetric, holds on each edge the sum of the cotangents of the opposite angles, has non-negative row sums, and comes with one over the area of the triangles at each vertex. The norm Laplacian is symmetric and holds one over the length of each edge.", "quantifier": "all edge lists without repetition, all vertex lists and all face lists in range", "why_tests_cant": "All graphs.", "anchors": ["pytorch3d/ops/laplacian_matrices.py"]}
{"id": "C47", "title": "chamfer_distance is symmetric, non-negative and zero exactly on matching sets", "statement": "Swapping the clouds leaves the bidirectional loss unchanged, permuting points or changing padding leaves it unchanged, it is non-negative, and zero iff each cloud is contained in the other; the documented shapes are returned for all weights.", "quantifier": "all ragged batches, reductions and weights", "why_tests_cant": "All padding patterns and weights.", "anchors": ["pytorch3d/loss/chamfer.py"]}
{"id": "C48", "title": "LinearWithRepeat equals Linear on the repeated concatenation", "statement": "Applying the layer to (x, y) equals the ordinary linear layer applied to x concatenated with y repeated along the ray axis.", "quantifier": "all feature sizes, weights, inputs", "why_tests_cant": "Identity for all inputs.", "anchors": ["pytorch3d/common/linear_with_repeat.py"]}
{"id": "C49", "title": "HarmonicEmbedding output size and layout", "statement": "The output has get_output_dim entries, all sines come first then cosines, entries are bounded by one in magnitude, and the integrated version shrinks towards zero as the covariance grows.", "quantifier": "all input sizes, numbers of harmonics", "why_tests_cant": "All sizes.", "anchors": ["pytorch3d/renderer/implicit/harmonic_embedding.py"]}
{"id": "C50", "title": "SceneBatchSampler batches", "statement": "A batch never exceeds batch_size, never repeats a frame, and, with consecutive frames on, the frames of a sequence form a run inside one segment whose gaps respect the limits; the segments partition the sequence in order.", "quantifier": "all datasets, options and outcomes of the random choices", "why_tests_cant": "Random choices.", "anchors": ["pytorch3d/implicitron/dataset/scene_batch_sampler.py"]}
{"id": "C51", "title": "Stats / AverageMeter bookkeeping", "statement": "After any sequence of updates and epoch changes the running average is the weighted mean of the values since the last reset and the per-epoch averages are the means of the values of that epoch.", "quantifier": "all histories", "why_tests_cant": "Unbounded histories.", "anchors": ["pytorch3d/implicitron/tools/stats.py"]}
{"id": "C52", "title": "interpolate_face_attributes", "statement": "Background pixels get zero, other pixels get the barycentric combination (exact for affine attributes), and the backward pass is the derivative with respect to attributes and barycentrics.", "quantifier": "all pixel/face assignments, attributes, gradients", "why_tests_cant": "Identity for all inputs.", "anchors": ["pytorch3d/ops/interp_face_attrs.py", "pytorch3d/csrc/interp_face_attrs/interp_face_attrs.cu"]}
{"id": "C53", "title": "softmax_rgb_blend and hard_rgb_blend produce convex combinations", "statement": "The colour softmax_rgb_blend assigns to a pixel is a convex combination of the colours of the valid faces and the background; its alpha lies in [0,1]; it does not depend on shifting all inverse depths; a pixel without faces shows the background; hard_rgb_blend shows exactly the nearest face or the background.", "quantifier": "all numbers of faces per pixel, colours, depths, distances, sigma, gamma > 0 and backgrounds", "why_tests_cant": "Soft weights over an unbounded number of faces with a data-dependent maximum and clamp.", "anchors": ["pytorch3d/renderer/blending.py: softmax_rgb_blend, hard_rgb_blend"]}
{"id": "C54", "title": "Depths of ray samples are sorted and stratified", "statement": "The depths a ray sampler assigns to the points of a ray have the requested number, are non-decreasing and lie in [min_depth, max_depth]; with stratified sampling each jittered depth stays between the midpoints with its neighbours, whatever the random draws.", "quantifier": "all depth ranges, numbers of points and random draws in [0,1]", "why_tests_cant": "Random draws range over a continuum; only a theorem covers all of them.", "anchors": ["pytorch3d/renderer/implicit/raysampling.py: _xy_to_ray_bundle, _jiggle_within_stratas"]}
{"id": "C55", "title": "Implicitron raymarchers account for all light", "statement": "For both raymarchers (emission-absorption and cumulative sum) with unit surface thickness the weights are non-negative, sum to the reported opacity, which lies in [0,1]; depth is the weighted mean of lengths; without blend_output the rendered feature lies in the range of the sampled features and the background.", "quantifier": "all densities, features, sorted lengths, background opacities", "why_tests_cant": "Unbounded rays and real-valued inputs.", "anchors": ["pytorch3d/implicitron/models/renderer/raymarcher.py: AccumulativeRaymarcherBase.forward"]}
{"id": "C56", "title": "Grid-stride GPU kernels process every work item exactly once", "statement": "For any number of clouds, points per cloud, blocks and threads, the chunked loops of the per-point kernels (ball_query and the kernels that share the scheme) visit each valid (cloud, point) pair exactly once and no other pair, so results do not depend on the launch configuration.", "quantifier": "all batch sizes, cloud sizes, grid and block sizes", "why_tests_cant": "Tests use one launch configuration; coverage and exclusivity are arithmetic facts over all of them.", "anchors": ["pytorch3d/csrc/ball_query/ball_query.cu: BallQueryKernel"]}
{"id": "C57", "title": "Point helpers: masked_gather, wmean, local covariances", "statement": "masked_gather returns the indexed points and zeros for -1; wmean with non-negative weights summing to at least eps is the weighted mean and stays in the range of its inputs; per-point covariances are symmetric positive semidefinite.", "quantifier": "all clouds, index lists, weights, neighbourhoods", "why_tests_cant": "Real-valued, unbounded inputs.", "anchors": ["pytorch3d/ops/utils.py: masked_gather, wmean, get_point_covariances"]}
{"id": "C58", "title": "Batches of cameras can be indexed and joined", "statement": "cameras[index] holds exactly the cameras at the indexed positions with all their intrinsics, extrinsics, K and image sizes, succeeds for every in-range index, and join_cameras_as_batch concatenates: camera k of the c-th batch keeps every attribute at its shifted position. Calls that pass no overrides leave the object unchanged.", "quantifier": "all camera classes, batch sizes, integer, list and mask indices, lists of batches", "why_tests_cant": "Any combination of sizes and indices.", "anchors": ["pytorch3d/renderer/cameras.py: CamerasBase.__getitem__", "pytorch3d/renderer/camera_utils.py: join_cameras_as_batch"]}
{"id": "C59", "title": "Face areas, face normals and their gradients are exact", "statement": "mesh_face_areas_normals returns half the length of the edge cross product and the normalised cross product (with the 1e-6 floor) for every face; its backward is the gradient of any linear functional of areas and normals with respect to every vertex coordinate, also when many faces share vertices and additions happen in any order.", "quantifier": "all vertex positions, faces, upstream gradients and addition orders", "why_tests_cant": "Continuum of inputs; a wrong partial derivative hides in symmetric test meshes.", "anchors": ["pytorch3d/csrc/face_areas_normals/face_areas_normals_cpu.cpp", "pytorch3d/csrc/face_areas_normals/face_areas_normals.cu", "pytorch3d/ops/mesh_face_areas_normals.py"]}
{"id": "C60", "title": "Joining textured meshes into one scene keeps every texel", "statement": "After TexturesUV.join_scene, face k of mesh n is the corresponding face of the joined mesh, and a pixel of it with the same barycentric weights (summing to 1, uv inside the unit square) is given exactly the texel it had when mesh n was textured with its own map alone, whatever the map sizes, rotations chosen by the packing, shared maps, align_corners, padding mode and sampling mode. Exceptions: nearest sampling exactly halfway between two cells, fewer than two meshes (ValueError), and align_corners with a total size of 1 (ZeroDivisionError).", "quantifier": "all batches of at least two meshes with non-empty maps, all faces, all barycentric weights, all padding and sampling modes", "why_tests_cant": "Continuum of uv coordinates and unbounded sets of map sizes; packing may rotate a map and border handling only matters at the seams.", "anchors": ["pytorch3d/renderer/mesh/textures.py: TexturesUV.join_scene, _place_map_into_single_map, sample_textures", "pytorch3d/renderer/mesh/utils.py: pack_unique_rectangles"]}
{"id": "C61", "title": "Mesh losses are the documented means and do not depend on the pose", "statement": "mesh_edge_loss of a batch is the mean over its meshes of the mean, over every edge once, of (length - target)^2; mesh_laplacian_smoothing with uniform, cot and cotcurv is the mean over the meshes of the mean over the vertices of the length of the corresponding Laplacian step. Both leave the batch unchanged, are never negative, are zero exactly when every edge has the target length / every step is zero, do not change under rigid motions of meshes without isolated vertices, are 0 for a batch without faces, and any other method name raises ValueError.", "quantifier": "every Meshes object any history of constructors, queries and edits can give, every target length, every rigid motion", "why_tests_cant": "The loss of a batch depends on packed indices of all meshes at once and on cached state; tests compare a few random batches with a loop.", "anchors": ["pytorch3d/loss/mesh_edge_loss.py:mesh_edge_loss", "pytorch3d/loss/mesh_laplacian_smoothing.py:mesh_laplacian_smoothing", "pytorch3d/ops/laplacian_matrices.py"]}
{"id": "C62", "title": "Taubin smoothing smooths each mesh on its own and keeps its topology", "statement": "taubin_smoothing returns, for every mesh of the batch, the vertices after num_iter rounds of moving each vertex towards (factor lambda) and then away from (factor mu) the inverse-distance weighted mean of its neighbours, together with the unchanged faces; the meshes of a batch do not influence each other and the result moves along with a rigid motion of the input, if no vertex is isolated.", "quantifier": "every reachable Meshes object with three different corners in every face and no isolated vertex, every lambda, mu and number of iterations", "why_tests_cant": "An iteration of arbitrary length over packed data of meshes of different sizes; tests look at one or two meshes and a fixed number of iterations.", "anchors": ["pytorch3d/ops/mesh_filtering.py:taubin_smoothing", "pytorch3d/ops/laplacian_matrices.py:norm_laplacian"]}
{"id": "C63", "title": "The normal consistency loss counts every pair of faces that share an edge once and ignores how faces are listed", "statement": "mesh_normal_consistency returns, for every batch, the mean over the meshes of the mean over all pairs of faces sharing an edge of 1 - cos of the angle between their normals, the normals taken as if both faces were oriented consistently; edges with one face contribute nothing, edges with k faces contribute all k(k-1)/2 pairs, and meshes without shared edges count as zero rather than NaN. The value lies between 0 and 2, is zero exactly when all adjacent faces are coplanar and unfolded, and does not depend on rigid motion, face order, the corner a face starts with or its orientation.", "quantifier": "every Meshes object any history of constructor calls, queries and edits can give, every topology including non-manifold edges", "why_tests_cant": "Which faces are paired depends on a sort of packed edge indices and an arithmetic enumeration of pairs in groups of any size across meshes of any size; tests look at a few fixed meshes.", "anchors": ["pytorch3d/loss/mesh_normal_consistency.py:mesh_normal_consistency", "pytorch3d/csrc/mesh_normal_consistency/mesh_normal_consistency_cpu.cpp:MeshNormalConsistencyFindVertsCpu"]}
{"id": "C64", "title": "Marching cubes returns a consistently oriented mesh of the level set, with one vertex per crossed grid edge", "statement": "For every volume with at least two samples per axis whose crossings are not within the tolerance of a grid point, marching_cubes and marching_cubes_naive return one vertex for every pair of neighbouring samples on different sides of the isolevel, at the linearly interpolated place, and triangles such that every directed side occurs once, its reverse occurs exactly when the side does not run in the outer boundary of the grid, and triangles wind the same way around the samples below the level. A level set away from the outer boundary therefore gives a closed surface. Both implementations return the same lists (volumes up to 2^24 samples). For arbitrary samples indices are valid, every vertex is used and no triangle has coinciding corners. With return_local_coords the vertices are mapped to [-1, 1]; without isolevel the level is the mid-range.", "quantifier": "every grid size, every field on it, every isolevel, every batch, both implementations", "why_tests_cant": "Neighbouring cells must agree on the diagonal of an ambiguous square for all 256 x 256 configurations and any grid; tests compare a few small volumes with stored meshes.", "anchors": ["pytorch3d/ops/marching_cubes.py:marching_cubes", "pytorch3d/ops/marching_cubes.py:marching_cubes_naive", "pytorch3d/ops/marching_cubes_data.py", "pytorch3d/csrc/marching_cubes/marching_cubes_cpu.cpp:MarchingCubesCpu", "pytorch3d/csrc/marching_cubes/tables.h", "pytorch3d/csrc/marching_cubes/marching_cubes_utils.h"]}
{"id": "C65", "title": "The block reductions of the CUDA kernels find the extreme value for every schedule of the threads", "statement": "The shared-memory arg-min (point-to-mesh kernels) and arg-max reduction of a block of 64 * 2^k threads leave in cell 0 the smallest (largest) of the values the threads found, together with an index of one thread that found it, whatever the order of the single loads and stores between two barriers and although the last steps are not separated by a barrier and race.", "quantifier": "every block size 64 * 2^k, every contents of the cells, every interleaving of the threads' loads and stores", "why_tests_cant": "The interleaving is chosen by the hardware; a test run sees one of them.", "anchors": ["pytorch3d/csrc/utils/warp_reduce.cuh:WarpReduceMin", "pytorch3d/csrc/utils/warp_reduce.cuh:WarpReduceMax", "pytorch3d/csrc/point_mesh/point_mesh_cuda.cu:DistanceForwardKernel"]}
{"id": "C66", "title": "Point-to-mesh distances are the mean distances to the nearest edge or face in both implementations, with their gradients", "statement": "point_mesh_edge_distance and point_mesh_face_distance of batches in any state of use return the mean over the batch of the mean over the points of the distance to the nearest edge (face) of their mesh plus the mean over the edges (faces) of the distance to the nearest point of their cloud; different batch sizes raise. The CUDA kernels give this for every order of blocks and threads, also with empty elements; the CPU kernels when no cloud and no mesh of the batch is empty. The loss is non-negative, and the edge loss is zero exactly when every point lies on an edge and every edge goes through a point. The backward kernels add up, in every order of the atomic additions, the gradient of the weighted sum of the distances.", "quantifier": "every pair of batches with any history of accesses, every number of points, edges and faces, every schedule of blocks, threads and atomic additions", "why_tests_cant": "Batching mistakes show only for particular group sizes, and the schedule of the GPU cannot be enumerated.", "anchors": ["pytorch3d/loss/point_mesh_distance.py:point_mesh_edge_distance", "pytorch3d/loss/point_mesh_distance.py:point_mesh_face_distance", "pytorch3d/csrc/point_mesh/point_mesh_cpu.cpp:HullHullDistanceForwardCpu", "pytorch3d/csrc/point_mesh/point_mesh_cpu.cpp:HullHullDistanceBackwardCpu", "pytorch3d/csrc/point_mesh/point_mesh_cuda.cu:DistanceForwardKernel", "pytorch3d/csrc/point_mesh/point_mesh_cuda.cu:DistanceBackwardKernel"]}
{"id": "C67", "title": "sample_points_from_meshes samples the surface of each mesh by area, uniformly inside each face", "statement": "For a batch in any state of use, every sample returned for a mesh lies in a face of positive area of that same mesh, as a convex combination of its corners; its normal is the unit normal of that face and its vertex texture the same combination of the corners' features; meshes without faces get rows of zeros. Faces are drawn with their areas as weights, and a uniform pair of random numbers gives a uniform point of the face. Batches without faces, missing textures, zero samples and meshes of total area zero raise.", "quantifier": "every batch and history, every number of samples, everything multinomial and rand may return", "why_tests_cant": "The samples are random: a test sees a few draws, and a wrong offset between the faces of different meshes shows only in some batches.", "anchors": ["pytorch3d/ops/sample_points_from_meshes.py:sample_points_from_meshes", "pytorch3d/ops/sample_points_from_meshes.py:_rand_barycentric_coords"]}
{"id": "C68", "title": "corresponding_points_alignment returns the best rigid or similarity transform", "statement": "For two batches of corresponding clouds (tensors or Pointclouds, padding ignored) and weights 0 or 1, the returned transform of each pair is of the requested kind (rotation unless reflections are allowed, scale 1 unless estimated) and no transform of that kind has a smaller sum of squared errors; if the clouds are related by such a transform, every weighted point is mapped to its partner. For other weights the centres of mass correspond. Batches of different sizes and weights of the wrong shape raise ValueError.", "quantifier": "every batch size, number of points, weights, scale and reflection option, every singular value decomposition torch.svd may return", "why_tests_cant": "Optimality compares the result with infinitely many transforms; degenerate clouds, reflections and non-unique decompositions are seldom in a test.", "anchors": ["pytorch3d/ops/points_alignment.py:corresponding_points_alignment", "pytorch3d/ops/utils.py:wmean"]}
{"id": "C69", "title": "iterative_closest_point alternates nearest neighbours and best fits, and its error never grows", "statement": "Starting from the initial transform, every recorded transform is the best fit of the cloud to the nearest neighbours of its previous image, rmse is the root mean squared error of the last fit, the loop stops at the first iteration in which every error decreased by at most the threshold, and it converged exactly then. No cloud's error grows along the run, so allowing more iterations never gives a larger rmse and changes nothing after convergence. Mismatching batches or initial transforms raise ValueError.", "quantifier": "every pair of batches with uneven sizes, every initial transform, threshold and number of iterations", "why_tests_cant": "Monotonicity is about all iterations of all runs; tests run the loop on a few clouds.", "anchors": ["pytorch3d/ops/points_alignment.py:iterative_closest_point", "pytorch3d/ops/points_alignment.py:_apply_similarity_transform"]}
{"id": "C70", "title": "symeig3x3 returns an orthonormal basis and ordered, accurate eigenvalues", "statement": "For every 3x3 matrix the three vectors returned by symeig3x3 are orthonormal, whichever of several extremal entries argmax and argmin choose. The eigenvalues are ascending and sum to the trace; for a diagonal matrix they are its sorted diagonal, and for a symmetric matrix whose part outside of the diagonal is at least eps they differ from the true eigenvalues by at most a small multiple of the spread. (The vectors are only approximately eigenvectors: the regularisation tilts them.)", "quantifier": "every 3x3 matrix, every choice of argmax and argmin among ties, every eps", "why_tests_cant": "Degenerate spectra, ties and nearly diagonal matrices form thin sets that random tests miss; the error bound is about all matrices.", "anchors": ["pytorch3d/common/workaround/symeig3x3.py:symeig3x3", "pytorch3d/common/workaround/symeig3x3.py:_Symeig3x3"]}
{"id": "C71", "title": "Estimated normals are those of the best-fitting planes of the nearest neighbours", "statement": "estimate_pointcloud_local_coord_frames returns an orthonormal frame for every point of every cloud, with either eigenvalue solver, left-handed if directions are disambiguated. With torch.linalg.eigh the frame of a point is that of its K nearest neighbours in its own cloud: the plane through their centroid with the first axis as normal has the smallest mean squared distance to them, the one with the third axis the largest, and the curvatures are these distances in ascending order. Where a strict majority of the neighbours lies on one side, the axis points to it, whatever sign the solver chose; in flat neighbourhoods the sign stays the solver's. The normals are the first axes. Clouds not larger than the neighbourhood and points that are not 3-dimensional raise ValueError.", "quantifier": "every batch of clouds of uneven sizes, every neighbourhood size, every legal eigenvalue solver, both solver and disambiguation options", "why_tests_cant": "Optimality compares with all planes, and solver signs, ties and padding are not under the control of a test.", "anchors": ["pytorch3d/ops/points_normals.py:estimate_pointcloud_normals", "pytorch3d/ops/points_normals.py:estimate_pointcloud_local_coord_frames", "pytorch3d/ops/utils.py:get_point_covariances"]}
{"id": "C72", "title": "Clipping at the near plane keeps exactly the visible part of every face and maps hits back to it", "statement": "After clip_faces, the faces derived from an unculled face cover exactly the points of that face that are not behind z_clip_value (in world coordinates also when x and y were projected), are oriented like it, stay in the order of the faces and in their mesh, and name each other as neighbours if there are two of them. Culled faces leave nothing. convert_clipped_rasterization_to_original_faces turns a hit on a clipped face into a hit on the face it came from, at the same point of space, with coordinates of the same sum and still non-negative if they were; empty pixels stay empty. If nothing is behind the plane or culled the batch is returned as it is. A batch whose last mesh is empty raises IndexError when something has to be clipped.", "quantifier": "every batch of meshes, every frustum with a non-zero clipping depth, every hit", "why_tests_cant": "The four ways a triangle meets the plane combine freely over a batch, offsets depend on all preceding faces, and equality of regions is about every point.", "anchors": ["pytorch3d/renderer/mesh/clip.py:clip_faces", "pytorch3d/renderer/mesh/clip.py:convert_clipped_rasterization_to_original_faces", "pytorch3d/renderer/mesh/clip.py:_get_culled_faces"]}
{"id": "C73", "title": "Subdivision keeps closed surfaces closed; ico_sphere and torus are closed, consistently oriented surfaces of the promised shape", "statement": "Call a mesh a closed surface when every directed side of a face has two different ends, belongs to exactly one face, and its reverse belongs to a face too (no boundary, consistent orientation). Subdividing a batch with SubdivideMeshes turns every closed surface in it, without a face present in both orientations, into a closed surface with the same Euler characteristic V - E + F. ico_sphere(level) is for every level >= 0 a closed surface with 10*4^level+2 vertices, 20*4^level faces and Euler characteristic 2, whose faces all face outward and whose vertices have norm 1 (for level 0 up to the rounding of the constants); from level 1 on the vertices of a level are the first vertices of the next one. torus(r, R, sides, rings) with at least three sides and rings is a closed surface with sides*rings vertices, 2*sides*rings faces and Euler characteristic 0, and all vertices lie at distance r from the circle of radius R. A negative level, and non-positive sides or rings, raise ValueError.", "quantifier": "all batches of meshes reachable by any use of Meshes, all subdivision levels, all numbers of sides and rings, all radii", "why_tests_cant": "Tests check levels up to 3 or one torus against stored numbers; closedness and unit norm for every level need an induction over the levels, with an invariant showing that no edge midpoint is the origin.", "anchors": ["pytorch3d/utils/ico_sphere.py:ico_sphere", "pytorch3d/utils/torus.py:torus", "pytorch3d/ops/subdivide_meshes.py:SubdivideMeshes.forward"]}
{"id": "C74", "title": "Ray samplers shoot every ray from its own camera through its own pixel", "statement": "For cameras with proper intrinsics and invertible R, every ray a sampler returns carries an image location xy, and camera i of the batch sees all points origin + z * direction of its rays exactly at xy; for perspective cameras the origin is the camera centre, and z is the depth in front of the camera (with unit directions and orthogonal R: the distance from the origin). Projecting such a point with the camera's transform_points_ndc returns xy. Grid entry (i, j) of NDCMultinomialRaysampler is the centre of pixel (i, j) for every image size. Without counts and masks the whole grid is returned for every camera in order; with n_rays_per_image exactly n grid entries per camera, of positive mask weight and distinct when there are enough of them; with masks in [0, 1] and no count, as many distinct entries as the emptiest mask holds. With n_rays_total exactly n rays come back, grouped by camera in increasing order, as many for each camera as it was drawn, each generated by that camera of the original batch. MonteCarloRaysampler draws inside its rectangle. Both counts at once raise ValueError; more rays per image than grid entries is an error.", "quantifier": "all camera batches of the four classes in NDC or screen space, all image sizes, grids, masks and counts, all outcomes of the random draws", "why_tests_cant": "Tests compare a few random batches; that every ray, for every camera class, screen-space convention and outcome of the draws, passes through its pixel, and that packing by camera never mixes cameras up, is a statement about all of them.", "anchors": ["pytorch3d/renderer/implicit/raysampling.py:MultinomialRaysampler.forward", "pytorch3d/renderer/implicit/raysampling.py:NDCMultinomialRaysampler", "pytorch3d/renderer/implicit/raysampling.py:MonteCarloRaysampler.forward", "pytorch3d/renderer/implicit/raysampling.py:_xy_to_ray_bundle", "pytorch3d/renderer/implicit/raysampling.py:_safe_multinomial", "pytorch3d/renderer/implicit/raysampling.py:_pack_ray_bundle", "pytorch3d/renderer/implicit/utils.py:ray_bundle_to_ray_points"]}
{"id": "C75", "title": "Cropping and resizing a frame keeps pixels and camera consistent", "statement": "Cropping a frame by a box (with context) leaves a window inside the picture that contains every pixel wholly inside the asked-for box and only pixels whose centre lies in it; the image, the foreground mask and depth maps of the image's resolution become exactly that window, bbox_xywh / crop_bbox report it, and the camera shows every 3D point at its old pixel location minus the window's corner. After any sequence of crops the picture is one window of the original with the camera shifted by the same integers; after any sequence of crops and resizes the camera's picture is the original one scaled by one positive factor and shifted. Resizing fills as much of the new frame as fits with its aspect ratio, pads with black, marks exactly the filled part in the mask, and scales the camera by min(h/H, w/W), within one pixel of the scale of the rows and columns. The metadata box can only be applied to an untouched frame. get_bbox_from_mask returns the tight box of the pixels above the first lowered threshold that at least two pixels exceed.", "quantifier": "all frames, images, masks, boxes, contexts, cameras, interpolation functions and sequences of crops and resizes", "why_tests_cant": "Tests crop a few images; that camera and pixels stay in step for every box, rounding and history of edits ranges over all of them.", "anchors": ["pytorch3d/implicitron/dataset/frame_data.py:FrameData.crop_by_metadata_bbox_", "pytorch3d/implicitron/dataset/frame_data.py:FrameData._crop_by_bbox_", "pytorch3d/implicitron/dataset/frame_data.py:FrameData.resize_frame_", "pytorch3d/implicitron/dataset/utils.py:get_bbox_from_mask", "pytorch3d/implicitron/dataset/utils.py:crop_around_box", "pytorch3d/implicitron/dataset/utils.py:clamp_box_to_image_bounds_and_round", "pytorch3d/implicitron/dataset/utils.py:get_clamp_bbox", "pytorch3d/implicitron/dataset/utils.py:rescale_bbox", "pytorch3d/implicitron/dataset/utils.py:resize_image", "pytorch3d/implicitron/dataset/utils.py:adjust_camera_to_bbox_crop_", "pytorch3d/implicitron/dataset/utils.py:adjust_camera_to_image_scale_"]}
{"id": "C76", "title": "Aligning corresponding cameras applies one best similarity transform", "statement": "corresponding_cameras_alignment returns the source cameras with R and T replaced by (R_A R_i, T_A R_i + s_A T_i) for one similarity (R_A, T_A, s_A) and everything else kept, so aligned camera i sees a point x where source camera i sees (x R_A + T_A) / s_A. In mode extrinsics R_A is orthogonal and minimises the sum of squared differences between aligned and target rotations, and (T_A, s_A) minimises that of the translations (s_A = 1 without estimate_scale); cameras that differ by such a transform are aligned exactly. In mode centers R_A is a proper rotation and the camera centres are moved by the similarity (without reflection) that fits them best to the target centres. Different numbers of cameras and unknown modes raise ValueError.", "quantifier": "all batches of cameras with orthogonal R, all modes, both settings of estimate_scale, all eps, all singular value decompositions torch.svd may return", "why_tests_cant": "Tests align a few random batches; optimality is a comparison with all transforms and holds for every batch and every choice of singular vectors.", "anchors": ["pytorch3d/ops/cameras_alignment.py:corresponding_cameras_alignment", "pytorch3d/ops/cameras_alignment.py:_align_camera_centers", "pytorch3d/ops/cameras_alignment.py:_align_camera_extrinsics"]}
{"id": "C77", "title": "Lighting follows Lambert's and Phong's laws at every point", "statement": "The diffuse function, and the diffuse method of DirectionalLights and PointLights, give at every point the light's colour times the cosine between normal and light direction, clamped at zero; the specular function and methods give the colour times the cosine between the viewer and the mirrored light direction to the power of the shininess, and only where the light is in front of the surface. Normals and directions need not have unit length. Both results lie between black and the light's colour, are black when the light is behind the surface, and are the full colour exactly when the light lies on the normal, or the viewer on the mirrored ray. Rotating or reflecting and moving the whole scene changes nothing. Properties may be shared or given per batch element, also in the constructors of the lights. Points and normals of different shapes raise ValueError.", "quantifier": "all batch sizes, all intermediate dimensions, all points, normals, lights, camera positions and shininess values, shared or per element", "why_tests_cant": "Tests compare a handful of angles; the laws and the invariance under motions are about all geometries and all broadcasts.", "anchors": ["pytorch3d/renderer/lighting.py:diffuse", "pytorch3d/renderer/lighting.py:specular", "pytorch3d/renderer/lighting.py:DirectionalLights", "pytorch3d/renderer/lighting.py:PointLights", "pytorch3d/renderer/lighting.py:AmbientLights", "pytorch3d/renderer/utils.py:convert_to_tensors_and_broadcast"]}
{"id": "C78", "title": "Shaders colour every pixel by the laws of lighting of the surface point it shows", "statement": "phong_shading gives a pixel (ambient + diffuse) times its texel plus specular, where diffuse and specular are those of the position and normal interpolated over the pixel's face, under the lights and the camera of the pixel's own image; flat_shading does so with the face's centroid and normal; gouraud_shading lights every vertex with the lights, camera and material of its own mesh, for meshes of any sizes in the batch, and interpolates the resulting colours. Pixels that show no face keep the ambient part (phong, flat) or are black (gouraud). Other textures than per-vertex ones raise ValueError in gouraud_shading.", "quantifier": "all batches of meshes, all fragment maps, all lights, cameras and texels, shared materials (phong, flat) or per-mesh ones (gouraud)", "why_tests_cant": "Tests render a sphere or a square and compare images; the claim is about every pixel of every batch, in particular which mesh's light and camera reaches it.", "anchors": ["pytorch3d/renderer/mesh/shading.py:phong_shading", "pytorch3d/renderer/mesh/shading.py:flat_shading", "pytorch3d/renderer/mesh/shading.py:gouraud_shading", "pytorch3d/renderer/mesh/shading.py:_apply_lighting", "pytorch3d/ops/interp_face_attrs.py:interpolate_face_attributes"]}
{"id": "C79", "title": "Batched properties are read and written element by element, and clones are independent", "statement": "Objects that hold batched tensor properties (lights, materials, cameras) broadcast their arguments: every argument has one row or as many as the object, element i shows row i or the only row, and other combinations raise ValueError. obj[i].name and obj[a:b].name read elements; what is assigned through them is read back. clone gives an object that shows the same and is independent of everything else under every later sequence of operations: nothing done to other objects or to the user's tensors changes the clone, nothing done to the clone changes them, and an assignment to one element of a clone changes no other element or property. gather_props makes element b the old element idx[b] and keeps single-row properties.", "quantifier": "all programs (sequences of constructions, element assignments, clones, gathers and in-place changes of the user's tensors), all shapes, all indices and slices", "why_tests_cant": "Independence is a statement about all later histories and about sharing of memory, which a test only sees for the elements it happens to look at.", "anchors": ["pytorch3d/renderer/utils.py:TensorProperties", "pytorch3d/renderer/utils.py:TensorAccessor", "pytorch3d/renderer/utils.py:convert_to_tensors_and_broadcast", "pytorch3d/renderer/utils.py:format_tensor"]}
{"id": "C80", "title": "Image features are sampled from the vertex's own image at the vertex's own position", "statement": "vert_align returns, for every vertex, the channels of all feature maps of the image with the vertex's batch index, in order, sampled at the vertex's x and y; for meshes of different sizes the packed result has exactly one row per vertex in packed order. At the centre of a pixel the sample is that pixel for every padding mode, interpolation mode and align_corners setting; between pixels bilinear sampling reproduces affine images exactly, and samples never leave the range of the image where padding with zeros does not enter. ndc_grid_sample at the NDC position that the rasterizers use for the centre of a pixel returns that pixel, for images of any height and width. Wrong ranks and batch sizes raise ValueError.", "quantifier": "all batches of meshes, clouds and tensors, all lists of feature maps, all image sizes, all positions and all modes", "why_tests_cant": "Tests compare with a second call of grid_sample on a few random batches; the position conventions and the packed order are claims about all sizes and aspect ratios.", "anchors": ["pytorch3d/ops/vert_align.py:vert_align", "pytorch3d/renderer/utils.py:ndc_grid_sample", "pytorch3d/renderer/utils.py:ndc_to_grid_sample_coords"]}
{"id": "C81", "title": "The splatting blender mixes only the colours around a pixel, in proportion to its opacity", "statement": "SplatterBlender returns an opacity between 0 and 1 for every pixel, 0 exactly where no layer of the pixel or of its eight neighbours is covered; there the colour is exactly the background colour. Every other colour is a mixture, in proportion to the opacity, of colours seen in those nine pixels and of the background, so it never leaves their range, and no pixel further away influences it. With a single layer the result is a 3x3 Gaussian filter over the covered pixels, normalised only where it exceeds full opacity; inside a surface of constant depth it is opaque and the Gaussian average for any number of layers. Mirroring a single-layer scene mirrors its picture. A standard deviation that is not positive raises ValueError.", "quantifier": "all image sizes, numbers of layers, colours, depths, masks, background colours and standard deviations", "why_tests_cant": "Tests check the helper functions separately on small tensors; that the helpers agree on which neighbour a direction means, and that the composition never leaves the colour range, are claims about all scenes.", "anchors": ["pytorch3d/renderer/splatter_blend.py:SplatterBlender", "pytorch3d/renderer/splatter_blend.py:_compute_occlusion_layers", "pytorch3d/renderer/splatter_blend.py:_offset_splats", "pytorch3d/renderer/splatter_blend.py:_normalize_and_compose_all_layers"]}
{"id": "C82", "title": "Depth errors count only valid pixels and do not depend on the unit of the predicted depth", "statement": "eval_depth returns two errors that are never negative. Pixels within the cropped border, outside of the mask or without true depth have no influence on them. Without scaling, the square error is zero exactly when the prediction is right at every valid pixel. With get_best_scale no rescaling of the prediction has a smaller square error than the reported one, the result does not change when the prediction is multiplied by a constant, and a prediction that is right up to a factor has no error, as long as the mean square of the masked prediction is at least the clamping threshold; below it these claims are false.", "quantifier": "all image sizes, crops, predicted and true depths, masks, thresholds and scale factors", "why_tests_cant": "Tests compare a few random depth maps; optimality over every scale factor and independence of the ignored pixels range over all real maps.", "anchors": ["pytorch3d/implicitron/tools/metric_utils.py:eval_depth", "pytorch3d/implicitron/tools/metric_utils.py:estimate_depth_scale_factor"]}
{"id": "C83", "title": "Image metrics rank predictions, ignore masked pixels and have the promised range", "statement": "calc_mse, rgb_l1 and iou ignore whatever is outside of their mask, and a mask of ones changes nothing. The mean square error is zero exactly when the tensors agree under the mask. A smaller mean square error never gives a smaller PSNR, the PSNR is at most 100, and 100 for identical tensors. The IoU of tensors in [0,1] is in [0,1), symmetric, and for binary masks it is the number of common over the number of covered pixels, up to the constant in the divisor; the loss of a right nonempty mask is below 1/10000. rgb_l1 without a mask is the mean absolute error times the number of channels (the documentation promises the mean). huber never decreases with the error and stays within 6/100000 scalings of the distance.", "quantifier": "all finite index sets, tensors, masks, batch sizes and channel counts", "why_tests_cant": "Tests evaluate the metrics on a handful of tensors; ordering, ranges and mask independence are statements about every pair of tensors.", "anchors": ["pytorch3d/implicitron/tools/metric_utils.py:calc_mse", "pytorch3d/implicitron/tools/metric_utils.py:calc_psnr", "pytorch3d/implicitron/tools/metric_utils.py:rgb_l1", "pytorch3d/implicitron/tools/metric_utils.py:iou", "pytorch3d/implicitron/tools/metric_utils.py:neg_iou_loss", "pytorch3d/implicitron/tools/metric_utils.py:huber"]}
{"id": "C84", "title": "Cross entropies are balanced, never negative and ignore masked predictions", "statement": "log_lerp equals the logarithm from its bound on, is never below it, never decreases and has a slope of at most 1/bound. With equal_w, calc_bce gives foreground and background the same total weight whatever their sizes, and no weight outside of the mask. The loss is never negative, predictions outside of the mask have no influence on it, and with the default clamp it accepts every real prediction. With pred_logits the default clamp is applied to the logits as well, so a larger right logit need not lower the loss. beta_prior is never negative, zero exactly for binary predictions, and raises ValueError exactly for a cap that is not positive.", "quantifier": "all finite index sets, predictions, targets, masks, bounds and caps", "why_tests_cant": "Tests evaluate the losses on a few tensors; balance, sign and mask independence are claims about every tensor, and the slope bound about every pair of reals.", "anchors": ["pytorch3d/implicitron/tools/metric_utils.py:calc_bce", "pytorch3d/implicitron/tools/metric_utils.py:binary_cross_entropy_lerp", "pytorch3d/implicitron/tools/metric_utils.py:log_lerp", "pytorch3d/implicitron/tools/metric_utils.py:beta_prior"]}
{"id": "C85", "title": "Rays cast as cones get the true mean and variances of the pieces of the cone", "statement": "For a bundle with bins and radii, conical_frustum_to_gaussian gives for every interval between consecutive bins the mean and the variance of each coordinate of a point drawn uniformly from the piece of the cone around the ray between those bins. The mean is a point of the ray inside of the interval beyond its middle, and no variance is negative. An interval without extent gives the disk of the cone, and only the interval [0, 0] gives no number. Bundles without bins or radii raise ValueError. The moments are wrong for direction vectors shorter than a thousandth. The lengths of a bundle with bins are the middles of its bins and cannot be set; without bins the lengths are those set last.", "quantifier": "all bins, radii, origins, directions and numbers of intervals", "why_tests_cant": "Tests compare with the same closed formulas on a few numbers; that the formulas are the moments of the cone is a statement about integrals over every cone.", "anchors": ["pytorch3d/implicitron/models/renderer/base.py:conical_frustum_to_gaussian", "pytorch3d/implicitron/models/renderer/base.py:approximate_conical_frustum_as_gaussians", "pytorch3d/implicitron/models/renderer/base.py:compute_3d_diagonal_covariance_gaussian", "pytorch3d/implicitron/models/renderer/base.py:ImplicitronRayBundle"]}
{"id": "C86", "title": "Refined rays are sorted, stay in range and keep the points they had", "statement": "RayPointRefiner succeeds for every ray with enough sorted depths and nonnegative weights. The refined depths are sorted; they are the old ones and n_pts_per_ray new ones (one more for bins), or only the new ones without add_input_samples, and no new depth leaves the range of the old ones. With add_input_samples the first and last depth stay; otherwise, without bins, the new depths keep half a step from the ends. Blurred weights have the length of the weights, are never below them and never above their neighbourhood. The call's blurpool_weights argument has no effect. In a multi-pass rendering of any number of passes, every pass evaluates its own function on sorted depths of the same ray within the first depths, with all depths of the first pass kept, or the refined ones only, as set.", "quantifier": "all numbers of points and passes, depths, weights, random draws, settings and implicit functions", "why_tests_cant": "Tests sample a few rays; order, range and inclusion over any number of passes and any random draw are invariants of the recursion.", "anchors": ["pytorch3d/implicitron/models/renderer/ray_point_refiner.py:RayPointRefiner", "pytorch3d/implicitron/models/renderer/ray_point_refiner.py:apply_blurpool_on_weights", "pytorch3d/implicitron/models/renderer/multipass_ea.py:MultiPassEmissionAbsorptionRenderer"]}
{"id": "C87", "title": "Batches of a data loader hold the frames their conditioning type promises", "statement": "A data loader of the sequence provider gives batches of exactly the batch size. With TRAIN conditioning each batch is one frame of the dataset followed by different frames of the training set; with KNOWN conditioning it is one unseen frame followed by different known frames; with SAME conditioning and no number of batches no frame comes twice in an epoch and there are floor(n / batch size) batches; a given number of batches is the number of batches. A double pool without replacement visits every first frame once per epoch, and for m batches floor(m / n) times or once more. Evaluation batches pass through unchanged, and combinations that cannot fill a batch are refused.", "quantifier": "every dataset, every mixture of known and unseen frames, batch size, number of batches, conditioning type and every outcome of the random generator", "why_tests_cant": "A unit test sees a few random draws on a few datasets; the counts and the separation of the pools must hold for every outcome of the generator and every size.", "anchors": ["pytorch3d/implicitron/dataset/data_loader_map_provider.py: DoublePoolBatchSampler, SequenceDataLoaderMapProvider._make_data_loader, _simple_loader, _train_loader, _known_loader; SimpleDataLoaderMapProvider"]}
{"id": "C88", "title": "Rays find the surface of a signed distance function", "statement": "The ray tracer gives one result per ray: whether a surface was found, its distance, and the point on the ray at that distance. Only rays whose line enters the bounding sphere are traced, over the part of the sphere in front of the camera. A ray's result does not depend on the other rays of the batch. Where a surface is found the function is at most the threshold there or changes sign around it. For a function that changes no faster than distance, no surface lies before a converged result, a sampled result is within one sampling step of a surface, and an object at least one sampling step thick along the ray is always found. In training, rays without a found object surface get the candidate of least value, and rays past the sphere the point nearest to its centre.", "quantifier": "every function on points, every batch of rays, every setting of radius, threshold, numbers of iterations and samples, and every outcome of the random generator", "why_tests_cant": "Convergence, non-skipping and independence of rays are statements about all functions and all interleavings of finished and unfinished rays in a batch; a test tries a few analytic shapes.", "anchors": ["pytorch3d/implicitron/models/renderer/ray_tracing.py: RayTracing.forward, sphere_tracing, ray_sampler, secant, minimal_sdf_points, _get_sphere_intersection"]}
{"id": "C89", "title": "A texture atlas shows the image on every face", "statement": "The atlas of a mesh has one square map per face. A face shows the image of its material, else the diffuse colour of its material, else white. Each cell of a map stands for exactly one of the equal small triangles the face is cut into, and holds the colour that a UV texture of the same image shows at that triangle's centroid. Reading the atlas at a point of a face off the edge opposite its last vertex gives the cell of the small triangle that contains the point, and reading at a cell's centroid gives that cell. Pixels without a face are black. Under repeat or clamp the coordinates are in [0, 1], unchanged if they were, and the colours stay within the range of the image.", "quantifier": "every mesh, every set of materials and images, every texture size, every point of a face and every wrapping mode", "why_tests_cant": "The cutting into cells and the choice of a cell depend on rounding of every point at every texture size; a test tries a few sizes and points and misses the edge where the choice goes wrong.", "anchors": ["pytorch3d/io/mtl_io.py: make_mesh_texture_atlas, make_material_atlas, _bilinear_interpolation_grid_sample", "pytorch3d/renderer/mesh/textures.py: TexturesAtlas.sample_textures"]}
{"id": "C90", "title": "Fisheye cameras project as documented and unproject what they project", "statement": "All points of a line through the camera's centre have the same image. Off the optical axis the image is the documented one: the radial polynomial of the angle to the axis, plus the tangential and thin-prism terms, times the focal length, from the principal point; on the axis it is the principal point. Unprojecting undoes the distortion with its exact derivative, and stops only where the distortion is the one wanted. For radial parameters that are not negative the angle is found from above, within a bound that shrinks at every step. With no tangential or thin-prism distortion, unprojecting the image of a point off the axis gives a point in the same direction on the plane z = 1 at that angle, and exactly the point scaled to z = 1 if there is no radial distortion.", "quantifier": "every camera with six radial parameters and every point in front of or behind it", "why_tests_cant": "Convergence of the two Newton iterations and the round trip are claims about all parameters and all angles; tests try a few cameras and miss the principal point and the cameras without radial distortion.", "anchors": ["pytorch3d/renderer/fisheyecameras.py: FishEyeCameras.transform_points, unproject_points, _project_points_batch, _unproject_points_batch, _compute_xr_yr_from_uv_distorted, _get_theta_from_norm_xr_yr, _compute_duv_distorted_dxryr"]}
{"id": "C91", "title": "Circle fitting returns the best circle, recovers exact circles and follows the direction of the points", "statement": "With at least three points fit_circle_in_2d always returns a circle, with fewer it raises ValueError. No circle has a smaller sum of squared misfits of the squared radius, and the squared radius is the mean squared distance to the centre. Points of a circle, not all on a line, give back its centre and radius, in any order. One point per requested angle is generated, on the circle; that of angle zero is the point of the circle nearest to the first input point, and the others turn from there in the direction of the sign of the area of the closed polygon of inputs. In space, the plane of fit_circle_in_3d is the nearest of all planes through the mean of the points, the generated points lie on the circle in that plane, lifted by the offset to the side of up, and points of a circle give back its centre, radius and normal up to sign.", "quantifier": "every list of points, every number or list of angles, every offset, every least-squares solver and eigenvector routine keeping their contracts", "why_tests_cant": "Optimality is over all circles and planes, and recovery over all circles and all points on them; tests fit a few circles.", "anchors": ["pytorch3d/implicitron/tools/circle_fitting.py: fit_circle_in_2d, fit_circle_in_3d, get_rotation_to_best_fit_xy, _signed_area"]}
{"id": "C92", "title": "A checkerboard consists of its unit squares, once each, in alternating colours", "statement": "checkerboard raises ValueError for a radius below one. Otherwise its mesh has exactly the unit squares of the xy-plane from -radius to radius in each direction, each once, as two anticlockwise triangles of one colour, color1 where the coordinates of its corner have an even sum, else color2. Adjacent squares have opposite colours and squares that share only a corner have the same.", "quantifier": "every radius and every two colours", "why_tests_cant": "The index arithmetic that drops the wrong triangles and assigns the colours has to work for every radius; tests compare one radius.", "anchors": ["pytorch3d/utils/checkerboard.py: checkerboard"]}
{"id": "C93", "title": "Pooling the features of source views takes the statistics of the visible views", "statement": "The reduction aggregator of view pooling gives, per feature, the mean, the standard deviation (at least 0.01), the average deviation and the maximum of the values in the views that are valid and, if the target view is excluded, not the target. Values of the other views change nothing, and a point no view sees has only zeros. The maximum is right if all views are visible or a visible value is not negative, and is refuted otherwise. The reported output dimension is right for one feature and distinct functions and is refuted otherwise. With angle weights, the weights are between those of opposite and equal rays, the target's own is the greatest, and the mean is between any bounds of the visible values.", "quantifier": "every number of views, every mask, every list of features and channels, every list of reduction functions, every target view", "why_tests_cant": "Which views are hidden depends on the data and the independence of hidden values is a statement about pairs of runs; the error of the maximum needs negative features.", "anchors": ["pytorch3d/implicitron/models/view_pooler/feature_aggregator.py: ReductionFeatureAggregator, _avgmaxstd_reduction_function, _get_view_sampling_mask, _mask_target_view_features", "pytorch3d/ops/utils.py: wmean", "pytorch3d/implicitron/models/view_pooler/feature_aggregator.py: AngleWeightedReductionFeatureAggregator"]}
