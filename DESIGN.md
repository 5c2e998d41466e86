# Formal model of pytorch3d in Rocq (Coq 8.16.1)

The model lives in `rocq/theories`. Each area has up to three files:

* `Area.v` - the model: small total Gallina functions, one per function of /repo,
  with the file and lines they model in a comment. No proofs about properties.
* `AreaProofs.v` - lemmas.
* `AreaProps.v` - a short independent specification, the property theorems
  (each closed by `exact`), `Print Assumptions` under each, and `Example`s which
  show that the hypotheses are met by concrete cases.

Theorems called `..._refuted` state that the English property is false of the
faithful model, with a witness; they are findings about the code and are listed
under "Findings". Theorems called `..._partial` prove a part of the property.

## Trusted base

* Coq's kernel (and `coqchk`).
* `Print Assumptions` for each theorem: theorems about lists, integers and state
  machines are closed under the global context. Theorems about real numbers use
  the axioms of Coq's standard real numbers only:
  `ClassicalDedekindReals.sig_not_dec`, `ClassicalDedekindReals.sig_forall_dec`,
  `FunctionalExtensionality.functional_extensionality_dep`, and in places
  `Classical_Prop.classic` (pulled in by `Coq.Reals` analysis lemmas).
* The reading of the code: the code is not executed here. Every definition cites
  its source; simplifications are stated at the definition.
* Floating point numbers are modelled as exact reals (or, where only comparisons
  or structure matter, as integers or as an arbitrary type). Rounding, NaN and
  infinities are not modelled, except where a finding is about them.
* Tensors are modelled as (nested) lists or functions from indices; devices,
  dtypes, strides and autograd bookkeeping are not modelled, except where said.

## What is modelled for each property, and how it is proved

| id | model | proof |
|----|-------|-------|
| C01 | structures/utils.py list/padded conversions over lists of any element type | induction on lists |
| C02 | list_to_packed with cumsum and bucketize as written | induction; bucketize characterised by counting |
| C03 | packed/padded operators as loops over first_idxs | induction; adjoint identity over R sums |
| C04 | Meshes as a record of optional caches with one function per method | state invariant over call sequences (fold) |
| C05 | __getitem__, extend, split, join | list laws |
| C06 | hash, sort, unique, inverse, un-hash over Z | injectivity of hash; uniqueness from strict sortedness |
| C07 | caches of derived quantities as an invariant | invariant preservation; refuted where the code leaves stale data |
| C08 | Pointclouds as a record of optional caches | state invariant; refuted for mixed construction |
| C09 | batch operations on Pointclouds | list laws |
| C10 | priority-queue selection as insertion into a bounded sorted list | multiset argument |
| C11 | backward loops; derivative by Coq.Reals derivable_pt_lim | algebra |
| C12 | scan with early stop and cube test | induction |
| C13 | the greedy loop with mask and first-max argmax | loop invariant; distinctness refuted for coincident points, proved for distinct points |
| C14 | searching loop + interpolation over R | induction; lra/nra |
| C15 | thread ranges over Z | arithmetic; refuted at batch 5 / 4 threads, proved for every other case |
| C16 | at::parallel-style chunking of rows | arithmetic |
| C17 | accumulate loops | bilinearity |
| C18-C21 | per-pixel loops over layers, over R | induction + derivable_pt_lim |
| C22,C23 | per-pixel queue with (z, idx, ...) tuples | refinement to sort + firstn |
| C24 | bin bounds vs. pixel centres over R | interval arithmetic; refuted for non-square images |
| C25,C29 | geometry_utils.h over R | field / nra |
| C26 | NDC conversions over Z and R | field |
| C27 | MinK add/sort over arrays | invariant over insertion histories |
| C28 | bit mask over Z.testbit words | invariant; refuted when depth is not a multiple of 32 |
| C30 | _try_place_rectangle, pack_rectangles over Z | skyline invariant by induction over placements |
| C31 | 4x4 matrices over R (records/functions), homogeneous points | ring/field |
| C32,C33 | quaternion, matrix, axis-angle formulas over R | nsatz/field/lra with trigonometric lemmas |
| C34-C36 | camera matrices and projections over R | field |
| C37 | Obj.v: _parse_obj and _parse_face line by line, index formatting, the material bookkeeping of _load_obj, save_obj; coordinates are exact decimals when read and reals when written | ObjSpec.v says what each line means; an invariant over the lines read so far; the writer's output is shown to be such a file |
| C38 | Ply.v: header state machine, text and binary element readers (all their special cases), column selection, polygon fans, writer, over lists of bytes; the loop over header lines takes fuel because it does not end on every file | a file is described by its elements and records (PlySpec.v); induction on elements, rows and properties; the writer produces such a file |
| C39 | Text.v: lines, words, `int`/`float` parsing and `%d`/`%.nf` printing over lists of characters; Off.v: `_load_off_stream`, `_save_off`, MeshOffFormat read/save, with `np.loadtxt` by its documented behaviour and float32 rounding of face indices | print/parse inverse by induction on digits; line and word splitting of joined words; loader loops on fuel, termination characterised by has_counts_line |
| C40 | pluggable.py and pluggable_formats.py: registry as a list, path matching, built-in formats | Pluggable*.v: the last registered interpreter that accepts wins; extension matching of the built-in formats |
| C41 | SubdivideMeshes (heterogeneous, precomputed) on the Meshes model, stable argsort and scatter as written | permutation lemmas, then refinement to "every mesh subdivided on its own" |
| C42 | ops/cubify.py whole: threshold, six exposure masks, nonzero, unravel_index, ravelled corners, idle-vertex removal, three alignments, features (Cubify.v) | the faces are the two triangles of each exposed side (specification in CubifySpec.v); closedness by telescoping the signed edge count of a full cube over the set voxels; Grids with a side of one raise |
| C43 | Splat*.v: CPU and CUDA kernels as lists of additions to cells, Python path with flat indices, backward kernels | sum over all additions under any permutation; votes characterised by tent functions; derivatives of the pairing; refuted with witnesses near the border |
| C44 | Volumes.v: Volumes and VolumeLocator (constructor, lists, indexing, update_padded, transforms, coordinate grids) on the Transform model | invariant over every reachable object, then values of the transforms and grids in closed form; refuted with witnesses where the claim is false |
| C45 | cumulative products over lists of R | induction |
| C46 | Laplace.v: laplacian, cot_laplacian, norm_laplacian as sums of sparse entries over R | entries, row sums and symmetry by sums over lists; Heron's formula against the cross product |
| C48,C49,C52 | sums over lists of R | induction |
| C47 | loss/chamfer.py on top of the knn model | Chamfer*.v: value from the nearest distances, normals, symmetry, order and padding, zero iff equal sets |
| C50 | scene_batch_sampler.py, dataset_base.py 107-143, json_index_dataset.py 628-664: random choices as sets of outcomes | SceneSampler*.v: composition, size and absence of repeats of every possible batch |
| C51 | implicitron/tools/stats.py: AverageMeter and Stats without plotting and files | Stats*.v: simulation between the object and a log of entries, over any sensible sequence of calls |
| C53 | softmax/hard blending over lists of valid faces | convexity, exp algebra |
| C54 | linspace depths and the jitter formula | induction over positions |
| C55 | AccumulativeRaymarcherBase.forward on one ray | telescoping of exp / clamp |
| C56 | grid-stride chunk arithmetic over nat | NoDup + membership |
| C57 | masked_gather, wmean, point covariances | list lemmas, quadratic form |
| C58 | camera batches as records of lists; calls return the new object | list laws |
| C59 | face_areas_normals forward and backward as written, additions as a list of writes | derivative of affine cross products; any permutation of writes |
| C60 | grid_sample (three padding modes, two sampling modes), placing maps in the sheet, uv transformation over R | layout disjointness from C30, uniform treatment of bilinear and nearest sampling by cell content |
| C61 | mesh_edge_loss and mesh_laplacian_smoothing over the Meshes model, R arithmetic; division by zero made explicit (inf/nan replaced as the code does) | packed sums split per mesh; rigid motions through the linear part |
| C62 | taubin_smoothing with nan as None, norm_laplacian, iteration by nat | the packed iterate is the concatenation of per-mesh iterates |
| C63 | Consistency.v: the sort of packed edge indices, bincount, find_verts, the gathers and weights, on Meshes objects reached by any history | the pairs listed by find_verts of a sorted list sum a symmetric function over all same-key pairs; the sum then splits over the meshes |
| C64 | Marching.v, MarchingTables.v: the tables copied from both sources, cube index, interpolation, vertex and face lists, the float32 edge keys of the C++ code, local coordinates | the run is a fold that stores links and triangles; the 256 rows are checked by computation for crossing edges, side directions and orientation; a side in a square is matched with the neighbouring cell through the four corner bits of the square |
| C65 | Reduce.v: the halving loop and the warp tail as lists of loads, comparisons and stores per lane; a phase runs them in any interleaving of single steps | an invariant per phase: every cell holds a value some cell of its residue class held, and cell 0's class minimum is kept; the racing reads see either the old or the new cell, both in the class |
| C66 | PointMesh.v: the cursor loop of the CPU kernel, the CUDA kernel as any order of blocks over C65's reduction, the backward additions as writes in any interleaving, the two Python wrappers over the Meshes and Pointclouds models; nan and rounding not modelled | scan invariants; the packed weighted sums split per element; derivative of a sum along a moved point |
| C67 | SurfaceSample.v: the function over the Meshes model; multinomial and rand are parameters with their documented contracts; vertex textures of three channels | the packed offsets of the non-empty meshes select the faces of each; linear independence for the uniformity |
| C68, C69 | Alignment.v: both functions over reals, padding and weights explicit, nearest neighbours through the Knn model; torch.svd and the sort of torch.topk are parameters with their contracts | orthogonal matrices have trace bounded by the singular values; quadratic in the scale; induction over the iterations |
| C70 | symeig3x3 modelled step by step over R (trace, quadratic part, arccos of the clamped half determinant, soft selection of the diagonal, regularised cross products, triple from one eigenvector); orthonormality by cross product identities, accuracy against the spectral theorem proved in Spectral.v through the Chebyshev polynomial 4t^3-3t |
| C71 | neighbourhoods through the models of knn_points and knn_gather, covariance as a quadratic form (thickness of the neighbourhood along a direction), min-max over an eigenbasis, signs by counting |
| C72 | per-face pieces (region of a cut triangle by explicit barycentric weights, determinants for orientation), and a refinement: all index arithmetic and scattered writes of clip_faces produce the concatenation of the pieces |
| C73 | half-edges of the four new faces as a function of the corners of the old faces, injective on closed surfaces; induction over levels with an invariant (norms near 1, neighbours at less than a right angle, positive orientation); torus half-edges as steps on a grid modulo (rings, sides) |
| C74 | projection matrices of the Camera model inverted at two depths: the unprojected points lie on a line through the camera centre; induction over the batch and over packing; contract of torch.multinomial for the draws |
| C75 | rounding and clamping of box corners characterised on pixels; shown_at (projection to pixel coordinates) commutes with the change of intrinsics; induction over histories of edits; the threshold loop by a measure |
| C76 | torch.svd by its contract; trace bound of the Alignment model for the rotations, completing the square for scale and translation; the points alignment theorem applied to the centres |
| C77 | tensors with shapes, broadcasting, gather and squeeze as in torch; normalisation, masks and reflections over R; the laws from the inner product, extremes from Cauchy-Schwarz with equality |
| C78 | shaders composed from the lighting model, face lookup and interpolation; each pixel followed through views and broadcasts |
| C79 | memory of blocks, tensors as views (whole or one repeated row); ownership of blocks by a clone is an invariant of every operation; frame lemmas per operation |
| C80 | grid_sample of the Textures model per channel; one-dimensional interpolation lemmas; index arithmetic of padded and packed rows |
| C81 | SplatterBlender as functions of pixel, layer, direction and channel; occlusion layers, splats, padding and composition | mixture invariant over the three composed layers, locality, equality with a Gaussian filter written over the nine steps, mirror law for one layer and a refutation for two |
| C82 | eval_depth for one image as sums over the inner pixels | least squares argument for the scale, congruence on valid pixels, witness for the clamp |
| C83 | calc_mse, calc_psnr, rgb_l1, iou, neg_iou_loss and huber over an arbitrary finite index set | sums of nonnegative terms, monotonicity of the logarithm, counting for binary masks, refutations with witnesses |
| C84 | calc_bce, its weights, binary_cross_entropy_lerp, log_lerp and beta_prior | concavity bound of the logarithm, sums of the normalised weights, case split on the clamp |
| C85 | conical_frustum_to_gaussian and the lengths of a ray bundle | closed forms of the triple integrals over the cone (Coquelicot), completeness of an orthonormal frame, rational identities |
| C86 | RayPointRefiner with the sample_pdf model, apply_blurpool_on_weights and the recursion of the multi-pass renderer over an arbitrary marching function | permutation and order of an insertion sort, range of sample_pdf, induction over the passes |
| C87 | batches of data loaders: double pool, SAME, TRAIN, KNOWN conditioning | Loaders: sampler and loaders as functions of a generator oracle; counting and permutation lemmas by induction on copies and chunks |
| C88 | ray tracing of signed distance functions | RayTrace: the batch loop of sphere tracing with its early exit, line search, sampler, secant and training masks; loop invariants over any number of iterations, refinement of the batch loop to single rays, Lipschitz argument for not skipping surfaces |
| C89 | atlas model with cells as colours; triangles cut into n * n small ones as a separate vocabulary; arithmetic of floors, symmetry of linear interpolation under reversal, induction over materials |
| C90 | projection and both Newton iterations over reals, the documented formulas as separate vocabulary; polynomial identities, derivatives by Coquelicot, monotone convergence of Newton's method on a convex polynomial by induction on steps |
| C91 | `Circle.v`: signed area, the fit in the plane, the rotation to the best plane, the fit in space. lstsq and eigh are parameters with their contracts as hypotheses (CircleSpec). Proved: normal equations and strict convexity for non-collinear points give uniqueness; eigenvectors of the scatter matrix minimise the distance to the plane |
| C92 | `Checker.v`: the grid, the interleaved triangles, the range without the boundary, the colours; faces and colours are looked up with bounds checked. Proved by position arithmetic for every radius |
| C93 | `Views.v`: the view mask, the masked features, the four reductions with their clamps and the factor that zeroes points no view sees. Proved by showing that weighted sums over all views are sums over the visible ones |

## What is modelled and what is not

Everything below is modelled function by function, with the source lines at each
definition. "Not modelled" names the code of the same area that is left out.

| model | code | not modelled |
|-------|------|--------------|
| Packing | structures/utils.py; csrc/packed_to_padded (forward, backward), ops/packed_to_padded.py | dtype, device |
| Threads | thread ranges of sample_pdf_cpu.cpp, rasterize_meshes_cpu.cpp, grid-stride loops of the CUDA kernels | scheduling inside ATen |
| TopK, Knn, MinK | csrc/knn/knn_cpu.cpp, ops/knn.py (knn_points, knn_gather), csrc/utils/mink.cuh | choice of the CUDA kernel version; float ties caused by rounding |
| Sampling | csrc/ball_query, csrc/sample_farthest_points (CPU and CUDA), ops/ball_query.py, ops/sample_farthest_points.py, masked_gather, wmean, covariances of ops/utils.py | random start points (any start is allowed) |
| BitMask | csrc/rasterize_coarse/bitmask.cuh | |
| Geom, GeomGrad | csrc/utils/geometry_utils.h, vec2.h, vec3.h, forward and backward | tangent behaviour on the branch boundaries |
| Raster* | CPU and CUDA fine rasterizers for meshes and points, coarse binning, clipped neighbours, NDC conversions | backward pass of the mesh rasterizer, Python argument handling |
| Composite, Blend | the three compositors (forward, backward, CPU and CUDA), renderer/blending.py, sigmoid_alpha_blend | background colour broadcasting |
| GraphOps | gather_scatter, GraphConv aggregation, interpolate_face_attributes (CUDA and Python) | the linear layers |
| Implicit | sample_pdf, EA and AbsorptionOnly raymarchers, harmonic embedding, depth sampling, implicitron raymarcher | ray bundles (see Rays) |
| LinAlg, Transform | transforms/transform3d.py | dtype and device bookkeeping |
| Rotation | rotation_conversions.py, so3.py, se3.py, math.py | random rotations |
| Camera | cameras.py, camera_conversions.py, camera_utils.py | pulsar conversion, fish-eye cameras |
| FaceAreas | face_areas_normals (CPU forward and backward; CUDA as any order of its additions) | |
| Meshes | structures/meshes.py: construction, every derived quantity, indexing, extend, split, joins, edits, laplacian | textures inside Meshes, memory sharing |
| Pointclouds | structures/pointclouds.py except estimate_normals | memory sharing |
| Rectangles, Textures | rectangle packing of renderer/mesh/utils.py; TexturesUV.join_scene and sampling | TexturesAtlas, TexturesVertex, multiple maps |
| Subdivide, Cubify | ops/subdivide_meshes.py, ops/cubify.py | |
| Splat | points_to_volumes (CPU, CUDA, Python), forward and backward | in-place aliasing of the Python path |
| Volumes | structures/volumes.py | `_copy_transform_and_sizes` on foreign objects, clone and device moves |
| Pluggable | io/pluggable.py, the suffix test of the formats | path managers |
| Text, Off | io/off_io.py, Python's line, word and number reading | binary file objects |
| Ply | io/ply_io.py: header, text and binary readers, load_ply, save_ply, colours and normals | infinities and nan in text; MeshPlyFormat and PointcloudPlyFormat wrappers beyond the data they pass on |
| Obj | io/obj_io.py: _parse_face, _parse_obj, _format_faces_indices, _load_obj without atlas, save_obj text | texture atlas, .mtl contents (a parameter), images, load_objs_as_meshes |
| Consistency | loss/mesh_normal_consistency.py, csrc/mesh_normal_consistency_cpu.cpp | autograd, the CUDA path (it runs the same CPU function) |
| Marching | ops/marching_cubes.py, marching_cubes_data.py, csrc/marching_cubes (CPU, tables) | marching_cubes.cu; rounding of vertex positions |
| Laplace | laplacian_matrices.py, mesh_filtering.py, mesh_laplacian_smoothing.py, mesh_edge_loss.py | |
| Chamfer | loss/chamfer.py | |
| Stats, SceneSampler | implicitron/tools/stats.py, dataset/scene_batch_sampler.py, frame order of the datasets | plotting, files |
| Reduce, PointMesh | csrc/utils/warp_reduce.cuh, csrc/point_mesh, loss/point_mesh_distance.py | nan distances, the all-pairs variants of the distance functions |
| SurfaceSample | ops/sample_points_from_meshes.py | UV and atlas textures, nan and inf |
| Alignment | ops/points_alignment.py, wmean and convert_pointclouds_to_tensor of ops/utils.py | verbose output, warnings, dimensions other than 3, device and dtype checks |
| Symeig, Spectral | common/workaround/symeig3x3.py | gradients, rounding |
| Normals | ops/points_normals.py, get_point_covariances in ops/utils.py | gradients, rounding |
| Clip | renderer/mesh/clip.py | devices, dtypes, gradients, the distances tensor of the conversion (passed through) |
| Shapes | utils/ico_sphere.py, utils/torus.py | float32 rounding, devices |
| Rays | renderer/implicit/raysampling.py (MultinomialRaysampler, NDCMultinomialRaysampler, MonteCarloRaysampler, _safe_multinomial, _pack_ray_bundle), ray_bundle_to_ray_points | deprecated wrappers, devices, gradients, floating point, cameras with an explicit K (proved only without) |
| Crop | implicitron/dataset/utils.py (boxes, crop_around_box, resize_image, camera adjustments), frame_data.py crop_by_metadata_bbox_, _crop_by_bbox_, resize_frame_ | loading files, tensors outside (C, H, W), interpolation itself (a parameter), FrameDataBuilder |
| CamAlign | ops/cameras_alignment.py | empty batches (nan), devices |
| Tens, Lighting, Shading | renderer/lighting.py, renderer/materials.py, renderer/mesh/shading.py, ops/interp_face_attrs.py (python), the broadcasting part of renderer/utils.py | cameras (given by their centres), texture sampling (texels are inputs), devices, blending (see Blend) |
| Accessor | TensorProperties and TensorAccessor of renderer/utils.py | devices, dtypes, gradients, nn.Parameter, strings as attributes, slice steps |
| VertAlign | ops/vert_align.py, ndc_grid_sample and ndc_to_grid_sample_coords of renderer/utils.py | devices, dtypes, batch reshapes of ndc_grid_sample |
| Splatter | renderer/splatter_blend.py for one image | projection to the screen (its result is an input), gradients, devices; ties of torch.min take the first entry |
| Metrics | implicitron/tools/metric_utils.py | gradients, dtype, NaN: a division by zero is None and a missing logarithm an error; the batch of eval_depth is one image |
| Frustum | implicitron/models/renderer/base.py: ImplicitronRayBundle (lengths, bins), conical_frustum_to_gaussian and its helpers | packed xys, float_, RendererOutput, ImplicitFunctionWrapper |
| Refiner | implicitron/models/renderer/ray_point_refiner.py, multipass_ea.py | density noise, return_weights, registry |
| Loaders | implicitron/dataset/data_loader_map_provider.py | the batches of one epoch; random numbers are oracles, SceneBatchSampler is a parameter, workers and collation are not modelled |
| RayTrace | implicitron/models/renderer/ray_tracing.py | the whole file, over reals, with sdf as a function of a point and argmin and uniform numbers as oracles |
| Atlas | io/mtl_io.py: make_mesh_texture_atlas, make_material_atlas, _bilinear_interpolation_grid_sample; renderer/mesh/textures.py: TexturesAtlas.sample_textures for one pixel | the text of .mtl files, reading images, batching of atlases (see Textures) |
| FishEye | renderer/fisheyecameras.py for one camera and one point in camera coordinates | world-to-view (see Cameras), batching and squeeze of the output, radial parameters in a number other than six |
| `Circle*.v` | `implicitron/tools/circle_fitting.py` | reals; lstsq and eigh are any functions with their contracts; a square root of a negative number is an error value (shown not to happen) |
| `Checker*.v` | `utils/checkerboard.py` | integers for coordinates, any type of colour; devices and Meshes itself not |
| `Views*.v` | `implicitron/models/view_pooler/feature_aggregator.py` (ReductionFeatureAggregator, AngleWeightedReductionFeatureAggregator), `ops/utils.py` (wmean) | reals, binary masks, one point of one target view; natural exponents of the angle weights; the identity aggregators not |

Not modelled at all: pulsar, implicitron models other than the parts listed, trainers and configuration,
glTF files, the text of MTL files, iou_box3d,
perspective_n_points, vis.

## Findings

Each line is a theorem called `<name>_refuted` (or, without a name, a remark made while
modelling) and what it shows about the code.

Geometry and rasterization
* `barycentric_sum_is_one`: the 1e-8 in the denominator keeps the three coordinates from summing to one.
* `perspective_backward_below_clamp`: the backward pass ignores the clamp of the denominator.
* `segment_distance_short`, `segment_distance_3d_backward_short`: for segments shorter than the epsilon the distance is not the minimum, and the gradient is halved.
* `triangle_distance_3d_exact`: the epsilon makes the distance to a triangle too small.
* `rasterize_meshes_order_independent_clipped`: with clipped neighbours the image depends on the order of the faces.
* `cuda_meshes_clipped_agrees`, `cuda_meshes_topk_ties`: CPU and CUDA differ (stale maximum after a neighbour is overwritten; ties keep the larger index).
* `cpu_coarse_nonsquare`: the coarse bins of a non-square image miss faces.
* `bitmask_any_depth`: the mask loses bits when the depth is not a multiple of 32.
* `face_areas_normals_gradient`: one of the eighteen partial derivatives uses the wrong variable (face_areas_normals_cpu.cpp:181, .cu:183).

Compositing and volumetric rendering
* `alpha_composite_backward_alphas`: the gradient divides by 1 - a + 1e-9 and is wrong behind an opaque layer.
* `norm_weighted_sum_backward_clamped`: the gradient ignores the clamp of the weight sum.
* `ea_raymarch_weights_le_one`, `ea_raymarch_zero_thickness`, `acc_raymarch_thick`, `acc_raymarch_blend_range`: weights above one, and thickness 0 or beyond the ray.
* `sample_pdf_exact_quantile`, `sample_pdf_partition`: the epsilon shifts the samples; the split of rays over threads skips rays for some batch sizes.
* `interp_python_no_faces`: interpolation without faces raises.

Sampling
* `ball_query_negative_radius`, `farthest_points_distinct`, `farthest_points_zero_K`, `farthest_points_cuda_far`, `masked_gather_empty`, `knn_backward_L1_zero_at_tie`.

Transforms and cameras
* `axis_angle_getitem`: indexing a RotateAxisAngle always raises.
* `rotate_nonorthogonal_inverse`: the inverse of Rotate is wrong for a matrix that is not orthogonal, which the constructor accepts.
* `eps_compose`: with eps, transforming twice differs from the composed transform.
* `euler_gimbal_lock`, `fast_matrix_axis_angle_pi`, `quaternion_axis_angle_minus_one`, `rotation_6d_parallel`, `so3_log_exp_beyond_pi`, `se3_same_eps`, `hat_inv_empty`: inputs where a conversion loses the rotation or raises.
* `override_is_local`: R and T passed as keywords stay in the camera object.
* `screen_space_transform_points`, `opencv_from_screen_space_camera`, `fov_unproject_uses_kwargs`, `unproject_flat_points`, `look_at_is_rotation`.

Containers
* `faceless_batch`, `padded_faceless`, `list_lengths_unchecked`, `scaled_normals`: Meshes without faces, unchecked lengths, stale normals after scale_verts_.
* `mixed_list_padded`, `mixed_padded_list`, `update_before_padded`, `no_points_first_idx`, `split_then_join_empty_part`: Pointclouds built from mixed formats, updated before padding, or with empty clouds.
* `list_to_padded_all_empty`, `padded_to_packed_pad_value`, `packed_to_padded_op_small_max`.
* `empty_rectangle`: a rectangle of width zero is placed outside the sheet.
* `join_scene_defined`, `joined_nearest`: joining one texture raises; nearest sampling differs after joining.
* `subdivide_without_faces`, `cubify_thin_grid`, `cubify_threshold`.
* `splat_border_weights`, `splat_outside`, `missing_features`, `python_align_corners`, `python_smaller_grid`: truncation toward zero gives weights above one and below zero near the border; the Python path ignores arguments.
* `volumes_index_align`, `volumes_index_tuple`, `volumes_update_own_padded`, `volumes_ragged_sides`, `volumes_flat_grid`, `volumes_spacing`, `volume_translation_one_number`: see VolumesProps.v.

Files, losses and tools
* `save_include_textures`, `str_and_path_agree`, `off_always_terminates`, `off_any_index`, `off_empty_mesh`, `off_trailing_comment`, `off_include_textures`.
* `ply_always_terminates`: a file without an `end_header` line is read for ever. `ply_columns_by_name`: three columns of one type are taken in file order whatever they are called. `ply_empty_normals`: save_ply accepts empty normals in its check and then fails. `ply_text_types`: in text, a `float32` beside a list is parsed as an integer.
* `obj_tab_refuted`: a vertex line with a tab after `v` is dropped silently. `obj_relative_index_refuted`: negative indices count from the end of the file's vertices, not from the face's line. `obj_minus_one_refuted`: uv indices -1/-1/-1 come out as missing. `obj_zero_index_refuted`: index 0 is taken for the first vertex, no warning. `obj_missing_uv_round_trip_refuted`: a padded uv index is written as 0.
* `clear_crossing_kept_refuted`: when a triangle of a marching-cubes cell collapses (a sample within 1e-5 of the level), the later triangles of the cell are lost too, because the corner list is not cleared. `link_keys_distinct_refuted`: above 2^24 samples the C++ edge keys, computed in float, coincide for different edges.
* `uniform_laplacian_loop`, `isolated_vertex_translation`, `taubin_isolated_vertex`, `taubin_without_faces`.
* `cpu_nearest_with_empty_refuted`: after a batch element without points (or without faces, in the other direction) the CPU point-to-mesh kernels compare the following elements with the wrong mesh. `one_side_empty`: an element with points and no faces, or the reverse, contributes the largest float to the loss.
* The warp tail of WarpReduceMin/Max reads cells another lane may be storing to in the same phase; `block_argmin_any_schedule` shows that this race is harmless: a lane only stores a value its reader's cell already bounds, so the reader's branch is not taken.
* `empty_target`, `zero_weights` (chamfer).
* `meter_average_is_epoch_average`, `add_log_vars_keeps_counts`, `add_log_vars_adds`, `add_log_vars_tuple`, `finished_epoch_reported` (Stats).
* `filtered_frames`, `negative_gap`, `indices_are_integers` (SceneBatchSampler).
* `textures_of_empty_meshes_refuted`: sample_points_from_meshes with return_textures raises a RuntimeError when some mesh of the batch is empty; the documentation promises rows of zeros. A mesh whose faces all have area zero raises too (`samples_cannot_be_drawn`).
* `alignment_weighted_fit`: the weights multiply both centred clouds, so points count with the square of their weight in the rotation and the scale.
* `icp_perfect_fit_converges`: after an error of 0 the relative decrease is 0/0 = NaN, so the run never counts as converged.
* `icp_padding_ignored`: the mask is only built when some pair of clouds differs in size; otherwise the padded points take part.
* `symeig_vectors_exact`: the vectors returned by symeig3x3 are not exact eigenvectors, even for diagonal matrices with distinct entries: the regularisation added to the cross products tilts them (C70).
* `normals_of_planes_undetermined`: disambiguate_directions counts only strictly positive projections and the point itself is one of its neighbours (projection 0). In a flat neighbourhood no projection is positive, so every vector is flipped and the sign of the normal is the opposite of whatever the solver returned: the promised sign consistency fails exactly on planes (C71).
* `clip_culls_visible_refuted`, `clip_keeps_outside_refuted`: _get_culled_faces indexes `face_verts[:, axis]`, which selects the vertex number axis and not the coordinate. It therefore drops a face as soon as all three coordinates of one particular vertex are beyond a bound, also if the face is visible, and keeps faces that are wholly outside (C72).
* `clip_empty_last_fails`: if the last mesh of the batch has no faces, clip_faces indexes one past the end and raises IndexError as soon as any face of the batch needs clipping (C72).
* `torus_two_sides_refuted`: torus accepts one or two sides or rings, but the result is then no closed surface: sides of faces are used several times in the same direction (C73).
* `pillow_refuted`: a mesh that holds a face in both orientations is closed, but its subdivision is not: four faces share the edges between midpoints (C73).
* `sampler_replaces_when_short_refuted`: the fall-back of _safe_multinomial for images with too few pixels calls torch.multinomial without replacement again, so asking for more rays than the grid has entries raises RuntimeError instead of drawing with replacement (C74).
* `crop_depth_other_resolution_refuted`: rescale_bbox is called with the two resolutions swapped, so a depth map of half the image's resolution is cropped by a box four times too large: cropping the top left quarter of the picture keeps the whole depth map (C75).
* `mask_box_terminates_refuted`: get_bbox_from_mask never returns for a mask of one pixel (C75).
* `resize_exact_refuted`: resize_frame_ scales the camera by min(h/H, w/W) but the picture by floor(H s)/H and floor(W s)/W; the difference stays below a pixel, `resize_within_a_pixel` (C75).
* `extrinsics_no_reflection_refuted`, `extrinsics_positive_scale_refuted`: the documentation says that the estimated transform cannot be a reflection, but mode extrinsics takes V U^T without fixing its determinant: three cameras against half turns about the three axes are aligned by -1; and the scale is negative when the translations are anticorrelated (C76).
* `specular_dark_refuted`: the mask that should remove highlights where the light is behind the surface is applied before the power, and 0 to the power 0 is 1: with shininess 0, inside the documented range 0-1000, such points (and pixels without a face) get the full specular colour.
* `phong_materials_refuted`: Materials documents properties per batch element, but phong_shading and flat_shading multiply an (N, 3) colour with an (N, H, W, K, 3) light: with two meshes and one face per pixel the image gets two faces per pixel, and with three faces per pixel the call fails. `gouraud_channels_refuted`: gouraud_shading calls squeeze() on the packed vertex colours, which with single-channel colours drops the channel, so a mesh of V vertices gets V channels.
* `element_alone_refuted`: arguments are broadcast with expand, which repeats one row in memory, so with PointLights(location of one row, diffuse_color of N rows) the assignment lights[0].location = p moves all N lights. `object_alone_refuted`: tensors are taken without a copy, so the assignment also changes the tensor that the user passed and every other object made from it. `length_refuted`: gather_props does not update the length, so len() keeps the old number of elements.
* `vert_align_clouds_refuted`: with return_packed=True vert_align drops the padding only for objects with a method verts_padded_to_packed_idx, which Pointclouds does not have, so for clouds of different sizes the result has N * max(P_n) rows instead of sum(P_n).
* `splatter_mirror_refuted`: _compute_occlusion_layers numbers the nine neighbours by rows (F.unfold), _offset_splats numbers them by columns, so the layer (foreground, surface, background) into which the right neighbour splats is decided by the depths of the lower neighbour. With two or more layers the mirror image of a scene is therefore not blended to the mirror image of its picture.
* `rgb_l1` sums over the channels, so it is C times the mean absolute error its documentation promises (`rgb_l1_mean_refuted`). `neg_iou_loss` of two empty masks is 1 (`iou_loss_refuted`). `calc_bce` with `pred_logits=True` clamps the logits to [pred_eps, 1 - pred_eps] (`bce_logits_refuted`). `eval_depth` with `get_best_scale` does not find the scale of predictions with mean square below the threshold (`depth_best_scale_refuted`).
* `compute_3d_diagonal_covariance_gaussian` clamps the squared length of the direction at 1e-6, so for shorter directions the covariance is not that of the cone (`cone_gaussian_short_refuted`).
* `RayPointRefiner.forward` accepts `blurpool_weights` and `sample_pdf_padding` and ignores both (`refiner_blur_argument_refuted`).
* `known_epoch_visits_all_refuted`: with KNOWN (and TRAIN) conditioning first frames are drawn with replacement, so an epoch of evaluation may visit one frame twice and another never. `train_never_conditions_on_itself_refuted`: TRAIN conditioning of the training set may place the frame to be predicted among its conditioning frames.
* `missed_points_are_independent_refuted`: in evaluation the point returned for a ray that misses the bounding sphere is the world origin when no other ray of the batch moves and the camera centre otherwise, so it depends on the rest of the batch.
* `TexturesAtlas.sample_textures` reads the wrong cell on the edge opposite a face's last vertex: with n = 3 the point (1/3, 2/3, 0) gets the cell whose small triangle has its centroid at (5/9, 2/9) (`atlas_edge_refuted`). With repeat, `make_mesh_texture_atlas` maps a coordinate of exactly 1 to 1 or to 0 according to whether any other face has a coordinate outside [0, 1] (`atlas_repeat_refuted`).
* `FishEyeCameras.unproject_points` gives nan at the principal point (0 / 0, unlike the projection, which guards it; `fisheye_centre_refuted`), ignores the depth (`fisheye_depth_refuted`), and does not look at `use_radial`, so that a camera with `use_radial=False` does not unproject its own images (`fisheye_no_radial_refuted`). In `_get_theta_from_norm_xr_yr` the mask multiplies the numerator, so that a derivative of exactly 0 still gives 0 / 0 (in the model, `Fail EValue`).
* C91: `fit_circle_in_2d(points, n_points=n)` spreads its angles with linspace(0, 2π, n), both ends included, so for n ≥ 2 the last generated point is the first again and only n - 1 are distinct (`circle_spacing_refuted`).
* C93: the maximum over views is wrong if all visible values are negative and a hidden one is small in size: with -100 visible and 1 hidden it is -10 (`views_max_refuted`). The reported dimension counts STD_AVG once for all features though the output has one number per feature, and counts functions listed twice twice (`views_dim_refuted`). Weighted by ray angles the maximum of a single 1 is 2.1 with the default settings (`views_angle_max_refuted`).
