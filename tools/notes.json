{
"C01": {"note": "Full statement over all shapes, widths, sizes and arguments."},
"C02": {"note": "All five consistent argument forms, pairwise."},
"C03": {"note": "Round trip, default and explicit width, and the error branch for a width that is too small."},
"C04": {"note": "False of the code for batches with an empty element (get_sizes drops it, C04_sizes_refuted); proved exactly: the result is the list of non-zero sizes, correct iff no element is empty."},
"C05": {"note": "Proved for ids in range and ids above batch_size; id = batch_size and negative ids are accepted and return an empty tensor (C05_get_points_id_refuted, for every cloud)."},
"C06": {"note": "Everything except the requested width is independent of the history; max_num_points of a later call is ignored (C06_history_refuted)."},
"C07": {"note": "Equivalence, untouched object on failure, row-major addressing, rejection of out-of-range indices, after any history."},
"C08": {"note": "Each rejected input with its exception and acceptance of every consistent input; inconsistent sizes are accepted by the code (C08_validation_refuted)."},
"C09": {"note": "Position of every feature row, inverse of format/flatten, sorted output, error branch."},
"C10": {"note": "Containment with margin, tightness, diameter bound, after any history; the batch shape used by get_diameter can be stale (C10_diameter_shape_refuted)."},
"C11": {"note": "Proved for every cloud, dimension and cell size when points fit the grid and the cell count fits 32 bit. Without effective box margin (1e-9 is absorbed by float32) a point on the far boundary collides with another cell (C11_boundary_refuted); keys of huge grids overflow (C11_overflow_refuted)."},
"C12": {"note": "Full statement, including the order of equal keys."},
"C13": {"note": "Exact ranges for every element and cell pair in two or more dimensions, same hypotheses as C11; boundary case refuted, one dimension fails with an error."},
"C14": {"note": "Proved for the fallback search on a device with zero-filling gathers, any cloud and centers in or outside the box, cell size equal to the radius in the two dimensions of the access structure, when points fit the grid. Without effective box margin a point can miss itself (C14_boundary_refuted); CPU see C16."},
"C15": {"note": "Grid search: full statement, shape wrong for a single center (C15_single_center_refuted). Brute force search: only when every center has a neighbor (C15_brute_force_refuted otherwise)."},
"C16": {"note": "Correct on CPU as long as no center is in the last cell (C16_cpu_partial), and exactly then: otherwise InvalidArgumentError is raised (C16_cpu_exactly). With float32 margins the self-neighborhood of every non-empty cloud fails (C16_cpu_refuted)."},
"C17": {"note": "Soundness for any radii; completeness fails for radii below the cell size and for per-axis radii in the fallback search (refuted by witnesses). The CUDA search is covered under C41."},
"C18": {"note": "Brute force search exact for all clouds and radii; agreement under the conditions of C14."},
"C19": {"note": "For the fallback search under the conditions of C14 (record usable), with and without given centers, for the class and the function."},
"C20": {"note": "transpose() under the conditions of C14 for both clouds, self case symmetric; _NeighborhoodTransposed proved for any neighborhood, with ranges right only if no point is isolated; for a cloud with itself the class yields an object without attributes (C20_reversed_refuted)."},
"C21": {"note": "For sample(), self-neighborhoods with two or more points under the conditions of C14, every sequence of draws and both devices. Fails for single points; never terminates when a point is missing in its own neighborhood (no effective margin)."},
"C22": {"note": "For sample() with any neighborhood of a grid that fits its points and counts its cells in 32 bit. Without effective margin elements can be mixed (refuted)."},
"C23": {"note": "sample() dispatches correctly (C21, C22) and rejects other names; poisson_disk_sampling and cell_average_sampling are exchanged and fail for scalar radii."},
"C24": {"note": "Proved for sample() whenever it returns, any neighborhood, device and draws; poisson_disk_sampling(return_ids) returns averages (see C23)."},
"C25": {"note": "Proved for the TensorFlow fallback with a positive bounding box margin, usable cell sizes (first not larger than second) and cells countable in 32 bit. Poisson levels with a single point fail (C25_single_point_refuted), so the unconditional form is false; C25_either says that this is the only failure: for every such batch the hierarchy is built, or a level that has to be sampled with Poisson disks has a single point and the constructor raises InvalidArgumentError."},
"C26": {"note": "Proved for one size or one per dimension, and the rejections. Refuted for a partial list: the code repeats the first size, not the last."},
"C27": {"note": "compute_pdf_tf on the self-neighborhood of a usable grid equals the kernel density estimate over the reals for every cloud, radius and bandwidth; positive; translation and permutation invariant. Partial: real arithmetic instead of floats, usable grids only (see C14). The function density_estimation gives ones for no_pdf (C27_no_pdf) and raises for every cloud otherwise (C27_function_refuted)."},
"C28": {"note": "get_pdf after every sequence of compute_pdf/get_pdf calls, with and without separate centers, normalised or not. Partial: real arithmetic, usable grids, TensorFlow fallback op; density_estimation_in_neighborhoods is right for KDEMode.no_pdf (C28_no_pdf) and raises otherwise (C28_function_refuted)."},
"C29": {"note": "Exact kernel sums for every neighborhood in range form. Partial: real arithmetic; with one center the op fails because the ranges are a scalar (C29_single_center_refuted)."},
"C30": {"note": "For every neighborhood, sizes and contents: the sum formula, bilinearity, independence of the order of the neighbor list (C30_projection, C30_bilinear, C30_order); C30_neighborhood_partial links it to the points within the radius for neighborhoods of usable grids. Real arithmetic; TensorFlow fallback op (the CUDA op is C46)."},
"C31": {"note": "Global pooling for every cloud (C31_global), except that return_padded fails when the cloud has no batch shape (C31_padded_refuted). Local pooling for all workable clouds; a center without neighbors gets the lowest float for max and 0 for mean. Partial: real arithmetic, workable clouds (grid within 32 bit, margin > 0); a scalar radius raises IndexError (C31_scalar_radius_refuted)."},
"C32": {"note": "C32_pointwise: Conv1x1 and global pooling, every cloud. C32_layers_partial: MCConv, KPConv (rigid, deformable, loss), PointConv, local pooling, for every reordering of points (with features) and centers, combined with any translation. C32_layouts_partial: the same for every layout of the output (sorted, padded). C32_input_order_partial: reordering only the input leaves the returned output unchanged in every layout. Partial: real arithmetic, workable clouds, own neighborhood."},
"C33": {"note": "Outputs (and the KPConv loss) of two pairs of workable clouds that differ by one translation are equal (C33_translation_partial), in every layout of the output if the two output clouds differ in their coordinates only (C33_layouts_partial). Partial: real arithmetic and workable clouds; in floats the translated coordinates are rounded."},
"C34": {"note": "Exact formulas for MCConv, KPConv (rigid and deformable, with the regularisation loss; any number of kernel points, hence independent of the padding to 8/16/32/64) and PointConv, with own and passed neighborhoods, and for Conv1x1, for all trained weights. Partial: real arithmetic, workable clouds. Refuted: PointConv with one output point fails; the default influence distance of KPConv is the radius, not radius/2.5."},
"C35": {"note": "All angles and points: shape, pairwise distances, distances from the origin and signed volumes are preserved; exact reals."},
"C36": {"note": "5, 7 and 18 points: proved in full, for every rotation; 5 and 7 points are the origin with a regular tetrahedron or octahedron on the unit sphere (C36_regular); other undocumented counts raise ValueError; cube proved for every k. False of the code for 13 points (the call raises, C36_thirteen_refuted) and for 15 (two pairs of equal points, C36_fifteen_refuted)."},
"C37": {"note": "Proved for tables with at least four columns whose lines all end with a newline (tensor loader) and with a limit (numpy loader). The rest of the property is false of the code: a missing final newline loses a character, files without feature columns make the tensor loader fail, dimension 2 drops the third column of a three column file, and max_num_points=None reads nothing (the _refuted theorems)."},
"C38": {"note": "Proved for text files with feature columns and point_dimension 3, and for meshes. point_dimension other than 3 always fails (C38_dimension_refuted), files without features fail already in the loader (C37_no_features_refuted)."},
"C39": {"note": "Proved for every cloud and schedule what the GPU keys are, that keys decode to element and cell, and that the GPU grid equals the TensorFlow grid when all points lie inside the grid and the cells over the batch fit 32 bit. Refuted otherwise: in the boundary case without effective margin, and beyond 32 bit, the two implementations differ; on an empty cloud the op ends the process."},
"C40": {"note": "Schedule independence and equality with the TensorFlow structure, for every descending list of valid keys whose cells fit 32 bit; the meaning of the structure is proved without that limit."},
"C41": {"note": "Proved for every schedule, device size, cloud, cell size and radii up to the cell sizes, for dimension 2 to 6. Partial: at most 512 + 64*blocks centers (beyond that the prefix sum races, C42), and in dimension 4-6 at least three cells along the last axis. Refuted otherwise: rows are repeated in dimension 4 with one or two cells along the last axis, and an empty set of centers ends the process."},
"C42": {"note": "Proved for every schedule, when the entries beyond the first block of 512 fit one pass of the second kernel (length <= 512 + active blocks * 64). For longer arrays the second kernel has a race (no barrier before the shared offset is replaced), shown by C42_scan_race_refuted; an empty array is rejected."},
"C43": {"note": "Proved for every schedule, clock value and cloud when no center has more neighbors than the limit. When a center has more, the property is false of the code: C43_race_refuted exhibits a schedule and C43_seed_refuted a clock value (with the threads one after the other) for which a row is written before the start of the output (find_neighbors store_neighbors kernel: the slot counter is read before it is advanced, and seed_to_float truncates to 0 or 1). The same holds and fails for the Neighborhood object."},
"C44": {"note": "C44_poisson covers every schedule of every kernel launch of the sampling operation, for any number of points and any neighborhood whose list has exactly the ellipsoid pairs. C44_pipeline_partial composes it with the modelled grid and neighborhood construction and inherits the conditions of C41 (prefix sum size without a race; three cells along the last axis in dimension 4 to 6)."},
"C45": {"note": "C45_average holds without a condition on the margin (points on the far boundary belong to the last cell); C45_agree is the specification that C22 proves for the fallback, when every point fits in the grid. Kahan summation is the exact sum in rational arithmetic."},
"C46": {"note": "For every schedule of the threads, every accepted basis size (8, 16, 32, 64), every accepted feature count (fewer than 8, or a multiple of 8), every tensor and every neighborhood with at least one center: the forward kernel gives the sum formula and agrees with the fallback; the gradient kernel gives the two gradients, which are the transposed linear maps of the projection (scalar products agree for every tensor). Real arithmetic, so the Kahan compensation is exactly zero; the launch sizes and the shared memory limits are not modelled beyond the block size."},
"C47": {"note": "For every schedule, every dimension from 2 to 6, every point tensor, neighbor list with its ranges, bandwidth and radii: the operation gives the kernel density with the constant 0.39894228 in both modes (C47_density); in constant mode it agrees with the fallback and with the density of C27 up to a relative 1e-8 (C47_agree, self-neighborhoods of usable grids); the registered gradient is the derivative of the operation for every incoming gradient along every direction, the neighbor list being fixed (C47_gradient), and so is the gradient that the Python wrapper attaches, for given bandwidths and radii (C47_attached). Real arithmetic. In mode num_points the CUDA operation uses the bandwidth 1/sqrt(N) while the fallback ignores the mode, so they differ there."},
"C48": {"note": "Also shown: the training loops never reshuffle, because iterating does not end an epoch."},
"C49": {"note": "Refuted: every neighborhood is the self neighborhood of level i; transposed without index raises AttributeError; the last documented index raises IndexError."},
"C50": {"note": "Proved when no batch element is empty; with an empty element get_sizes of a sampled level raises (C50_empty_element_refuted)."},
"C51": {"note": "The exact formula for MCConv and PointConv blocks, any number of blocks, with a passed neighborhood (C51_network_partial) and with the neighborhood the call computes (C51_own_neighborhood_partial, which agrees if the points are in the order of the grid). Refuted: the two differ otherwise (C51_order_refuted); networks of KPConv layers raise TypeError when called (C51_kernel_points_refuted)."},
"C52": {"note": "Refuted: the constructor passes use_bias to Conv1x1, which has no such argument, so no network with a block can be made. Partial: what a call computes for blocks made without that argument, for passed and own neighborhoods."},
"C53": {"note": "The exact formula for MCConv and PointConv blocks with passed and with own neighborhoods. Refuted: without passed neighborhoods the middle convolution takes the neighbors of another point unless the downsampled cloud is in the order of its grid."},
"C54": {"note": "The rounding is shown to be Flocq's binary32 rounding. Proved: cell bounds for all float32 clouds, exactly when the 1e-9 margin has an effect (magnitude below 1/32), keys when no point is in the cell beyond the last, and the search for coordinate differences up to the radius reduced by a fraction (cells+2)/2^22. C54_distances_partial also rounds the distances (differences, squares, sums in any order, square root): only points within the radius enlarged by (D+12)/2^24 are found, and all within the radius reduced by (cells+D+12)/2^22. Refuted: key collision in spite of the margin; a point within the radius that the search misses."},
"C55": {"note": "Every device and schedule, 2 to 6 dimensions (from 4 on with at least three cells along the last axis), clouds within the limit of the prefix sum (C42). Local pooling, KPConv with its loss (up to 64 kernel points) and PointConv give exactly the formulas of C31 and C34, MCConv the formula divided by a constant within 1e-8 of 1. The neighborhood is built by the call, or made before with any radius and with densities that may have been requested before (the theorems named neighborhood; pooling: built by the call). Refuted: feature counts above 8 that are no multiple of 8 are rejected; basis sizes must be 8, 16, 32 or 64. Real arithmetic."},
"C56": {"note": "All layers without a passed neighborhood, with the fallback operations on a GPU (C55 transfers to the CUDA operations). The elements of the two batches must list their points in the same order (C32 covers other orders). PointConv needs two or more output points in both batches (C34). For the regularization loss of KPConv see C71."},
"C57": {"note": "Hierarchies over clouds the fallback can index (buildable, as in C25), pooling with the fallback search on a GPU and the radius given as a vector with one entry. Contribution of every input point: Poisson sampling, or a radius of at least the diagonal of a cell; refuted for the cell average with the cell size as radius. No empty neighborhood: Poisson sampling in any dimension, cell average in at most four dimensions; refuted in five."},
"C58": {"note": "Proved for every batch of one or more clouds (C58_every_batch_partial): the logits are given by the formula, or the call raises InvalidArgumentError because a level to be sampled with Poisson disks, or with PointConv a level below the input, has a single point. All kinds of convolution, arbitrary shape-preserving normalisation and dropout; one row per point of the last level and, if the last radius exceeds the size of the clouds, one row per cloud in the order of the batch; with two or more clouds the exception is impossible (C58_logits_partial); unknown kinds raise ValueError. Refuted: one row per cloud in general (C58_rows_refuted). Refuted for one cloud smaller than the first radius: Poisson disk sampling with two or more levels (C58_single_poisson_refuted) and PointConv (C58_single_pointconv_refuted) raise an exception. Missing: float arithmetic."},
"C59": {"note": "Proved for every batch of one or more clouds (C59_every_batch_partial): the logits are given by the formula with exactly one row per cloud, or the call raises InvalidArgumentError because a level to be sampled with Poisson disks, or with PointConv a level below the input, has a single point. All kinds of convolution, arbitrary shape-preserving normalisation and dropout; with two or more clouds the exception is impossible (C59_logits_partial); unknown kinds raise ValueError. Refuted: the features of the sampled points are not their own (C59_features_refuted). Refuted for one cloud smaller than the first radius: Poisson disk sampling with two or more levels (C59_single_poisson_refuted) and PointConv (C59_single_pointconv_refuted) raise an exception. Missing: 0 levels, blocks with fewer than 4 channels (the inner layers would have no channel)."},
"C60": {"note": "Proved for both networks as stated: the rows of logits are equal for all pairs of calls whose clouds are equal up to order and translation, for batches of one or more clouds, one exception excluded: with PointConv a batch of one cloud can raise (C60_alone_refuted: the small network always does, although the same cloud in a larger batch gets logits). Normalisation and dropout are arbitrary maps of single rows (the layers outside of training). Poisson disk sampling is not covered: the sample depends on the random order of the points. Exact arithmetic, fallback operations."},
"C61": {"note": "Listing and labels proved; the history theorem holds for earlier runs that are harmless (no quick test of more than 102 files, no interruption during the write, the same number of points per file). Refuted in general: a quick test leaves uninitialised memory in the cache, an interrupted write makes all later runs fail, another number of points per file is ignored, modelnet40_small.py needs an existing directory."},
"C62": {"note": "Proved for batch sizes that divide the number of models (with PointConv: batch size 2 or more, see C58), end to end for both networks (inference, cell average sampling, features of ones as in the scripts, rowwise normalisation and dropout, clouds whose cells can be counted in 32 bit; for modelnet40_small.py the last radius covers every cloud). Refuted otherwise: the remaining models never count."},
"C63": {"note": "Proved for batch sizes not larger than the number of models."},
"C64": {"note": "Proved for all schedules: structure of the levels, thinning, subsets, equality with the specification of C25 for one cell size per level, and the same points as the fallback for cell averages (up to order). Partial because of the conditions inherited from the kernels: two or three dimensions, at most as many points as the prefix sum handles without a race (C42), a positive margin of the bounding boxes."},
"C65": {"note": "Proved for both networks, all schedules and devices, batches of one or more clouds: the formula of C58 / C59 with the hierarchy of C64 and the convolutions of C55 (MCConv divided by the third power of 0.39894228 sqrt (2 PI)). Partial because of the conditions inherited from the kernels: at most as many points as the prefix sum handles without a race (C42), input channels of the convolutions below 8 or multiples of 8 (C47), exact arithmetic."},
"C66": {"note": "Two calls with the CUDA operations: both networks, all convolutions (C66_small, C66_large), as nested postconditions, so that every execution of the one call agrees with every execution of the other. A call with the CUDA operations and one with the fallback: PointConv and KPConv (C66_small_fallback_partial, C66_large_fallback_partial). MCConv is excluded there because the CUDA densities are larger by a constant close to 1 (C55). Real arithmetic, so rounding is not covered; Poisson disk sampling is excluded because its samples depend on the order of the points."},
"C67": {"note": "Cell average sampling, inference (batch normalisation and dropout act row by row), one feature of value one per point as in the scripts. The number of points of a batch is below the limit of the scan (C43). The small network: the first points of every model lie in one cell of the last radius. If the batch size does not divide the number of models the rest is not evaluated (C62_remainder_refuted)."},
"C68": {"note": "Two calls with the CUDA operations on two devices, two calls with the fallback, and one of each. Inputs as in C34 and C55 (radius given, neighborhood computed by the layer, result in the order of the points); PointConv with the fallback needs two output points (C34)."},
"C69": {"note": "Proved for MCConv, KPConv, pooling (fallback and CUDA, all devices and schedules) and the kernel density estimate. Refuted for PointConv (C69_pointconv_refuted): it does not divide the coordinates by the radius. Inputs as in C34 and C55."},
"C70": {"note": "Proved for MCConv and PointConv blocks with the numbers of features and basis functions that the projection accepts (C46), up to the factor of the density (C48), for every device and schedule, with passed neighborhoods and with those the network builds. Without passed neighborhoods the convolutions of a cloud with itself use the centers in the order of the grid (C70_order_refuted: the result differs, as in C51). With kernel points no call returns (C70_kernel_points_refuted, as in C51). PointResNetBottleNeck cannot be constructed (C52)."},
"C71": {"note": "Fallback on a GPU and CUDA operations on all devices and schedules, inputs as in C34 and C55 (neighborhood built by the call). With the CUDA operations: numbers of features the projection accepts and at most 64 kernel points. Real arithmetic."},
"C72": {"note": "Proved for every float32 cloud, device and schedule, with and without fused multiply-add: range, meaning and injectivity of the keys (C72_keys), the error of the position (C72_position) and adjacency for the reduced radius (C72_adjacent_partial). Refuted: the grid equals that of the fallback (C72_agree_refuted), and adjacency for the full radius (C72_missed_refuted, two roundings: points at less than 4/5 of the cell size, two cells apart). Partial: for the reduced radius only; overflow to infinity and flushing of denormal numbers are not modelled; reciprocal and division are correctly rounded. The search that uses these cells is C73."},
"C73": {"note": "Proved for every device, schedule and way of rounding: the search completes, delimits its rows, repeats none, returns only points within the radius enlarged by 4/2^20 and all points within the radius reduced by (m+4)/2^20, where m bounds the coordinates counted in cells. Refuted: nothing within the radius is lost (C73_missed_refuted, a pair at less than 4/5 of the radius). Partial: the restrictions of C41 (number of centers, at least three cells along the last axis from dimension 4 on), no limit on the number of neighbors, cells and radii between 2^-100 and 2^100; overflow and flushing of denormal numbers are not modelled; the square root in the comparison with 1 is left out, which a correctly rounded square root does not change."},
"C74": {"note": "Proved for every device, schedule and way of rounding, for grid, neighborhood and sampling in float32: all operations complete and return a cloud of distinct points such that no two are within the radius reduced by (m+4)/2^20 and every point is within the radius enlarged by 4/2^20 of a selected one; the rows need not be symmetric. Refuted: nothing selected within the full radius (C74_close_refuted, two points at less than 4/5 of the radius are both selected under every schedule). Partial: the reduced radius and the restrictions of C73."},
"C75": {"note": "Proved for every random choice and every computed comparison of distances that holds below a radius small and not from a radius large on: with cells of the size of the radius, no point in the cell beyond the last one and small at most the radius reduced by (number of cells + 2)/2^22, the sampling stops after at most as many draws as points, no two selected points of an element are closer than small and every point is closer than large to a selected one. The rows need not be symmetric. C75_distances_partial shows the same for the distances that are computed in float32 (sums in any order, rounded square root), with explicit radii. Refuted without the condition on the cells: for two float32 points the sampling never stops, whatever is drawn (C75_never_ends_refuted), because the margin of the bounding box is lost. Partial: two or more points and the conditions of C54."},
"C76": {"note": "Proved for every order of the additions, clouds of at most 2^23 points: one point per computed cell, the element of its points, the error of the average, cells with one or two points (C76_averages_partial), and the distance of every point to a returned one (C76_cover_partial, at most 2^21 cells along an axis, cells of at least 2^-100). Refuted: averages lie between their points (C76_equal_refuted: three equal points are averaged to another point, whatever the order). Partial: no point in the cell beyond the last one and cells countable in 32 bit, as in C54; overflow to infinity is not modelled."},
"C77": {"note": "Proved for clouds of dimension 2 to 6 with at most 2^23 points, every device and schedule, with and without fused multiply-add in the keys: one point per computed cell with the element of its points, the error of the average, cells with one or two points (C77_average_partial). Every point is near a returned point of its element and every returned point near a point, within the size of a cell and the rounding errors (C77_cover_partial). Refuted: the average of equal points is that point (C77_equal_refuted, three points). Partial: overflow to infinity is not modelled; denormal results are not flushed to zero."},
"C78": {"note": "Global pooling for every cloud with at most 2^23 points (C78_global). Local pooling with the fallback (C78_local_partial) and with the CUDA operations for every device and schedule (C78_cuda_partial), in every layout. Refuted: the average of equal features is that feature (C78_equal_refuted, three points, every order). Partial: the neighbors are those of exact arithmetic (C54 and C73 treat the rounding of the search); conditions of C31 and C55; overflow is not modelled."},
"C79": {"note": "The error bound for all inputs, in every layout (C79_conv1x1_partial). Refuted: points with equal features get equal values (C79_rows_refuted: an order of the additions that differs between the rows). Partial: no overflow, no kernels with less than float32 precision (TF32)."},
"C80": {"note": "Max and average pooling for every order of the additions, in every layout (C80_pooling_partial). Refuted: every point within the radius contributes (C80_missed_refuted: the rounded positions of two points closer than the radius are two cells apart). Partial: between the two radii the points that contribute are not determined; no point in the cell beyond the last one (C54), one radius for all dimensions, no overflow."},
"C81": {"note": "Max and average pooling for every device, schedule and order of the additions, in every layout that exists (C81_pooling_partial). Refuted: every point closer than 4/5 of the radius contributes (C81_missed_refuted: far from the origin the rounded positions of two close points are two cells apart). Partial: dimensions 2 and 3, coordinates within 2^20 radii of the origin, the restrictions of C41; between the two ellipsoids the points that contribute are not determined."},
"C82": {"note": "Proved for Poisson disk sampling: the second sample consists of the same points with their elements, for all draws with the fallback (C82_poisson_partial, cell counts within 32 bit, positive margin) and for all devices and schedules with the CUDA operations (C82_cuda_partial, conditions of C41). Refuted: a sample of one point cannot be sampled again with the fallback (C82_single_refuted), and cell averages are averaged further because the cells move with the box (C82_average_refuted)."},
"C83": {"note": "C83_superposition_partial: MCConv, PointConv, rigid KPConv and average pooling, every layout; C83_superposition_cuda_partial: the same with the CUDA operations under every schedule, output in the order of the points; C83_conv1x1: Conv1x1 with the bias added once. Refuted for deformable KPConv (C83_deformable_refuted: twice the features give 0 instead of twice the output). Partial: real arithmetic, the clouds of C34 and C55, neighborhood built by the call; PointConv with the fallback needs two output points (C34)."},
"C84": {"note": "C84_local_partial: local pooling, every layout, comparison of average and maximum where a point is within the radius; C84_local_cuda_partial: the same with the CUDA operations under every schedule, output in the order of the points; C84_global: global pooling for every batch element with a point. Refuted without a point within the radius: the average 0 is above the maximum, the lowest float (C84_empty_refuted). Partial: the clouds of C31 and C55, real arithmetic; features not below the lowest float."},
"C85": {"note": "C85_neighbors_partial: the pairs of neighborhoods with two radii; C85_neighbors_cuda_partial: the same with the grids and searches of the CUDA operations under every schedule; C85_pooling_partial: maximum pooling in every layout; C85_pooling_cuda_partial: maximum pooling with the CUDA operations under every schedule, output in the order of the points. Averages can go down (C85_average_refuted). Partial: the clouds of C19, C31 and C55, one radius for all dimensions in the pooling layers and with CUDA, features not below the lowest float, real arithmetic in the features."}
}
