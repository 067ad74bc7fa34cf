#!/usr/bin/env python3
"""Writes properties.jsonl (one JSON object per line)."""
import json, os
P = []
def p(title, statement, quantifier, why, anchors):
    P.append(dict(id="C%02d" % (len(P) + 1), title=title, statement=statement,
                  quantifier=quantifier, why_tests_cant=why, anchors=anchors))

PC = "pylib/pc/PointCloud.py"; UT = "pylib/pc/utils.py"; GR = "pylib/pc/Grid.py"
OPS = "pylib/pc/custom_ops/custom_ops_tf.py"; WR = "pylib/pc/custom_ops/custom_ops_wrapper.py"
NB = "pylib/pc/Neighborhood.py"; SA = "pylib/pc/sampling.py"; PH = "pylib/pc/PointHierarchy.py"
LA = "pylib/pc/layers/"; IO = "pylib/io/points.py"; CU = "custom_ops/tfg_custom_ops/"

p("Padded round trip",
  "Building a PointCloud from a padded tensor [A1,..,An,V,D] with sizes and calling get_points() with no id returns a tensor of the same shape whose first sizes[b] rows of every batch element are the given rows, in order, and whose remaining rows are zero.",
  "every batch shape, every V, every sizes tensor with entries <= V, every point content",
  "The round trip must hold for every ragged size pattern including empty and full elements; tests draw a few random sizes that are never 0 and never V.",
  [PC + ":PointCloud._init_from_padded", PC + ":PointCloud.get_points", PC + ":PointCloud.get_unflatten"])
p("The three construction paths agree",
  "A batch given as padded points plus sizes, as concatenated points plus sizes, or as concatenated points plus batch_ids yields clouds with the same points, the same batch ids, the same batch size, the same sizes and the same padded retrieval (for the same max_num_points).",
  "every batch of (non-empty) clouds, every batch shape, every padding width",
  "Equality of three different code paths has to hold for all shapes; a test compares a handful of random shapes.",
  [PC + ":PointCloud.__init__", PC + ":PointCloud._init_from_segmented", PC + ":PointCloud.set_batch_shape"])
p("Unsorted segmented round trip",
  "For a cloud built from points in arbitrary batch order, get_points() places, for every batch element, exactly its points in their original relative order at the front of its padded row block, zeros behind, and loses or duplicates no point.",
  "every list of points, every assignment of batch ids (any interleaving) in which every element is non-empty",
  "Needs the stability and permutation property of the sort for every interleaving of batch ids.",
  [PC + ":PointCloud.get_unflatten", PC + ":PointCloud.get_sizes"])
p("get_sizes reports the true size of every batch element",
  "get_sizes() returns one entry per batch element, entry b being the number of points with batch id b, so the entries sum to the number of points; also when some batch element has no points.",
  "every list of batch ids and every batch size above the largest id",
  "Empty elements in the middle or at the end are exactly the inputs random tests avoid.",
  [PC + ":PointCloud.get_sizes"])
p("get_points(id) selects exactly one batch element",
  "get_points(id) returns exactly the points of batch element id in their original order; over all ids in range the results partition the cloud; an id that is not in [0,batch_size) raises IndexError.",
  "every cloud, every id",
  "The boundary id = batch_size and the partition over all ids cannot be sampled exhaustively.",
  [PC + ":PointCloud.get_points"])
p("Method calls do not interfere",
  "After any sequence of get_points/get_sizes/get_unflatten/get_AABB/set_batch_shape calls, the stored points and batch ids are unchanged, get_sizes still reports the same counts, get_points(id) gives the same answer, and get_points(max_num_points=V) has V rows per element.",
  "every finite history of method calls on one PointCloud",
  "Caching makes answers depend on call order; the number of call sequences is unbounded.",
  [PC + ":PointCloud.get_unflatten", PC + ":PointCloud.get_sizes", PC + ":PointCloud.set_batch_shape"])
p("set_batch_shape accepts exactly the compatible shapes",
  "set_batch_shape(s) succeeds if and only if the product of s equals the batch size; afterwards get_points((i1,..,in)) returns the element with the row-major index of (i1,..,in) and get_sizes() has shape s.",
  "every cloud, every shape, every multi-index",
  "The acceptance condition and the row-major addressing range over all shapes and ranks.",
  [PC + ":PointCloud.set_batch_shape", PC + ":PointCloud.get_points"])
p("Constructor input validation",
  "PointCloud(points, ...) raises ValueError when a 2D points tensor comes with neither sizes nor batch_ids and when points is 1D, AssertionError when the number of points and batch_ids differ, and rejects sizes that do not describe the given points; every consistent input is accepted.",
  "every combination of argument presence, rank and length",
  "Tests check one instance of three error branches; accepted-but-inconsistent inputs are not probed.",
  [UT + ":check_valid_point_cloud_input", PC + ":PointCloud.__init__"])
p("Feature flattening matches the points",
  "Features given in padded layout [A1,..,An,V,C] are flattened so that row i of the result belongs to point i of the cloud, whatever the batch order of the points; converting layer output back to padded layout (return_padded) is the inverse on the valid entries.",
  "every cloud (any batch id interleaving), every padded feature tensor of matching sizes",
  "A wrong permutation direction is invisible whenever batch ids are already sorted, as in all tests.",
  [UT + ":_flatten_features", LA + "utils.py:_format_output"])
p("Axis aligned bounding box",
  "get_AABB() gives, for each batch element, a box that strictly contains every point of the element and only extends beyond the extreme points by the fixed margin; get_diameter() is an upper bound of the distance between any two points of the element.",
  "every cloud, every dimension, every pair of points",
  "Containment for every point and every pair is universally quantified.",
  [PC + ":_AABB"])
p("Grid keys identify cells",
  "Two points of a grid get the same key exactly when they belong to the same batch element and lie in the same axis aligned cell of the requested size; every key is in [0, batch_size * number of cells).",
  "every cloud, every dimension, every positive cell size (including extents that are exact multiples of the cell size)",
  "Collisions only happen at cell boundaries or for large grids, which random points never hit.",
  [OPS + ":compute_keys_tf", GR + ":Grid.__init__"])
p("Grid sorting is a consistent permutation",
  "The grid's sorted points, sorted batch ids and sorted keys are the input ones under one common permutation, and keys are in descending order.",
  "every cloud, every cell size",
  "Must hold for all duplicate patterns and sizes.",
  [GR + ":Grid.__init__"])
p("The 2D access structure delimits cells exactly",
  "get_DS()[b,x,y] = (s,e) such that the sorted points with index in [s,e) are exactly the points of batch element b whose first two cell coordinates are (x,y); empty cells give an empty range.",
  "every cloud, every grid, every (b,x,y)",
  "Off-by-one range errors appear only for specific occupancy patterns.",
  [OPS + ":build_grid_ds_tf", GR + ":Grid.get_DS"])
p("Neighbor search is sound and complete",
  "With grid cell size equal to the search radius r, the neighbor list contains the pair (p,c) exactly once when p and c are in the same batch element and their distance is below r, and contains nothing else.",
  "every point cloud, every set of centers (inside or outside the bounding box), every radius > 0, every dimension >= 2",
  "Completeness is a statement about pairs that are missing from the output; the existing test only checks that reported pairs are correct.",
  [OPS + ":find_neighbors_tf", NB + ":Neighborhood"])
p("Neighbor ranges delimit each center",
  "The neighbors of center i are exactly the rows ranges[i-1]:ranges[i] (from 0 for i=0) of the neighbor list, for every center including those without neighbors; ranges is non-decreasing and ends at the number of rows.",
  "every neighbor query",
  "Centers without neighbors are rare in random tests.",
  [OPS + ":find_neighbors_tf", OPS + ":find_neighbors_no_grid"])
p("Neighbor search without GPU",
  "Without the custom ops and without a GPU the neighbor search still returns the correct neighbors (documented: it is possible to run without the custom ops package).",
  "every point cloud and center set",
  "Boundary cells are hit depending on the data, so a passing run says nothing about other data.",
  [OPS + ":find_neighbors_tf"])
p("Radius different from the cell size",
  "A neighbor query with a radius not larger than the grid cell size returns exactly the pairs closer than the radius, and per-axis radii select the corresponding ellipsoid.",
  "every grid cell size, every radius <= cell size per axis",
  "Tests always use radius = cell size and equal radii on all axes.",
  [OPS + ":find_neighbors_tf", NB + ":compute_neighborhoods", CU + "find_neighbors/cc/ops/find_neighbors_ops.cpp:FindNeighborsOp"])
p("Brute force search and grid search agree",
  "find_neighbors_no_grid returns exactly the same-batch pairs within the radius, and agrees with the grid search on every pair whose distance is not exactly the radius.",
  "every two clouds, every radius",
  "Agreement of two algorithms over all inputs.",
  [OPS + ":find_neighbors_no_grid", OPS + ":find_neighbors_tf"])
p("Neighbor ids refer to the caller's points",
  "Neighborhood original ids and compute_neighborhoods() without return_sorted_ids give indices into the points the caller supplied: the pair (j,i) appears exactly when point j of the input cloud is a neighbor of center i.",
  "every cloud, every center set, every radius",
  "Index remapping errors stay invisible unless the whole relation is compared with the unsorted input.",
  [NB + ":compute_neighborhoods", NB + ":Neighborhood.__init__"])
p("Transposed neighborhood is the converse relation",
  "neighborhood.transpose() relates (i,j) exactly when the neighborhood relates (j,i); transposing the neighborhood of a cloud with itself gives the same relation.",
  "every pair of clouds, every radius",
  "Universal over pairs of clouds.",
  [NB + ":Neighborhood.transpose", NB + ":_NeighborhoodTransposed"])
p("Poisson disk sampling separates and covers, for every random choice",
  "For every outcome of the random generator Poisson sampling terminates after at most N draws, returns distinct input points, any two samples of one batch element are at least r apart and every input point is closer than r to a sample of its batch element.",
  "every cloud, every radius > 0, every sequence of random draws",
  "A test sees one random sequence; the existing test asserts only an upper bound on the minimum distance.",
  [OPS + ":sampling_tf", SA + ":sample"])
p("Cell average sampling",
  "Cell average sampling returns exactly one point per occupied grid cell, equal to the arithmetic mean of the points in that cell, labelled with the batch element of the cell, and the mean lies inside the cell.",
  "every cloud, every cell size",
  "Needs the correspondence between output rows and cells for every occupancy pattern.",
  [OPS + ":sampling_tf", SA + ":sample"])
p("Sampling entry points do what they are called",
  "sample(nb,'poisson'|'poisson disk'|'poisson_disk') and poisson_disk_sampling() perform Poisson disk sampling; sample(nb,'average'|'cell average'|'cell_average') and cell_average_sampling() perform cell average sampling; unknown modes raise.",
  "every mode string, every cloud",
  "poisson_disk_sampling and cell_average_sampling have no tests.",
  [SA + ":poisson_disk_sampling", SA + ":cell_average_sampling", SA + ":sample", SA + ":sample_modes"])
p("Sampled ids point at the sampled points",
  "The index tensor returned with Poisson sampling satisfies: input_points[ids] are the sampled points and input_batch_ids[ids] their batch ids.",
  "every cloud, every random choice",
  "Index remapping over all permutations.",
  [SA + ":sample", SA + ":poisson_disk_sampling"])
p("Hierarchy structure",
  "PointHierarchy(pc, cell_sizes, mode) has len(cell_sizes)+1 levels, level 0 is pc, every level keeps the batch size and batch shape, no batch element that has points becomes empty, sizes never increase and with Poisson sampling every level is a subset of the previous one.",
  "every cloud, every list of cell sizes, every random choice",
  "Induction over an unbounded number of levels and random draws.",
  [PH + ":PointHierarchy"])
p("Partially given cell sizes",
  "If a level's cell sizes have fewer entries than dimensions the last given value is used for the remaining dimensions; more entries than dimensions are rejected.",
  "every cell size list length and dimension",
  "Only one-element lists are exercised, where first and last coincide.",
  [PH + ":PointHierarchy.__init__"])
p("Kernel density estimate",
  "The density of a point is the sum over its neighbors (itself included) of the product Gaussian kernel of the per-axis differences divided by bandwidth*radius, divided by the product of bandwidths; it is positive, invariant under translating the cloud and independent of the order of points.",
  "every cloud, radius, bandwidth",
  "Equality with the formula over all inputs and invariance laws are universal.",
  [OPS + ":compute_pdf_tf", NB + ":Neighborhood.compute_pdf", NB + ":density_estimation"])
p("Density per neighbor refers to the right point",
  "Neighborhood.get_pdf() returns for each neighbor pair (p,c) the density of point p (divided by the number of neighbors of c if normalize); repeated calls return the same tensor.",
  "every neighborhood, every history of compute_pdf/get_pdf calls",
  "Gather index mix-ups (neighbor vs. center) cancel out in symmetric test data.",
  [NB + ":Neighborhood.compute_pdf", NB + ":Neighborhood.get_pdf", NB + ":density_estimation_in_neighborhoods"])
p("Density inside neighborhoods",
  "compute_pdf_inside_neighborhoods gives for the k-th neighbor of a center the kernel sum over all neighbors of the same center and of no other center.",
  "every neighborhood list in range form",
  "The index tensor construction must be right for every size pattern.",
  [OPS + ":compute_pdf_inside_neighborhoods_tf"])
p("Basis projection",
  "basis_proj(basis, features, neighborhood)[i,c,k] equals the sum over the neighbors p of center i of features[p,c]*basis[(p,i),k]; centers without neighbors get zero; it is bilinear and independent of the order of neighbors.",
  "every neighborhood, every feature and basis tensor",
  "Equality over all index patterns.",
  [OPS + ":basis_proj_tf", WR + ":basis_proj"])
p("Pooling layers",
  "GlobalMaxPooling/GlobalAveragePooling give for each batch element the maximum/mean of its feature rows; MaxPooling/AveragePooling give for each output point the maximum/mean of the features of the input points within the pooling radius.",
  "every cloud pair, features, radius",
  "Equality for all inputs including padded feature layouts and unsorted batch ids.",
  [LA + "Pooling.py"])
p("Layers are permutation equivariant",
  "Reordering the input points together with their features does not change convolution and pooling outputs; reordering the output points reorders the outputs accordingly.",
  "every permutation of input and output points",
  "n! permutations.",
  [LA + "MCConv.py", LA + "KPConv.py", LA + "PointConv.py", LA + "Pooling.py", LA + "Conv1x1.py"])
p("Layers are translation invariant",
  "Translating the input and output clouds by the same vector leaves convolution outputs unchanged.",
  "every vector, every cloud pair",
  "Universal over vectors and clouds.",
  [LA + "MCConv.py", LA + "KPConv.py", LA + "PointConv.py"])
p("Convolutions compute their published formula",
  "MCConv: out[i] = sum over neighbors of f[p]*MLP((p-c)/r)/pdf; KPConv: out[i] = sum over neighbors and kernel points of f[p]*w(dist to kernel point)*W_k, independent of the internal padding of the number of kernel points; Conv1x1: one affine map per point.",
  "every cloud pair, weights, features",
  "Equality over all weights; padding effects only show for particular kernel counts.",
  [LA + "MCConv.py:MCConv._monte_carlo_conv", LA + "KPConv.py:KPConv._kernel_point_conv", LA + "Conv1x1.py"])
p("Random rotation is a rigid motion",
  "random_rotation preserves all pairwise distances and orientation for every drawn angle triple.",
  "every angle triple, every pair of points",
  "Continuous parameter space.",
  [LA + "utils.py:random_rotation"])
p("Kernel point generators",
  "spherical_kernel_points(n) returns n distinct points in the unit ball with one at the origin, for every supported n; cube_kernel_points(k) returns the k^3 distinct points of the regular lattice of [0,1]^3.",
  "every documented n, every rotation; every k",
  "The lattice claim ranges over all k; distinctness of exact algebraic coordinates is not settled in floating point.",
  [LA + "utils.py:spherical_kernel_points", LA + "utils.py:cube_kernel_points"])
p("Text loaders read what was written",
  "Loading an ASCII file whose lines hold delimiter separated numbers returns one row per line with the first `dimension` entries as coordinates and the rest as features, for every dimension, with or without final newline; max_num_points=None reads the whole file.",
  "every file content, delimiter, dimension",
  "The loaders have no tests; file shapes are unbounded.",
  [IO + ":load_points_from_file_to_tensor", IO + ":load_points_from_file_to_numpy"])
p("Batch loaders pad correctly",
  "load_batch_of_points/load_batch_of_meshes return, for files of any lengths, a padded tensor in which element b holds file b's rows followed by zeros, sizes[b] its number of rows, and wrong batch shapes are rejected; feeding the result to PointCloud reproduces the files.",
  "every list of files of any lengths, every batch shape",
  "Unbounded length patterns.",
  [IO + ":load_batch_of_points", IO + ":load_batch_of_meshes"])
p("GPU keys agree with the reference keys",
  "The CUDA key computation returns the same keys as the TensorFlow fallback and decoding a key gives back the cell and batch element.",
  "every cloud, dimension 2..6, cell size",
  "Agreement of two implementations on all inputs.",
  [CU + "shared/cc/kernels/grid_utils.h", CU + "compute_keys/cc/kernels/compute_keys_kernels.cu.cc", OPS + ":compute_keys_tf"])
p("GPU access structure is schedule independent",
  "For every order in which the GPU threads run, the CUDA grid structure equals the TensorFlow one.",
  "every thread schedule, every sorted key list",
  "Schedules cannot be enumerated by running.",
  [CU + "build_grid_ds/cc/kernels/build_grid_ds_kernels.cu.cc"])
p("GPU neighbor search is correct under every schedule",
  "For every thread interleaving the CUDA neighbor search returns, per center, each same-batch point closer than the (per-axis scaled) radius exactly once, with correct ranges.",
  "every schedule, every cloud, dimension 2..6",
  "Interleavings of atomic additions are unbounded; duplicates depend on grid wrap-around.",
  [CU + "find_neighbors/cc/kernels/find_ranges_grid_ds_kernels.cu.cc", CU + "find_neighbors/cc/kernels/count_neighbors_kernels.cu.cc", CU + "find_neighbors/cc/kernels/store_neighbors_kernels.cu.cc"])
p("GPU prefix sum",
  "The CUDA scan replaces an array of counts by its exclusive prefix sums and returns the total, for every array length.",
  "every array length and content",
  "The hierarchical block recursion has length dependent cases.",
  [CU + "find_neighbors/cc/kernels/scan_alg_kernels.cu.cc"])
p("GPU neighbor limit",
  "With max_neighbors = k > 0 each center gets min(k, number of neighbors) rows, all genuine neighbors of that center and pairwise distinct.",
  "every schedule, every k, every cloud",
  "A race only shows under particular interleavings.",
  [CU + "find_neighbors/cc/kernels/store_neighbors_kernels.cu.cc:store_neighbors_limited"])
p("GPU Poisson sampling",
  "For every thread schedule the CUDA Poisson sampling selects points that are pairwise non-neighbors and every point has a selected neighbor.",
  "every schedule, every cloud",
  "Parallel greedy selection depends on the interleaving.",
  [CU + "sampling/cc/kernels/count_sampling_pd_kernels.cu.cc", CU + "sampling/cc/kernels/store_sampled_pts_kernels.cu.cc"])
p("GPU cell average sampling",
  "The CUDA path finds the same unique cells as the fallback, and returns per cell the mean and the batch element, for every schedule.",
  "every schedule, every sorted key list",
  "Order of atomic slot allocation varies between runs.",
  [CU + "sampling/cc/kernels/count_unique_keys_kernels.cu.cc", CU + "sampling/cc/kernels/store_unique_keys_kernels.cu.cc", CU + "sampling/cc/kernels/sampling_avg_kernels.cu.cc"])
p("GPU basis projection and its gradient",
  "The CUDA projection equals the fallback for every accepted feature count, and the gradient op returns the exact transposed linear maps.",
  "every accepted size, every tensor",
  "Feature grouping arithmetic depends on the channel count; gradients are checked numerically on one size.",
  [CU + "basis_proj/cc/kernels/basis_proj_kernels.cu.cc", CU + "basis_proj/cc/kernels/basis_proj_grads_kernels.cu.cc", CU + "basis_proj/cc/ops/basis_proj_ops.cpp"])
p("GPU density and its gradient",
  "The CUDA density agrees with the fallback in constant bandwidth mode to a relative error of 1e-8 (the kernel has eight digits of 1/sqrt(2 pi)), and the registered gradient is the exact derivative with respect to the points.",
  "every cloud, bandwidth, radius",
  "Numerical Jacobian tests sample a single configuration with loose tolerance.",
  [CU + "compute_pdf/cc/kernels/compute_pdf_kernels.cu.cc", WR + ":_compute_pdf_grad"])
p("Training data generator covers the data set",
  "In every epoch, for every shuffle, the batches of the ModelNet generator contain floor(N/B)*B distinct models, no model twice, each with its own label.",
  "every permutation drawn, every N and B",
  "n! shuffles.",
  ["modelnet40.py:modelnet_data_generator", "modelnet40_small.py:modelnet_data_generator"])

p("Hierarchy neighborhoods",
  "get_neighborhood(i) relates level i to level i+1: its centers are the points of level i+1 and its neighbors points of level i; transposed=True swaps the roles; every documented index works.",
  "every hierarchy, every level, every cloud",
  "Which points are the centers depends on all levels and on random sampling.",
  ["pylib/pc/PointHierarchy.py:PointHierarchy.get_neighborhood"])
p("Hierarchy queries",
  "get_points, get_sizes and set_batch_shape of a hierarchy answer level by level with the true points and sizes of every level; a batch shape is applied to every level or rejected as a whole.",
  "every cloud and history of calls on it, every list of cell sizes, every random choice",
  "Depends on caches, batch shapes and unboundedly many levels.",
  ["pylib/pc/PointHierarchy.py:PointHierarchy.get_points", "pylib/pc/PointHierarchy.py:PointHierarchy.get_sizes", "pylib/pc/PointHierarchy.py:PointHierarchy.set_batch_shape"])

p("PointResNet computes the residual formula",
  "PointResNet applied to features of a point cloud with a convolution radius returns, for every number of blocks, feature channels, kind of convolution (MCConv, KPConv, PointConv, by any accepted spelling of its name) and trained weights, the features after all blocks, where block k replaces the features X by conv(act(norm(conv(act(norm(X)))))) plus X, or plus an affine map of X if projections are used; both convolutions range over the points of the same batch element within the radius of the output point. The result does not depend on whether a neighborhood of the cloud is passed or computed by the call. Unknown names of convolutions raise KeyError.",
  "all point clouds, radii, bandwidths, block counts, channel counts, weights, normalisation and activation functions that keep the shape",
  "Tests check output shapes for a few random clouds; equality with the formula must hold for all weights and clouds.",
  ["pylib/pc/layers/network_blocks.py: PointResNet, layer_types"])
p("PointResNetBottleNeck computes the bottleneck formula",
  "A PointResNetBottleNeck can be constructed for every positive number of blocks, and a call returns the features after all blocks, where block k adds to the (projected) features an affine map back to the outer number of channels of a convolution of an affine map of the features to the inner number of channels, each layer preceded by normalisation and activation.",
  "all point clouds, radii, block counts, inner and outer channel counts, weights",
  "Needs all weights and clouds; construction must succeed for all block counts.",
  ["pylib/pc/layers/network_blocks.py: PointResNetBottleNeck"])
p("PointResNetSpatialBottleNeck computes the spatial bottleneck formula",
  "PointResNetSpatialBottleNeck returns the features after all blocks, where block k adds to the (projected) features of the cloud the result of a convolution to the downsampled cloud within the first radius, a convolution inside the downsampled cloud within the second and a convolution back to the cloud within the third, each preceded by normalisation and activation. The result does not depend on whether the three neighborhoods are passed or computed by the call.",
  "all pairs of point clouds, radii, block counts, channel counts, weights",
  "Needs all weights and pairs of clouds, in any storage order of the points.",
  ["pylib/pc/layers/network_blocks.py: PointResNetSpatialBottleNeck"])

p("Grid and search in float32",
  "With the float32 arithmetic the library uses, every point of a cloud is assigned a cell of its grid, points of different elements or cells get different keys, the box encloses its points with a margin, and the radius search with cells of the size of the radius finds every point of the same element closer than the radius.",
  "all float32 clouds, cell sizes, radii, centers",
  "Rounding errors depend on the exact bits of all coordinates; the failing inputs lie within one unit in the last place of cell boundaries.",
  ["pylib/pc/PointCloud.py:_AABB", "pylib/pc/Grid.py:Grid", "pylib/pc/custom_ops/custom_ops_tf.py:compute_keys_tf", "pylib/pc/custom_ops/custom_ops_tf.py:find_neighbors_tf"])

p("Layers with the CUDA operations agree with the fallback",
  "With the custom CUDA operations installed, local pooling, MCConv, KPConv (rigid and deformable, with its regularization loss) and PointConv complete and return, for every schedule of the GPU threads, the same results as with the TensorFlow fallback: the pooling or convolution formula over the points of the same batch element within the radius of each output point.",
  "all devices, schedules, pairs of clouds, radii, bandwidths, features, weights",
  "The tests of the layers run on whichever operations are installed, never on both; the schedule of the threads cannot be controlled by a test.",
  ["pylib/pc/custom_ops/__init__.py", "pylib/pc/custom_ops/custom_ops_wrapper.py", "pylib/pc/layers/MCConv.py:MCConv.__call__", "pylib/pc/layers/KPConv.py:KPConv.__call__", "pylib/pc/layers/PointConv.py:PointConv.__call__", "pylib/pc/layers/Pooling.py:_LocalPointPooling.__call__"])

p("Batch elements do not influence each other",
  "The output features of a layer for one element of a batch depend only on the points, features and output points of that element: if an element of one batch and an element of another batch agree in these, every layer (MCConv, KPConv, PointConv, Conv1x1, local and global pooling) returns the same features for both, whatever the other elements of the batches are.",
  "all pairs of batches, elements, radii, features, weights",
  "It is a statement about pairs of inputs; a leak from one element to another only shows for particular positions of the other elements.",
  ["pylib/pc/layers/MCConv.py:MCConv.__call__", "pylib/pc/layers/KPConv.py:KPConv.__call__", "pylib/pc/layers/PointConv.py:PointConv.__call__", "pylib/pc/layers/Pooling.py", "pylib/pc/layers/Conv1x1.py:Conv1x1.__call__", "pylib/pc/Neighborhood.py:Neighborhood.__init__"])

p("Pooling between the levels of a hierarchy misses nothing",
  "If the features of one level of a point hierarchy are pooled to the next level with a radius that is not smaller than the cell sizes of that level, every output point has at least one point of the upper level within the radius, so that every pooled value is the largest (or the mean) of actual features and never a placeholder, and every point of the upper level lies within the radius of at least one output point.",
  "all point clouds, numbers of levels, cell sizes, sampling methods, radii not smaller than the cell sizes, features",
  "It depends on the positions of all points; failures need particular arrangements of points in a cell and more dimensions than the tests use.",
  ["pylib/pc/PointHierarchy.py:PointHierarchy", "pylib/pc/sampling.py:sample", "pylib/pc/layers/Pooling.py:MaxPooling", "pylib/pc/layers/Pooling.py:AveragePooling", "modelnet40.py:conv_block"])

p("The small classification network returns one row of logits per cloud",
  "The network of modelnet40_small.py, called with a padded batch of clouds, features and sizes, returns one row of logits per cloud, in the order of the batch: the convolutions of the chosen kind between consecutive levels of the hierarchy of the valid points, with normalisation, activation and a 1x1 convolution between them, followed by the two dense layers. The features of a valid point enter with that point. A name that is not one of the three convolutions is rejected by the constructor.",
  "all batches, hierarchies, radii, channel counts, kinds of convolution, sampling methods, weights, states of normalisation and dropout",
  "The script is only run on one data set; whether rows and labels correspond depends on the positions of all points at the last level.",
  ["modelnet40_small.py:mymodel.__init__", "modelnet40_small.py:mymodel.__call__"])

p("The residual classification network returns one row of logits per cloud",
  "The network of modelnet40.py, called with a padded batch of clouds, features and sizes, returns exactly one row of logits per cloud, in the order of the batch: an initial convolution and a residual block on the first sampled level, a strided and a plain residual block on every further level, the mean over the points of each cloud, and two dense layers. The feature of a sampled point is the one given for that point. A name that is not one of the three convolutions is rejected by the constructor.",
  "all batches, hierarchies, radii, channel counts, kinds of convolution, sampling methods, weights, states of normalisation and dropout",
  "The script is only run on one data set with constant features, where exchanged features cannot be seen.",
  ["modelnet40.py:conv_block", "modelnet40.py:mymodel.__init__", "modelnet40.py:mymodel.__call__"])

p("The prediction for a cloud depends on that cloud only",
  "Outside of training and with cell average sampling, the logits that the classification networks return for a cloud do not change if its points are given in another order, if the cloud is translated, if the other clouds of the batch or their number change, or if the clouds are padded to another length. For the network of modelnet40_small.py the features are reordered with the points and the last level has one point per cloud; for the network of modelnet40.py the features of the cloud are constant, as in the script.",
  "all pairs of calls, batches, positions in the batch, orders of the points, translations, numbers of levels, radii, kinds of convolution, weights",
  "It is a statement about pairs of calls of a whole network; the order of the sampled points, the grids and the neighbor lists all change between the two calls.",
  ["modelnet40_small.py:mymodel.__call__", "modelnet40.py:mymodel.__call__", "pylib/pc/PointHierarchy.py:PointHierarchy", "pylib/pc/sampling.py:cell_average_sampling"])

p("The scripts train on the listed points with the right labels, whatever ran before",
  "The training scripts assign to every file of a listing the position of its category in the file of category names, and reject a listing that names an unknown category. Every run trains and tests on the first points of each listed file, with the number of points per file that this run asks for, whatever runs with other settings took place before and wherever they were interrupted.",
  "all files of names and listings, all data sets, all sequences of earlier runs with their settings, all points at which a run is interrupted",
  "The cache file makes a run depend on all runs before it; failures need an interruption or a change of settings between two runs.",
  ["modelnet40.py:quick_test", "modelnet40.py:points_per_file", "modelnet40_small.py:quick_test", "modelnet40_small.py:points_per_file", "pylib/io/points.py:load_points_from_file_to_numpy"])

p("The reported test accuracy is the fraction of correct predictions over the test set",
  "The evaluation at the end of an epoch reports the mean loss over the models of the test set and the fraction of models whose largest logit is at the position of the label, each model counted once, whatever the order in which the generator shows the models and whatever the batch size is; the prediction for a model does not depend on the models it shares a batch with.",
  "all test sets, shuffles, batch sizes, histories of the generator, weights, losses, for both networks",
  "The script prints one number for one shuffle and one batch size; that it would be the same for all of them is a statement about pairs of executions of the whole network.",
  ["modelnet40.py:training", "modelnet40_small.py:training", "modelnet40.py:modelnet_data_generator", "modelnet40.py:mymodel.__call__", "modelnet40_small.py:mymodel.__call__"])

p("The learning rate is constant within an epoch and falls every 20 epochs",
  "In epoch e of a training every step uses the learning rate 0.001 * 0.7^floor(e/20), one step per batch of the generator, and this is the learning rate that the script prints for the epoch.",
  "all numbers of epochs and models, batch sizes not larger than the number of models",
  "The rate depends on a step counter over the whole training; a wrong boundary shows only after 20 epochs.",
  ["modelnet40.py:training", "modelnet40_small.py:training", "modelnet40.py:lr_decay"])

p("Hierarchies built with the CUDA operations have the same structure for every schedule",
  "With the custom CUDA operations a point hierarchy can be built for every batch, also if a level has a single point: one level more than cell sizes, level 0 is the given cloud, batch size and batch shape are kept, and every level is a Poisson disk sample (for the ellipsoid of the cell sizes) or the cell average of the level above, with no element gaining points or becoming empty. With cell average sampling the levels have the same points as the hierarchy built by the TensorFlow fallback, up to their order.",
  "all batches, cell sizes, numbers of levels, sampling methods, devices, interleavings of the threads of all kernel launches",
  "Every level is built from the result of the previous kernels, so the number of executions multiplies from level to level.",
  ["pylib/pc/PointHierarchy.py:PointHierarchy.__init__", "pylib/pc/sampling.py:sample", "pylib/pc/Grid.py:Grid", "pylib/pc/Neighborhood.py:Neighborhood"])

p("The classifiers compute the same function with the CUDA operations, for every schedule",
  "With the custom CUDA operations both classification networks return logits for every batch of one or more non-empty clouds, for every device and every interleaving of the threads, and these logits are what the layers prescribe on the sampled hierarchy: the convolutions along the levels, normalisation, activation, the affine maps and residual blocks, the pooling over each cloud and the two dense layers, with one row per cloud for the residual network and, if the last radius exceeds the clouds, for the small one.",
  "all batches, weights, radii, numbers of levels, kinds of convolution, sampling methods, devices, interleavings of the threads of all kernel launches, for channel counts that the kernels accept",
  "A forward pass launches dozens of kernels whose interleavings multiply; a test sees one of them on one device.",
  ["modelnet40_small.py:mymodel.__call__", "modelnet40.py:mymodel.__call__", "modelnet40.py:conv_block.__call__", "pylib/pc/layers/MCConv.py:MCConv.__call__", "pylib/pc/layers/PointConv.py:PointConv.__call__", "pylib/pc/layers/KPConv.py:KPConv.__call__", "pylib/pc/PointHierarchy.py:PointHierarchy.__init__"])

p("A prediction does not depend on the machine",
  "With cell average sampling and outside of training, the logits that a classification network returns for a cloud do not depend on the device, on the schedule of the threads, on the other clouds of the batch, on the padding, on the order of the points or on a translation of the cloud; and they are the same with the custom CUDA operations and with the TensorFlow fallback for PointConv and KPConv.",
  "all pairs of calls on batches that contain the same cloud, all devices and interleavings of the threads of all kernel launches, weights, radii, numbers of levels, channel counts that the kernels accept",
  "A statement about pairs of executions on two machines; a test machine runs one device, one schedule and one of the two implementations.",
  ["modelnet40_small.py:mymodel.__call__", "modelnet40.py:mymodel.__call__", "pylib/pc/sampling.py:sample", "pylib/pc/PointHierarchy.py:PointHierarchy.__init__", "pylib/pc/layers/PointConv.py:PointConv.__call__", "pylib/pc/layers/KPConv.py:KPConv.__call__"])

p("The reported accuracy does not depend on the machine",
  "With cell average sampling and the custom CUDA operations, every model of the test set has scores that depend only on its points and on the weights: whatever the device, the schedule of the threads, the batch size and the order of the models, the validation loop ends without an error and reports the mean loss and the fraction of correct predictions over these scores, if the batch size divides the number of models.",
  "all test sets, labels, losses, weights, radii, batch sizes that divide the number of models, reachable states of the generator, devices and interleavings of the threads of all kernel launches of all batches",
  "The result aggregates thousands of kernel launches with their own schedules; a test sees one machine, one order and one batch size.",
  ["modelnet40.py:training", "modelnet40_small.py:training", "modelnet40.py:modelnet_data_generator", "modelnet40.py:mymodel.__call__", "modelnet40_small.py:mymodel.__call__"])

p("A layer gives the points of a cloud the same features in any batch and on any machine",
  "For a cloud that two batches contain, with the same features and output points up to the order of the points and a translation, MCConv, KPConv, PointConv, max pooling and average pooling give corresponding output points the same features, whatever the other batch elements, the devices and the schedules of the threads are, and also if one of the calls or both use the TensorFlow fallback; for MCConv the two implementations differ by one constant factor within 1e-8 of 1.",
  "all pairs of batches that contain the same cloud, all dimensions, radii, weights, features, permutations, translations, devices, interleavings of the threads of all kernel launches",
  "A statement about pairs of executions on two machines with different batches; a test runs one order of the points, one batch and one device.",
  ["pylib/pc/layers/MCConv.py:MCConv.__call__", "pylib/pc/layers/KPConv.py:KPConv.__call__", "pylib/pc/layers/PointConv.py:PointConv.__call__", "pylib/pc/layers/Pooling.py:_LocalPointPooling.__call__"])

p("Scaling a cloud together with the radii changes nothing",
  "If all coordinates of a cloud are multiplied by a positive number and the radius of the layer (and the influence distance of KPConv) is multiplied by the same number, MCConv, KPConv and PointConv give every output point the same features; pooling and the kernel density estimates with one bandwidth for all axes depend only on the distances relative to the radius, so they are also the same for rotated and reflected clouds.",
  "all clouds, batches, positive factors, orders of the points, translations, rotations and reflections, weights, dimensions, with the TensorFlow fallback and with the CUDA operations on all devices and schedules",
  "A relation between two executions for every factor and rotation; a test can compare a few factors.",
  ["pylib/pc/layers/MCConv.py:MCConv.__call__", "pylib/pc/layers/KPConv.py:KPConv.__call__", "pylib/pc/layers/PointConv.py:PointConv.__call__", "pylib/pc/layers/Pooling.py:_LocalPointPooling.__call__", "pylib/pc/custom_ops/custom_ops_tf.py:compute_pdf_tf"])

p("Residual networks on the GPU",
  "With the custom CUDA operations, PointResNet and PointResNetSpatialBottleNeck compute the same sequence of pre-activated convolutions and shortcuts as with the fallback: every convolution is the layer formula on exactly the neighborhoods of its radius, the densities differ from the definition by one constant factor, and no device, number of threads or interleaving of the kernels changes the result, whether the neighborhoods are passed or built by the network.",
  "all clouds, batches, radii, bandwidths, weights, numbers of blocks, normalisations and activations that keep the shape, devices and interleavings of the threads of all kernel launches",
  "A call launches dozens of kernels whose schedules all vary; a test sees one of them on one machine.",
  ["pylib/pc/layers/network_blocks.py:PointResNet.__call__", "pylib/pc/layers/network_blocks.py:PointResNetSpatialBottleNeck.__call__", "pylib/pc/custom_ops/custom_ops_wrapper.py", "pylib/pc/Neighborhood.py:Neighborhood.transpose"])

p("The regularization loss of a batch is the sum of the losses of its clouds",
  "After a deformable KPConv layer was called with a batch, its regularization loss is the sum, over the batch elements with output points, of the losses it gives for these clouds alone. The loss of a cloud does not depend on the order of its points, on a translation, on the implementation (TensorFlow fallback or CUDA operations), the device or the schedule, nor on the unit of length if the radius and the influence distance are given in the same unit.",
  "all batches, clouds, orders of the points, translations, positive factors, weights, kernel points, interpolations, devices and interleavings of the threads of all kernel launches",
  "A relation between the executions on a batch and on each of its clouds, for every batch and every order; a test compares a few batches.",
  ["pylib/pc/layers/KPConv.py:KPConv.regularization_loss", "pylib/pc/layers/KPConv.py:KPConv.__call__"])

p("Cells of the grid on the GPU under float32 rounding",
  "For every float32 cloud, the CUDA operation assigns every point a cell of the grid, so that keys are always in range and shared only by points of the same batch element and computed cell; the computed position differs from the exact one by at most a small fraction of the distance from the origin counted in cells, and points that are closer than the cell size reduced by that error get the same or adjacent cells. The grid is the same as the one of the TensorFlow fallback.",
  "all float32 clouds, cell sizes, compilations with and without fused multiply-add, devices and interleavings of the threads",
  "The rounding errors grow with the distance from the origin and show only for special coordinates; tests use clouds near the origin.",
  ["custom_ops/tfg_custom_ops/shared/cc/kernels/grid_utils.h:compute_cell_gpu_funct", "pylib/pc/custom_ops/custom_ops_wrapper.py:compute_keys", "custom_ops/tfg_custom_ops/compute_keys/cc/kernels/compute_keys_kernels.cu.cc"])

p("Neighbors found on the GPU under float32 rounding",
  "For every float32 cloud and center the CUDA search, with the cells and the distances it computes in float32, finds the points within the radius: it completes, the ranges delimit the rows of every center, no row occurs twice, every row is a point of the same batch element within the radius enlarged by the rounding error, and every such point within the radius reduced by the rounding error is found, where the errors are a small fraction of the radius that grows with the distance from the origin counted in cells.",
  "all clouds, centers, radii, cell sizes, dimensions 2 to 6, compilations with and without fused multiply-add, devices and interleavings of the threads of all kernel launches",
  "Lost neighbors depend on rounding errors for special coordinates far from the origin and on the schedule; tests compare counts on random clouds near the origin.",
  ["pylib/pc/custom_ops/custom_ops_wrapper.py:find_neighbors", "custom_ops/tfg_custom_ops/find_neighbors/cc/kernels/count_neighbors_kernels.cu.cc", "custom_ops/tfg_custom_ops/find_neighbors/cc/kernels/store_neighbors_kernels.cu.cc", "custom_ops/tfg_custom_ops/shared/cc/kernels/grid_utils.h:compute_cell_gpu_funct"])

p("Poisson disk sampling on the GPU under float32 rounding",
  "For every float32 cloud Poisson disk sampling with the CUDA operations, whose grid and neighbors are computed in float32, returns a Poisson disk sample: all operations complete, the returned points are distinct points of the cloud with their batch elements, no two of them are within the radius reduced by the rounding error, and every point is within the radius, enlarged by the rounding error, of a returned one, whatever the order in which the threads of all launches run and although two points may disagree on whether they are neighbors.",
  "all clouds, radii, cell sizes, dimensions 2 to 6, compilations with and without fused multiply-add, devices and interleavings of the threads of all kernel launches",
  "Whether two selected points are too close depends on rounding errors of three operations and on the schedule; a test sees one schedule on one device.",
  ["pylib/pc/sampling.py:sample", "pylib/pc/Neighborhood.py:Neighborhood", "pylib/pc/custom_ops/custom_ops_wrapper.py:sampling", "custom_ops/tfg_custom_ops/sampling/cc/kernels/count_sampling_pd_kernels.cu.cc", "custom_ops/tfg_custom_ops/shared/cc/kernels/grid_utils.h:compute_cell_gpu_funct"])

p("Poisson disk sampling of the fallback under float32 rounding",
  "For every float32 cloud Poisson disk sampling with the TensorFlow fallback, whose grid and neighbors are computed in float32, stops after at most as many draws as there are points and returns a Poisson disk sample: distinct points of the cloud with their batch elements, no two of an element closer than the radius reduced by the rounding error, and every point closer than the radius, enlarged by the rounding error, to a returned one of its element, whatever is drawn and although two points may disagree on whether they are neighbors.",
  "all float32 clouds, radii, cell sizes, random draws and roundings of the computed distances",
  "The loop ends only if every point is among its own neighbors, which depends on the rounding of the bounding box; tests use clouds for which the margin of the box is not lost.",
  ["pylib/pc/sampling.py:sample", "pylib/pc/custom_ops/custom_ops_tf.py:sampling_tf", "pylib/pc/custom_ops/custom_ops_tf.py:find_neighbors_tf", "pylib/pc/Grid.py:Grid"])

p("Cell averages of the fallback under float32 rounding",
  "For every float32 cloud cell average sampling with the TensorFlow fallback returns one point per occupied cell, as the cells are computed in float32, labelled with the batch element of the points of the cell and equal to their average up to the rounding error, whatever the order in which the coordinates are added: the error is at most the largest magnitude times the number of points of the cell divided by 2^23. A point that is alone in its cell is returned unchanged, the average of two points lies between them, and every point of the cloud differs in every coordinate by at most the cell size, enlarged by the rounding errors, from a returned point of its element. The average of the points of a cell lies between them.",
  "all float32 clouds, cell sizes, centers and orders of the additions",
  "The order of the additions depends on the device and the library version; the errors show only for many points in one cell or for special coordinates.",
  ["pylib/pc/sampling.py:sample", "pylib/pc/custom_ops/custom_ops_tf.py:sampling_tf", "pylib/pc/Grid.py:Grid"])

p("Cell averages with the CUDA operation under float32 rounding",
  "For every float32 cloud cell average sampling with the custom CUDA operations completes on every device and schedule and returns one point per occupied cell, as the operation computes the cells in float32, labelled with the batch element of the points of the cell and equal to their average up to the rounding error: at most the largest magnitude times the number of points of the cell divided by 2^23. A point that is alone in its cell is returned unchanged, and the average of two points lies between them. The average of equal points is that point.",
  "all float32 clouds of dimension 2 to 6, cell sizes, devices, schedules and either way of rounding the cell position",
  "The errors show only for special coordinates or many points in one cell, and the device decides how the cells are rounded.",
  ["pylib/pc/sampling.py:sample", "custom_ops/tfg_custom_ops/sampling/cc/kernels/sampling_avg_kernels.cu.cc:sampling_avg_gpu", "custom_ops/tfg_custom_ops/shared/cc/kernels/math_helper.h:operator+="])

p("Average pooling under float32 rounding",
  "For float32 features, global average pooling returns for every batch element, and local average pooling for every center, with the TensorFlow fallback and with the custom CUDA operations, the average of each feature over the points of the element respectively within the radius, up to the rounding error, whatever the order in which the features are added: at most the largest magnitude times the number of points divided by 2^23. The features of a single point are returned unchanged and the average of two points lies between them; without points the result is 0. The average of equal features is that feature.",
  "all clouds, float32 features, radii, layouts, devices, schedules and orders of the additions",
  "The order of the additions depends on the device, the schedule and the library; the errors show only for special values or many points.",
  ["pylib/pc/layers/Pooling.py:GlobalAveragePooling", "pylib/pc/layers/Pooling.py:AveragePooling", "pylib/pc/layers/Pooling.py:_LocalPointPooling"])

p("The point-wise convolution under float32 rounding",
  "For all features, weights and biases the point-wise convolution returns for every point the linear combinations of its features plus the bias up to the rounding error, whatever the order of the additions and with or without fused multiply-add: at most (C_in + 1) / 2^23 times the sum of the magnitudes of the products and the bias. Points with equal features get equal values.",
  "all clouds, features, weights, numbers of input features below 2^22 and orders of the additions",
  "The order of the additions depends on the matrix product of the library, on its version, the device and the shape of the input.",
  ["pylib/pc/layers/Conv1x1.py:Conv1x1.__call__"])

p("Local pooling under float32 rounding",
  "For float32 points, radius and features, local max and average pooling with the TensorFlow fallback, whose grid, distances and features are all computed in float32, return for every output point the maximum respectively the average, up to the rounding error of the additions, of each feature over distinct points of the same batch element: all points within the radius reduced by the rounding error, and none beyond the radius enlarged by it. Every point within the radius contributes.",
  "all float32 clouds of dimension 2 to 1024, centers, radii, features, layouts, orders of the additions and roundings of the distances",
  "Which points near the boundary of the ball contribute depends on rounding errors of the box, the cells and the distances; a test sees some clouds where none of them matters.",
  ["pylib/pc/layers/Pooling.py:_LocalPointPooling", "pylib/pc/layers/Pooling.py:MaxPooling", "pylib/pc/layers/Pooling.py:AveragePooling", "pylib/pc/custom_ops/custom_ops_tf.py:find_neighbors_tf", "pylib/pc/Grid.py:Grid"])

p("Local pooling with the CUDA operations under float32 rounding",
  "For all points, radii and float32 features, local max and average pooling with the custom CUDA operations, whose grid, distances and features are all computed in float32, complete on every device and schedule and return for every output point the maximum respectively the average, up to the rounding error of the additions, of each feature over distinct points of the same batch element: all points inside the ellipsoid of the radii reduced by the rounding error, and none outside the ellipsoid enlarged by it. Every point closer than 4/5 of the radius contributes.",
  "all clouds of dimension 2 and 3, centers, radii, float32 features, layouts, devices, schedules, orders of the additions and either way of rounding a multiplication followed by an addition",
  "The rounding of the cells depends on the compiler and the device and loses neighbors only far from the origin; the order of the additions depends on the schedule.",
  ["pylib/pc/layers/Pooling.py:_LocalPointPooling", "pylib/pc/layers/Pooling.py:MaxPooling", "pylib/pc/layers/Pooling.py:AveragePooling", "pylib/pc/custom_ops/custom_ops_wrapper.py:find_neighbors", "custom_ops/tfg_custom_ops/find_neighbors/cc/ops/find_neighbors_ops.cpp"])

p("Sampling a sample again changes nothing",
  "A cloud that was sampled with a radius is already thin enough for this radius: sampling it again with the same radius and the same mode returns the same points with the same batch elements, whatever is drawn at random and, with the CUDA operations, whatever the schedule.",
  "all clouds, radii, random draws, devices and schedules of both samplings",
  "The selection is random and depends on the schedule; a test sees a few draws on a few clouds.",
  ["pylib/pc/sampling.py:sample", "pylib/pc/custom_ops/custom_ops_tf.py:sampling_tf", "custom_ops/tfg_custom_ops/sampling/cc/kernels/count_sampling_pd_kernels.cu.cc"])

p("Sums of features give sums of outputs",
  "For fixed clouds, weights and radius, calling a Monte Carlo, PointConv or rigid kernel point convolution, or average pooling, with a times the features f plus b times the features g returns a times its output for f plus b times its output for g, in every output layout; for Conv1x1 the bias is added once. Deformable kernel point convolutions have no such law.",
  "all clouds and output clouds a layer can work on, features, factors a and b, weights, activation functions, radii, bandwidths and output layouts",
  "A test can add two feature tensors, but linearity for every cloud, every pair of features and every layer configuration follows only from the formula the layer computes.",
  ["pylib/pc/layers/MCConv.py:MCConv.__call__", "pylib/pc/layers/KPConv.py:KPConv.__call__", "pylib/pc/layers/PointConv.py:PointConv.__call__", "pylib/pc/layers/Conv1x1.py:Conv1x1.__call__", "pylib/pc/layers/Pooling.py:AveragePooling.__call__"])

p("Pooling keeps comparisons of features",
  "If no feature of a first tensor is above the corresponding feature of a second one, then no value that maximum or average pooling, local or global, returns for the first is above the value returned for the second; and the average over a neighborhood or batch element is never above the maximum over it.",
  "all clouds and output clouds, pairs of feature tensors of floats, radii and output layouts",
  "The comparison has to hold for every cloud, every neighborhood and every pair of tensors, including neighborhoods without points.",
  ["pylib/pc/layers/Pooling.py:MaxPooling.__call__", "pylib/pc/layers/Pooling.py:AveragePooling.__call__", "pylib/pc/layers/Pooling.py:GlobalMaxPooling.__call__", "pylib/pc/layers/Pooling.py:GlobalAveragePooling.__call__"])

p("A larger radius loses no neighbor",
  "Every pair of a point and a center that a neighborhood with some radius contains is also contained in the neighborhood of the same clouds with a larger radius, although the grid behind it has other cells; so local maximum pooling with a larger radius returns no smaller value. Averages have no such law.",
  "all clouds, centers and pairs of radii, each with a grid of its own, and all features that are floats",
  "The two radii use different grids, cell keys and sort orders; a test compares a few pairs of radii on a few clouds.",
  ["pylib/pc/Neighborhood.py:Neighborhood", "pylib/pc/Grid.py:Grid", "pylib/pc/layers/Pooling.py:MaxPooling.__call__", "pylib/pc/layers/Pooling.py:AveragePooling.__call__"])

out = os.path.join(os.path.dirname(os.path.abspath(__file__)), "..", "properties.jsonl")
with open(out, "w") as f:
    for q in P:
        f.write(json.dumps(q) + "\n")
print(len(P))
