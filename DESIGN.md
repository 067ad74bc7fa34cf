# Formal model of tensorflow_graphics_point_clouds: design

## 1. What is modelled and how

The model is shallow Gallina: every Python method or CUDA kernel of interest is a
total computable function, mirroring the source branch by branch.

* **Exceptions are values.** `result A := Ok a | Err e`, `e` being the kind of
  exception (`ValueError`, `AssertionError`, `IndexError`, `InvalidArgument`
  for TensorFlow runtime errors, ...). A method that can fail returns `result`.
* **Objects are records, methods are functions** from the object to the new
  object and the output, so lazily filled caches are visible in the model.
* **Tensors.** A `[N, D]` float tensor is a list of `N` rows; a padded tensor
  `[A1..An, V, D]` is its batch shape, `V` and the row-major list of rows.
  The rank and shape checks the code makes are kept.
* **Numbers.** Coordinates are rationals `Q` (exact arithmetic); Euclidean norm
  comparisons `|v| < r` are modelled by `0 < r` and `|v|^2 < r^2`. Cells and
  keys are `Z`, with the int32 wrap-around of `compute_keys_tf` written into
  the model. Densities, convolution layers, rotations and gradients use the
  reals `R`. Indices are `nat`. Rounding of float32 is modelled for the box,
  the grid, the neighbor search and sampling only (`Float.v`, `FloatGrid.v`, C54;
  `GpuFloat.v`, C72; `GpuFloatSearch.v`, C73, C74; `FloatSampling.v`, C75; `FloatAverage.v`, C76;
  `GpuFloatAverage.v`, C77), for pooling (`FloatLayers.v`, C78; `FloatPooling.v`, C80;
  `GpuFloatPooling.v`, C81) and the
  point-wise convolution (`FloatConv.v`, C79). In all
  other files arithmetic is exact and the bounding box margin `1e-9` is a
  parameter `eps`, because in float32 adding `1e-9` to a coordinate of
  magnitude above 1/32 returns that coordinate (`eps = 0`; C54_margin); both
  cases are studied.
* **Randomness** is an explicit argument (the sequence of draws), theorems
  quantify over it.
* **GPU schedules**: a kernel launch is a list of blocks, a block a list of
  threads, a thread a program whose atomic steps (loads, stores, atomic
  operations, barriers) act on global and shared memory. An operation is a
  predicate transformer `op args P`: "in every interleaving of every launch the
  operation ends without fault and with a result satisfying `P`"; out-of-range
  accesses and reads of uninitialised memory are faults. Theorems quantify over
  every interleaving, and over the number of multiprocessors where the launch
  size depends on it. Memory is sequentially consistent, and warps have no
  implicit synchronisation.
* **Devices**: TensorFlow's `gather_nd` and `unsorted_segment_*` treat indices
  out of range as errors on CPU and as zeros / dropped entries on GPU; a
  parameter `dev` selects the behaviour.

### Files (rocq/theories)

Model files contain definitions only. `Spec*.v` are the independent
specifications used by the theorem statements. `*Facts.v` and `*Proofs.v` hold
the proofs. `Properties*.v` restate every theorem, closed by `exact`, with its
example and `Print Assumptions`; they are generated from the `*Proofs.v` files
by `tools/gen_props.py` so that statement and proof cannot drift apart.

| model | source in /repo | specification | properties |
|---|---|---|---|
| `Tensor.v` | TensorFlow and tfg primitives: gather, stable argsort, repeat, unique_with_counts, segment operations, sequence_mask, scatter_nd, flatten/unflatten | (characterised in `TensorFacts.v`) | |
| `PointCloud.v`, `History.v` | pylib/pc/PointCloud.py, pylib/pc/utils.py; sequences of method calls | `Spec.v`, `SpecCloud.v` | C01-C10 |
| `Grid.v` | pylib/pc/Grid.py, compute_keys_tf, build_grid_ds_tf | `SpecGrid.v` | C11-C13 |
| `Neighbors.v`, `Neighborhood.v` | find_neighbors_tf, find_neighbors_no_grid, Neighborhood.py | `SpecNeighbors.v` | C14-C20 |
| `Sampling.v` | sampling_tf, sampling.py | `SpecSampling.v`, `SpecText.v` | C21-C24 |
| `Hierarchy.v` | PointHierarchy.py | `SpecHierarchy.v` | C25, C26, C49, C50 |
| `Pdf.v` | compute_pdf_tf, compute_pdf_inside_neighborhoods_tf, density methods of Neighborhood.py and utils.py | `SpecPdf.v` | C27-C29 |
| `RTensor.v`, `Layers.v` | real tensors; basis_proj_tf, Pooling.py, Conv1x1.py, MCConv.py, KPConv.py, PointConv.py | `SpecLayers.v`, `SpecMoveLayout.v` | C30-C34 |
| `Kernels.v` | layers/utils.py kernel points and random rotation | `SpecKernels.v` | C35, C36 |
| `Loaders.v` | pylib/io/points.py | `SpecLoaders.v` | C37, C38 |
| `Cuda.v`, `CudaExec.v`, `CudaUpdate.v` | execution of kernels: threads, barriers, interleavings; an executable scheduler for refutations; threads that only update | `SpecGpu.v` | |
| `GpuGrid.v` | compute_keys, build_grid_ds (CUDA) | `SpecGrid.v`, `SpecGpu.v` | C39, C40 |
| `GpuNeighbors.v`, `GpuScan.v` | find_neighbors (count, scan, store kernels), shared scan | `SpecGpu.v` | C41-C43 |
| `GpuSampling.v` | sampling (count unique keys, Poisson disk, averages) | `SpecGpuSampling.v` | C44, C45 |
| `GpuBasis.v` | basis_proj forward and gradient kernels | `SpecGpuBasis.v` | C46 |
| `GpuPdf.v` | compute_pdf forward and gradient kernels | `SpecGpuPdf.v` | C47 |
| `Generator.v` | data generator of modelnet40.py and modelnet40_small.py | `SpecGenerator.v` | C48 |
| `Blocks.v` | layers/network_blocks.py | `SpecBlocks.v` | C51-C53 |
| `Float.v`, `FloatGrid.v` | PointCloud.py `_AABB`, Grid.py, custom_ops_tf.py:21-53, 118-213 in float32 | `SpecFloat.v` | C54 |
| `FloatNorm.v` | the computed distances of custom_ops_tf.py:196-198: every order of the additions, rounded square root | `SpecFloat.v` | C54, C75 |
| `CudaLayers.v` | Neighborhood.py, MCConv.py, KPConv.py, PointConv.py, Pooling.py with the CUDA operations | `SpecCudaLayers.v` | C55 |
| (`Layers.v`) | the layers | `SpecBatch.v` | C56 |
| (`Hierarchy.v`, `Layers.v`) | pooling between the levels of a hierarchy | `SpecHierarchy.v`, `SpecLayers.v` | C57 |
| `Classifier.v` | the networks of `modelnet40_small.py` and `modelnet40.py` | `SpecClassifier.v`, `SpecMatch.v` | C58, C59, C60 |
| `DataSet.v` | loading of the data set by modelnet40.py:40-115 and modelnet40_small.py:41-113, with the cache file on disk | `SpecDataSet.v` | C61 |
| `Training.v` | evaluation on the test set and learning rate (modelnet40.py:472-555, modelnet40_small.py:333-420) | `SpecTraining.v` | C62, C63 |
| `CudaNetwork.v` | hierarchies and classification networks when the CUDA operations are installed (PointHierarchy.py, modelnet40.py, modelnet40_small.py with the operations of `CudaLayers.v`, `GpuSampling.v`) | `SpecCudaNetwork.v` | C64, C65, C66 |
| `CudaTraining.v` | the evaluation on the test set when the CUDA operations are installed (modelnet40.py:531-542, modelnet40_small.py:402-416) | `SpecTraining.v` | C67 |
| (as for C34, C55) | two calls of a layer (pylib/pc/layers) | `SpecMatch.v`, `SpecLayerMatch.v` | C68 |
| (as for C34, C55, C27) | two calls on a cloud and its scaled or rotated copy | `SpecScale.v` | C69 |
| `CudaBlocks.v` | network_blocks.py (PointResNet, PointResNetSpatialBottleNeck) with the CUDA operations | `SpecBlocks.v`, `SpecCudaBlocks.v` | C70 |
| (as for C34, C55) | regularization loss of batches (KPConv.py:394-429) | `SpecScale.v`, `SpecLoss.v` | C71 |
| `CudaLayers.v` | layers called with a neighborhood made before | `SpecCudaPassed.v` | C43, C55 |
| `GpuFloat.v` | compute_keys (CUDA) and Grid.py with the rounding of float32 | `SpecFloat.v`, `SpecGpuFloat.v` | C72 |
| `GpuFloatSearch.v` | find_neighbors (CUDA) with the rounding of float32; kernels of `GpuNeighbors.v` | `SpecFloat.v`, `SpecGpuFloat.v` | C73 |
| `GpuFloatSampling.v` | Neighborhood.py with the search of `GpuFloatSearch.v`; sampling (CUDA) of `GpuSampling.v` | `SpecGpuSampling.v`, `SpecGpuFloat.v` | C74 |
| `FloatSampling.v` | Neighborhood.py with the search of `FloatGrid.v`; sampling (fallback) of `Sampling.v` | `SpecFloatSampling.v`, `SpecFloat.v` | C75 |
| `FloatAverage.v` | custom_ops_tf.py:309-320, the cell averages in float32, every order of the additions | `SpecFloatAverage.v` | C76 |
| `GpuFloatAverage.v` | sampling_avg_kernels.cu.cc with the rounding of float32; kernels of `GpuSampling.v` | `SpecGpuFloatAverage.v`, `SpecGpuFloat.v` | C77 |
| `FloatLayers.v` | Pooling.py, the averages in float32; layers of `Layers.v` and `CudaLayers.v` | `SpecFloatLayers.v`, `SpecLayers.v` | C78 |
| `FloatConv.v` | Conv1x1.py in float32, every order of the additions, with and without fused operations | `SpecLayers.v` | C79 |
| `FloatPooling.v` | Pooling.py local pooling with the grid, the fallback search and the features in float32 | `SpecFloatPooling.v` | C80 |
| `GpuFloatPooling.v` | the same with the CUDA operations | `SpecGpuFloatPooling.v` | C81 |
| (as for C21, C22, C44) | two samplings, the second of the result of the first | `SpecSampling.v`, `SpecGpuSampling.v` | C82 |
| (`Layers.v`, `CudaLayers.v`) | three calls of one layer with features and their sum | `SpecLinear.v`, `SpecLayers.v` | C83 |
| (`Layers.v`, `CudaLayers.v`) | pooling of two feature tensors | `SpecMonotone.v`, `SpecLayers.v` | C84 |
| (`Neighborhood.v`, `Layers.v`, `CudaLayers.v`) | neighborhoods and pooling with two radii | `SpecNeighbors.v`, `SpecMonotone.v` | C85 |

## 2. Plan per property

* C01 model `_init_from_padded`, `flatten_batch_to_2d`, `get_points`; prove the
  pointwise description of the result by induction over the batch list.
* C02 show all constructions of a `list (list point)` produce equal observable
  fields; padded retrieval through C03.
* C03 stable argsort of batch ids = concatenation of the per-id filters; then C01.
* C04 functional description of unique/argsort/gather; empty elements refuted.
* C05 filter description, partition by induction; `id = batch_size` refuted.
* C06 invariant over a list of operations; `max_num_points` after caching refuted.
* C07 `iff` characterisation of acceptance, row-major index lemma.
* C08 decision table of the constructor; inconsistent sizes accepted refuted.
* C09 permutation / inverse permutation argument.
* C10 segment min/max characterisation over Q.
* C11 mixed radix injectivity; int32 wrap and absorbed margin refuted.
* C12 the argsort is a permutation, sortedness.
* C13 descending sorted keys make segments contiguous; min / max of a segment.
* C14 clip is monotone and 1-Lipschitz, so a neighbour's cell is among the
  adjacent ones; the output is equal to a brute-force list comprehension.
* C15 CSR lemma on cumulative sums.
* C16 refuted on CPU by a witness and characterised exactly: the search succeeds
  if and only if no center lies in the last cell of the first two dimensions
  (C16_cpu_exactly), and raises InvalidArgumentError otherwise.
* C17 refuted for TF fallback by a witness; the CUDA version proved with
  per-axis radii <= cell size.
* C18, C19, C20 relational corollaries of C14.
* C21 loop invariant over the set of still-available points.
* C22 runs of equal sorted keys; mean lies in the cell by convexity.
* C23 dispatch table; swapped constants refuted.
* C24 index composition.
* C25, C26 induction over levels; `C25_either` by induction over the levels in
  the order of their construction: the first Poisson level with a single point
  is the only place where the constructor can stop.
* C27-C29 sums over R; permutation and translation invariance of sums.
* C30 segment sum = sum over filter.
* C31-C34 sums / maxima over neighbour lists, invariance from C14.
* C35 matrix algebra over R with sin^2+cos^2 = 1.
* C36 lattice by list induction; sphere tables computed exactly over
  Q(sqrt 3) or R.
* C37, C38 string/token model of files.
* C39-C47 kernels as step relations; commutation / permutation arguments over
  every schedule; scan by induction over block structure; derivative with
  Coquelicot or stdlib `derivable_pt_lim`.
* C48 slices of a permutation.
* C49 each neighborhood query of a hierarchy against the documented pair of
  levels; refuted by equality with the self neighborhood.
* C50 induction over the levels of a hierarchy; sizes and padded views of every
  level from C03, C04.
* C51-C53 a loop invariant over the blocks (the neighborhood keeps the cached
  density that C28 describes, the features stay a matrix), each convolution by
  C34, over arbitrary normalisation and activation functions that keep shapes.
* C54 monotonicity of rounding for the cell bounds; an error analysis of the
  rounded quotient for the search; the rest of the grid proofs for any
  assignment of cells to points (`KeyGridFacts.v`); witnesses by computation.
* C55 compose the theorems about the CUDA operations (C39-C41, C46, C47) along
  the layers: the neighbor pairs, the density and the projection determine the
  output independently of the order of the list, so the lemmas behind C31 and
  C34 apply.
* C56: the formulas of C31 and C34 only range over the points of the element of
  the output point, so they can be rewritten in terms of the element's own
  lists of points, features and centers.
* C57: a Poisson sample contains its points and covers the others (C21); the
  variance of numbers in a half-open interval of length r is below r^2/4, so in
  at most four dimensions the mean of the points of a cell is closer than r to
  one of them. Refuted in five dimensions.
* C58: the levels of the hierarchy (C25) are clouds on which the convolutions
  compute their formulas (C34), the features between the layers are matrices
  with a row per point; induction over the levels. The last level of a Poisson
  or cell average hierarchy has one point per element if the last radius exceeds
  the size of the elements, so that sorting by element orders the rows. For every
  batch, one cloud included, the call either reaches the first level with a
  single point that is sampled with Poisson disks or used by PointConv, and
  raises, or gives the formula (`C58_every_batch_partial`, and C59).
* C59: as C58, with a lemma for the residual blocks (C31 for the pooling of the
  skip branch); global pooling gives one row per element because no element of
  a level is empty.
* C60: two clouds are matched by a list of pairs of indices; cell averages of
  matched clouds are matched (cells are counted from the corner of the element,
  so they move with the cloud), and the formulas of C58 and C59 give equal rows
  on matched clouds because they are sums and maxima over the neighbors of the
  same element; induction over the levels. For every convolution and every number
  of clouds the cases of C58 and C59 for one cloud are added
  (`PredictionEveryProofs.v`).
* C61: the state is the directory and the cache file; a run is a function of the
  state, its settings and the contents of uninitialised memory, and can stop
  before, during or after the write. Induction over the sequence of runs with
  the invariant that the cache is absent or holds the first points of every
  file; composition with C48 for the batches that the training sees.
* C62: the loop over the batches adds to the two metrics; with C48 the batches
  together are a permutation of the test set, and the mean of the means of equally
  large batches is the mean. C60 gives every model one row of scores for all
  batches: compare with a batch of two copies of the model. Softmax is monotone,
  so the position of its maximum is that of the logits.
* C63: induction over the epochs; division of the step counter.
* C64: the loop over the levels with the CUDA operations as predicate
  transformer, induction over the cell sizes; every level uses C44 respectively
  C45 for all schedules. The comparison with the fallback is the pairing of C60
  between two chains of cell averages.
* C65: the loops over the levels of both networks with the layers of C55 for an
  arbitrary postcondition, induction over the levels as in C58 and C59.
* C66: the pairing of C60 for an arbitrary convolution that respects it, applied
  to the postconditions of two calls (C65) or of one call and C58/C59.
* C67: the scores of a model are the formula of C65 on the levels of the model
  alone (they exist by the fallback hierarchy). The pairing of C66 gives the rows
  of every batch, then the loop over the batches as in C62.
* C68: the formulas of C34 and C55 for both calls, then the pairing of C60: the
  neighbors of paired points are paired, so sums, maxima and means agree.
* C69: squared distances and squared radius are multiplied by the same number, so
  the neighbors are paired; the relative differences in the formulas of C34 and
  C55 are equal. The isotropic kernel is a function of the distance.
* C70: the loops of C51 and C53 with the convolutions of C55; the neighborhood
  without centers has the sorted points as centers, in the order of the grid,
  which is the same on all devices.
* C71: the loss of C34 and C55 is a sum over the output points; it is split into
  the sums over the batch elements, and each is paired with the cloud alone as in
  C69.
* C72: every rounding has a relative error of 2^-24 (Flocq); the errors of the
  inverse, the product, the quotient of the corner and the difference add up. The
  cells are clamped on both sides, hence valid digits of the key.
* C73: the kernels of C41 take the comparison of distances and the keys as
  parameters, so that their theorems hold for rounded ones. The rounded sum of
  squares is within 6 / 2^20 of the exact one as long as no term exceeds 1, and a
  sum below 1 has only such terms because rounding is monotone. Adjacency of the
  cells is C72.
* C74: the invariant of C44 with two relations: the rows that a thread reads, and
  the pairs inside the reduced ellipsoid. The latter are symmetric, contained in
  the rows and in adjacent cells, which is what the passes need to keep them
  apart; a point not selected has a selected one in its rows.
* C75: the loop invariant of C21 with the same two relations, on the rows that C54
  gives; termination needs only that every point is in its own row. The computed
  distance: induction over the tree of additions bounds the sum from both sides,
  the square root is compared on squares of midpoints between floats.
* C76: the points with one key are a group as in C22; the error of a sum by
  induction over the tree of additions, for numbers of any sign; two points by
  monotony of the rounding. Points of one computed cell differ by no more than the
  enlarged cell because the error of the position is bounded (C54).
* C77: the kernels as in C45 for all schedules, the keys of C72; the running sum
  of the kernel is one of the orders of the additions of C76. Points of one cell
  differ by at most the size of a cell and the errors of C72, also in the last
  cell, to which positions beyond it are moved (C77_cover_partial).
* C78: the pooling layers of C31 and C55 with another reduction; the neighbors of a
  center are a permutation of the points within the radius, and the bounds of C76
  do not depend on the order.
* C79: the error of a dot product by induction over the tree of operations.
* C80, C81: the search of C54 with computed distances respectively that of C73,
  mapped to the original order, and the averages of C78.
* C82: C21 and C44 for both samplings: the second sample covers the first one, in
  which no point covers another one, so it has all points.
* C83: the formulas of C34 and the means of C31 (C55 with CUDA) are sums over features times
  numbers that do not depend on the features.
* C84: maxima and means of C31 are monotone, and a mean is not above the maximum.
* C85: the pairs of C19 (C41 with CUDA) are those with a distance below the radius; the maxima of C31 and C55
  then range over more points.

## 3. Where the code does not have the property

Each is a theorem ending in `_refuted` (a concrete witness or a universal
failure); the positive part is proved beside it.

* `get_sizes` drops empty batch elements for clouds made from batch ids (C04).
  `get_points(id)` accepts `id = batch_size` and negative ids (C05); the width
  of the first `get_points(max_num_points)` call is cached (C06); inconsistent
  `sizes` are accepted (C08); `get_diameter` can use a stale batch shape (C10).
* Without an effective bounding box margin (float32 absorbs 1e-9 from about
  magnitude 1/32 on) a point on the far boundary
  gets a cell outside of the grid: keys collide (C11), access structures miss it
  (C13), searches miss a point in its own neighborhood (C14) or raise on CPU
  (C16), Poisson sampling does not terminate (C21), cell averages mix batch
  elements (C22). Keys of large grids overflow int32 (C11).
* One-dimensional clouds fail (C13). A single center gives ranges of the wrong
  shape (C15, C29). The brute force search gives wrong ranges if a center has
  no neighbor (C15). Fallback search: radii below the cell size and per-axis
  radii lose neighbors (C17). `_NeighborhoodTransposed` of a self-neighborhood
  is an empty object (C20).
* `poisson_disk_sampling` and `cell_average_sampling` are exchanged, fail for
  scalar radii, and the grid argument is unusable (C23).
* Averaging cell averages again merges points, because the cells move with the
  bounding box; a Poisson sample of one point cannot be sampled again (C82).
* Hierarchies repeat the first, not the last, cell size (C26); Poisson levels
  with a single point fail (C25); neighborhoods between levels are self
  neighborhoods (C49); `get_sizes` of a sampled level raises when an element is
  empty (C50).
* `density_estimation` and `density_estimation_in_neighborhoods` raise
  TypeError except for `KDEMode.no_pdf` (C27, C28).
* Global pooling with `return_padded` fails without a batch shape; local pooling
  fails for scalar radii (C31). PointConv fails for a single output point, the
  default influence distance of KPConv is the radius (C34).
* `spherical_kernel_points` raises for 13 points and repeats points for 15 (C36).
* Text loaders: the last character is lost without a final newline, files
  without features make the tensor loader fail, `dimension=2` drops the third
  column, `max_num_points=None` reads nothing (C37), `point_dimension != 3`
  always fails (C38).
* CUDA: keys differ from the fallback on the boundary and beyond 32 bit, empty
  clouds end the process (C39); the search repeats rows in dimension 4 to 6 with
  few cells along the last axis and an empty set of centers ends the process
  (C41); the prefix sum over more than 512 + 64 * blocks entries has a race
  (C42); the limit on the number of neighbors can write before the start of the
  output, depending on schedule or clock (C43).
* Training loops never reshuffle (C48_never_reshuffled).
* Residual networks of KPConv layers raise TypeError (C51), the bottleneck
  network cannot be constructed (C52), networks that compute their own
  neighborhood pair points with the neighbors of other points unless the cloud
  is stored in grid order (C51, C53).
* In float32 two points closer than the radius can be two cells apart, and the
  search misses the pair; points of different cells can share a key in spite of
  the margin (C54). The CUDA operation rounds differently: far from the origin it
  assigns other cells than the fallback, and points closer than 4/5 of the cell
  size can be two cells apart (C72), so that the CUDA search misses the pair (C73)
  and Poisson disk sampling selects both points (C74). With the fallback, Poisson
  disk sampling of two float32 points never ends (C75). The cell average of three
  equal float32 points can be another point, with the fallback (C76) and with the
  CUDA operation (C77), and the average of three equal features another feature
  (C78). The point-wise convolution can give different values for points with equal
  features, if the matrix product adds in another order for another row (C79). Max pooling can
  miss a point closer than the radius with the fallback (C80), and closer than 4/5
  of the radius with the CUDA operations (C81).
* With the CUDA operations the convolutions reject numbers of input features
  above 8 that are no multiple of 8 and numbers of basis functions other than 8,
  16, 32 and 64, which the fallback accepts (C55); the density of MCConv differs
  by a factor within 1e-8 of 1. PointConv with one output point works with the
  CUDA operations and fails without them (C34, C55).
* Pooling the features of a cell average with the cell size as radius ignores
  points far from the mean of their cell, and in five or more dimensions it can
  return the lowest float (C57).
* The network of `modelnet40_small.py` has no pooling: it returns a row of logits
  for every point of the last level, which are more rows than clouds unless the
  last radius exceeds the size of the clouds (C58). The script uses 2 sqrt 3, the
  diameter of the cube with edge length 2.
* Without the CUDA operations both networks raise an exception for a batch of one
  cloud that is smaller than the first radius, if the sampling is Poisson disk
  sampling with two or more levels, or if the convolution is PointConv (C58,
  C59), although the same cloud in a batch of two gets logits (C60). Batches of
  two clouds work.
* The network of `modelnet40.py` assigns to the points of the first sampled level
  the features of the first rows of their cloud instead of their own (C59); the
  script only uses constant features.
* Cache of the data set (C61): a quick test leaves uninitialised memory in the
  cache for all models from number 102 on, and every later run trains on it; an
  interrupted write makes every later run fail; a later run with another number
  of points per file gets the old one; modelnet40_small.py fails if the directory
  of the cache does not exist.
* If the batch size does not divide the number of models, the last models of the
  (only) shuffle are never evaluated and the reported accuracy does not depend on
  them (C62).
* PointConv does not divide the coordinates by the radius, so that it is not
  invariant under scaling the cloud and the radius together, unlike MCConv and
  KPConv (C69).
* A deformable KPConv is not linear in the features, because the features move the
  kernel points: doubled features can turn the output to 0 (C83).
* Without a point within the radius average pooling returns 0, which is above the
  lowest float that maximum pooling returns (C84).
* Average pooling can return less with a larger radius (C85).

## 4. What is not modelled

* Float32 rounding, except for pooling (C78, C80, C81), the point-wise convolution (C79)
  and the grid, the neighbor search and sampling, with the fallback
  (C54, C75, C76) and on the GPU (C72, C73, C74, C77); theorems are about exact
  rational or real arithmetic. NaN and infinities.
* TensorFlow graph construction, eager/graph mode differences, variables and
  optimisers: trained weights, normalisation layers and random draws are
  universally quantified arguments. Gradients of TensorFlow's own operations.
* `tf.data`, visualisation, tests, the build system (setup.py,
  find_cuda_config.py, toolchains). Of the training scripts: printing, the
  updates of the weights.
* CUDA: warp-level execution, weak memory, launch limits and shared memory
  sizes beyond the block size, occupancy queries (the number of blocks is a
  parameter), error paths of memory allocation.
* The files and the tables that `pylib/io/points.py` reads are texts; parsing of
  a number is a parameter of the theorems; `trimesh` loading is a parameter.

## 5. Trusted base

* The Coq 8.16.1 kernel (and `vm_compute`).
* The reading of the Python and CUDA source, cited line by line in the model,
  and the described behaviour of the TensorFlow, tensorflow_graphics and numpy
  primitives in `Tensor.v`, `RTensor.v` and `Loaders.v`.
* The axioms printed by `Print Assumptions`, all of the standard library
  (classical reals and functional extensionality); no other axiom occurs.
  By group of axioms:

<!-- axioms -->
* **closed under the global context (no axioms)**:
  C01_padded_round_trip, C02_constructions_agree, C03_too_narrow, C03_unsorted_round_trip, C04_sizes_exact, C04_sizes_partial, C04_sizes_refuted, C04_sizes_shape_refuted, C05_get_points_id_partial, C05_get_points_id_refuted, C06_history_partial, C06_history_refuted, C06_padded_width_refuted, C07_set_batch_shape, C08_validation_partial, C08_validation_refuted, C09_flatten_features, C09_format_flatten_inverse, C09_sorted_and_flat, C10_aabb, C10_diameter, C10_diameter_shape_refuted, C11_boundary_refuted, C11_grid_keys_partial, C11_overflow_refuted, C12_sorting, C13_access_partial, C13_boundary_refuted, C13_one_dimension, C14_boundary_refuted, C14_neighbors_partial, C15_brute_force_partial, C15_brute_force_refuted, C15_ranges_partial, C15_single_center_refuted, C16_cpu_exactly, C16_cpu_partial, C16_cpu_refuted, C17_ellipsoid_refuted, C17_small_radius_refuted, C17_sound_partial, C18_agreement_partial, C18_brute_force, C19_original_ids_partial, C19_self_partial, C20_reversed_partial, C20_reversed_refuted, C20_self_partial, C20_transpose_partial, C21_boundary_refuted, C21_poisson_partial, C21_single_point_refuted, C22_boundary_refuted, C22_cell_average_partial, C23_cell_average_sampling_refuted, C23_grid_argument_refuted, C23_missing_argument, C23_poisson_disk_sampling_refuted, C23_scalar_radius_refuted, C23_unknown_mode, C24_sampled_ids, C25_either, C25_hierarchy_partial, C25_single_point_refuted, C25_structure_partial, C26_cell_sizes_partial, C26_last_value_refuted, C26_rejected, C36_thirteen_refuted, C37_bad_files, C37_dimension_refuted, C37_final_newline_refuted, C37_lost_character, C37_no_features_refuted, C37_no_limit_refuted, C37_numpy_loader_partial, C37_tensor_loader_partial, C38_batch_meshes, C38_batch_points_partial, C38_dimension_refuted, C38_feeds_point_cloud, C38_meshes_wrong_shape, C38_wrong_shape, C39_agree_partial, C39_boundary_refuted, C39_decode, C39_empty_refuted, C39_keys, C39_overflow_refuted, C40_access, C40_schedule_independent, C41_four_dimensions_refuted, C41_no_centers_refuted, C41_search_partial, C41_two_cells_refuted, C42_scan_empty, C42_scan_partial, C42_scan_race_refuted, C43_few_neighbors_partial, C43_neighborhood_partial, C43_neighborhood_refuted, C43_race_refuted, C43_seed_refuted, C44_pipeline_partial, C44_poisson, C45_agree, C45_average, C48_calls, C48_epoch, C48_never_reshuffled, C49_neighborhoods_refuted, C50_empty_element_refuted, C50_queries_partial, C57_lost_refuted, C61_batches, C61_directory_refuted, C61_history_partial, C61_interrupted_refuted, C61_listing, C61_points_refuted, C61_quick_refuted, C64_equal_sizes_partial, C64_hierarchy_partial, C64_same_as_fallback_partial, C72_missed_refuted, C73_missed_refuted, C74_close_refuted, C75_never_ends_refuted, C76_equal_refuted, C77_equal_refuted, C82_average_refuted, C82_cuda_partial, C82_poisson_partial, C82_single_refuted, C85_neighbors_cuda_partial, C85_neighbors_partial.
* `ClassicalDedekindReals.sig_forall_dec`:
  C30_projection, C34_conv1x1.
* `ClassicalDedekindReals.sig_forall_dec`, `FunctionalExtensionality.functional_extensionality_dep`:
  C27_function_refuted, C27_no_pdf, C28_function_refuted, C28_no_pdf, C30_bilinear, C30_neighborhood_partial, C30_order, C31_global, C31_local_partial, C31_padded_refuted, C31_scalar_radius_refuted, C32_pointwise, C36_cube, C46_agree, C46_gradients, C46_projection, C46_transposed, C55_local_pooling_partial, C56_pointwise, C57_five_refuted, C57_pooling_partial, C63_rate, C69_pooling, C78_equal_refuted, C81_missed_refuted, C83_conv1x1, C84_empty_refuted, C84_global, C84_local_cuda_partial, C84_local_partial, C85_average_refuted, C85_pooling_cuda_partial, C85_pooling_partial.
* `ClassicalDedekindReals.sig_forall_dec`, `ClassicalDedekindReals.sig_not_dec`, `FunctionalExtensionality.functional_extensionality_dep`:
  C27_density_partial, C27_invariant_partial, C28_get_pdf_partial, C29_inside_partial, C29_single_center_refuted, C32_input_order_partial, C32_layers_partial, C32_layouts_partial, C33_layouts_partial, C33_translation_partial, C34_activation_partial, C34_influence_refuted, C34_kpconv_neighborhood_partial, C34_kpconv_partial, C34_mcconv_neighborhood_partial, C34_mcconv_partial, C34_pointconv_partial, C34_pointconv_single_refuted, C34_rejected, C35_rotation, C36_fifteen_refuted, C36_regular, C36_rejected, C36_spherical_partial, C47_attached, C47_density, C47_gradient, C51_kernel_points_refuted, C51_names, C51_network_partial, C51_order_refuted, C51_own_neighborhood_partial, C52_call_partial, C52_constructor_refuted, C53_network_partial, C53_order_refuted, C55_features_refuted, C56_layers_partial, C58_every_batch_partial, C58_logits_partial, C58_rows_refuted, C58_single_pointconv_refuted, C58_single_poisson_refuted, C58_unknown, C59_every_batch_partial, C59_features_refuted, C59_flat_features_partial, C59_logits_partial, C59_single_pointconv_refuted, C59_single_poisson_refuted, C59_unknown, C60_alone_refuted, C60_large, C60_large_every_batch, C60_small, C60_small_every_batch, C68_fallback, C69_density, C69_pointconv_refuted, C69_scaled, C70_kernel_points_refuted, C83_deformable_refuted, C83_superposition_partial.
* `ClassicalDedekindReals.sig_forall_dec`, `ClassicalDedekindReals.sig_not_dec`, `Classical_Prop.classic`, `FunctionalExtensionality.functional_extensionality_dep`:
  C47_agree, C54_binary32, C54_cells, C54_comparison, C54_distances_partial, C54_keys_partial, C54_keys_refuted, C54_margin, C54_search_partial, C54_search_refuted, C55_kpconv_neighborhood_partial, C55_kpconv_partial, C55_mcconv_neighborhood_partial, C55_mcconv_partial, C55_pointconv_neighborhood_partial, C55_pointconv_partial, C62_large, C62_remainder_refuted, C62_small, C62_validation, C65_large_partial, C65_small_partial, C66_large, C66_large_fallback_partial, C66_small, C66_small_fallback_partial, C67_large, C67_small, C68_cuda, C68_mixed, C69_scaled_cuda, C70_factor, C70_network_partial, C70_order_refuted, C70_own_neighborhood_partial, C70_spatial_own_partial, C70_spatial_partial, C71_loss, C72_adjacent_partial, C72_agree_refuted, C72_keys, C72_position, C73_search_partial, C74_sample_partial, C75_distances_partial, C75_sample_partial, C76_averages_partial, C76_cover_partial, C77_average_partial, C77_cover_partial, C78_cuda_partial, C78_global, C78_local_partial, C79_conv1x1_partial, C79_rows_refuted, C80_missed_refuted, C80_pooling_partial, C81_pooling_partial, C83_superposition_cuda_partial.
<!-- end of axioms -->

## 6. Tests against wrong programs

`seeded/LOG.jsonl` records one line per edited model: the definition, the edit,
the claim it breaks, the property theorems and lemmas that no longer prove, and
the theorems tightened as a consequence. The edits are made in a scratch copy
of the model; a script leaves out every failing proof until the rest
builds, and reports the failing proofs and the property theorems that depend on
them.
