CloudProofs|PropertiesCloud|Properties of the point cloud class (C01-C10).
GridProofs|PropertiesGrid|Properties of the uniform grid (C11-C13).
NeighborProofs|PropertiesNeighbors|Properties of the neighbor search (C14-C18).
NeighborhoodProofs|PropertiesNeighborhood|Properties of neighborhood objects (C19-C20).
SamplingProofs|PropertiesSampling|Properties of point sampling (C21-C24).
HierarchyProofs|PropertiesHierarchy|Properties of point hierarchies.
PdfProofs|PropertiesPdf|Densities (C27-C29).
LayerProofs|PropertiesLayers|Basis projection and pooling.
ConvProofs|PropertiesConv|Convolution layers.
MoveProofs|PropertiesMove|Permutation equivariance and translation invariance of the layers.
KernelProofs|PropertiesKernels|Random rotation and kernel points.
GpuGridProofs|PropertiesGpuGrid|The CUDA grid operations (C39, C40).
GpuScanProofs|PropertiesGpuScan|The GPU prefix sum
LoaderProofs|PropertiesLoaders|File loaders (C37, C38).
GeneratorProofs|PropertiesGenerator|Training data generator (C48).
GpuNeighborProofs|PropertiesGpuNeighbors|The CUDA neighbor search
LimitProofs|PropertiesLimit|The limit on the number of neighbors (C43).
GpuSampleProofs|PropertiesGpuSampling|Properties of the CUDA sampling operation (C44, C45).
GpuBasisProofs|PropertiesGpuBasis|The CUDA basis projection and its gradients (C46).
GpuPdfProofs|PropertiesGpuPdf|The CUDA density and its gradient (C47).
BlockProofs|PropertiesBlocks|The residual networks (C51-C53).
FloatProofs|PropertiesFloat|The grid and the search in float32 (C54).
CudaLayerProofs|PropertiesCudaLayers|The layers with the CUDA operations (C55).
BatchProofs|PropertiesBatch|Independence of the batch elements (C56).
CoverProofs|PropertiesCover|Pooling between the levels of a hierarchy (C57).
ClassifierProofs|PropertiesClassifier|The classification network of modelnet40_small.py (C58).
LargeProofs|PropertiesLarge|The classification network of modelnet40.py (C59).
PredictionProofs|PropertiesPrediction|The prediction for a cloud (C60).
DataSetProofs|PropertiesDataSet|Loading of the data set (C61).
TrainingProofs|PropertiesTraining|Evaluation and learning rate (C62, C63).
CudaHierarchyProofs|PropertiesCudaHierarchy|Hierarchies with the CUDA operations (C64).
CudaNetProofs|PropertiesCudaNetwork|The small classification network with the CUDA operations (C65).
CudaLargeProofs|PropertiesCudaLarge|The residual classification network with the CUDA operations (C65).
CudaPredictionProofs|PropertiesCudaPrediction|The agreement of the predictions with the CUDA operations (C66)
SingleProofs|PropertiesSingle|The classification networks on a batch of one cloud (C58, C59).
CudaTrainingProofs|PropertiesCudaTraining|The evaluation on the test set with the CUDA operations (C67)
LayerMatchProofs|PropertiesLayerMatch|The features of a cloud in two batches (C68)
ScaleProofs|PropertiesScale|Scaled and rotated clouds (C69)
CudaBlockProofs|PropertiesCudaBlocks|Residual networks with the CUDA operations (C70)
LossProofs|PropertiesLoss|Regularization loss of a batch (C71)
CudaPassedProofs|PropertiesCudaPassed|Layers with the CUDA operations and neighborhoods made before (C43, C55)
GpuFloatProofs|PropertiesGpuFloat|Keys of the CUDA operation in float32 (C72)
GpuFloatSearchProofs|PropertiesGpuFloatSearch|CUDA search in float32 (C73)
GpuFloatSampleProofs|PropertiesGpuFloatSampling|Poisson disk sampling with the CUDA operations in float32 (C74)
FloatSampleProofs|PropertiesFloatSampling|Poisson disk sampling with the fallback in float32 (C75)
FloatNormProofs|PropertiesFloatNorm|Search and sampling of the fallback with computed distances (C54, C75)
OnePointProofs|PropertiesOnePoint|Hierarchies of every batch (C25)
FloatAverageProofs|PropertiesFloatAverage|Cell averages of the fallback in float32 (C76)
PredictionEveryProofs|PropertiesPredictionEvery|The prediction for a cloud, every convolution and every number of clouds (C60).
GpuFloatAverageProofs|PropertiesGpuFloatAverage|Cell averages with the CUDA operation in float32 (C77).
FloatPoolProofs|PropertiesFloatPool|Average pooling in float32 (C78).
FloatConvProofs|PropertiesFloatConv|The point-wise convolution in float32 (C79).
FloatPoolingProofs|PropertiesFloatPooling|Local pooling entirely in float32 (C80).
GpuFloatPoolingProofs|PropertiesGpuFloatPooling|Local pooling with the CUDA operations entirely in float32 (C81).
CpuSearchProofs|PropertiesCpuSearch|The fallback search on CPU, exactly (C16).
GpuFloatCoverProofs|PropertiesGpuFloatCover|Cell averages of the CUDA operation near the points, in float32 (C77).
ResampleProofs|PropertiesResample|Sampling a sample again (C82).
MoveLayoutProofs|PropertiesMoveLayout|Reordering and translation in every layout (C32, C33).
LinearProofs|PropertiesLinear|Sums of features (C83).
LinearCudaProofs|PropertiesLinearCuda|Sums of features with the CUDA operations (C83).
MonotoneProofs|PropertiesMonotone|Comparisons of features under pooling (C84).
MonotoneCudaProofs|PropertiesMonotoneCuda|Comparisons of features under pooling with the CUDA operations (C84).
RadiusProofs|PropertiesRadius|A larger radius loses no neighbor (C85).
RadiusCudaProofs|PropertiesRadiusCuda|A larger radius loses no neighbor with the CUDA operations (C85).
