-Q theories Verif

theories/Tensor.v
theories/TensorFacts.v
theories/Spec.v
theories/PointCloud.v
theories/SpecCloud.v
theories/History.v
theories/PointCloudFacts.v
theories/QFacts.v
theories/CloudProofs.v
theories/Grid.v
theories/SpecGrid.v
theories/GridFacts.v
theories/GridProofs.v
theories/Neighbors.v
theories/SpecNeighbors.v
theories/NeighborFacts.v
theories/NeighborProofs.v
theories/Neighborhood.v
theories/NeighborhoodFacts.v
theories/NeighborhoodProofs.v
theories/Sampling.v
theories/SpecText.v
theories/TextFacts.v
theories/SpecSampling.v
theories/SamplingFacts.v
theories/SamplingProofs.v
theories/Hierarchy.v
theories/SpecHierarchy.v
theories/HierarchyFacts.v
theories/HierarchyProofs.v
theories/Pdf.v
theories/SpecPdf.v
theories/PdfFacts.v
theories/PdfInsideFacts.v
theories/PdfProofs.v
theories/RTensor.v
theories/RTensorFacts.v
theories/Layers.v
theories/SpecLayers.v
theories/LayerFacts.v
theories/LayerLink.v
theories/LayerProofs.v
theories/ConvProofs.v
theories/MoveProofs.v
theories/Kernels.v
theories/SpecKernels.v
theories/KernelProofs.v
theories/Cuda.v
theories/CudaFacts.v
theories/GpuGrid.v
theories/GpuGridFacts.v
theories/GpuGridProofs.v
theories/CudaExec.v
theories/MemFacts.v
theories/SpecGpu.v
theories/GpuScan.v
theories/GpuScanFacts.v
theories/GpuScanRuns.v
theories/GpuScanProofs.v
theories/Loaders.v
theories/SpecLoaders.v
theories/LoaderProofs.v
theories/Generator.v
theories/SpecGenerator.v
theories/GeneratorProofs.v
theories/GpuNeighbors.v
theories/AddFacts.v
theories/GpuCountFacts.v
theories/SlotFacts.v
theories/GpuRangeFacts.v
theories/GpuStoreFacts.v
theories/GpuNeighborFacts.v
theories/GpuOpFacts.v
theories/GpuGeometry.v
theories/GpuSearchFacts.v
theories/GpuNeighborProofs.v
theories/LimitFacts.v
theories/LimitProofs.v
theories/GpuSampling.v
theories/UniqueFacts.v
theories/PoissonFacts.v
theories/SampleFacts.v
theories/SpecGpuSampling.v
theories/GpuSampleFacts.v
theories/GpuSampleProofs.v
theories/CudaUpdate.v
theories/PhasedFacts.v
theories/GpuBasis.v
theories/GpuBasisFacts.v
theories/GpuBasisGradFacts.v
theories/SpecGpuBasis.v
theories/GpuBasisProofs.v
theories/GpuPdf.v
theories/SpecGpuPdf.v
theories/GpuPdfFacts.v
theories/GpuPdfProofs.v
theories/Blocks.v
theories/SpecBlocks.v
theories/BlockFacts.v
theories/BlockProofs.v
theories/Float.v
theories/FloatFacts.v
theories/FloatGrid.v
theories/SpecFloat.v
theories/KeyGridFacts.v
theories/FloatGridFacts.v
theories/FloatProofs.v
theories/CudaLayers.v
theories/SpecCudaLayers.v
theories/CudaLayerFacts.v
theories/CudaDensityFacts.v
theories/CudaConvFacts.v
theories/CudaLayerProofs.v
theories/SpecBatch.v
theories/BatchProofs.v
theories/LevelFacts.v
theories/CoverFacts.v
theories/CoverProofs.v
theories/Classifier.v
theories/SpecClassifier.v
theories/OnePointProofs.v
theories/ClassifierFacts.v
theories/LastLevelFacts.v
theories/ClassifierProofs.v
theories/LargeFacts.v
theories/LargeProofs.v
theories/SpecMatch.v
theories/MatchFacts.v
theories/MatchLevel.v
theories/MatchNet.v
theories/PredictionProofs.v
theories/DataSet.v
theories/SpecDataSet.v
theories/DataSetProofs.v
theories/Training.v
theories/SpecTraining.v
theories/TrainingFacts.v
theories/TrainingProofs.v
theories/CudaNetwork.v
theories/SpecCudaNetwork.v
theories/CudaHierarchyFacts.v
theories/CudaHierarchyProofs.v
theories/CudaNetFacts.v
theories/CudaNetProofs.v
theories/CudaLargeProofs.v
theories/CudaPredictionProofs.v
theories/SingleProofs.v
theories/PredictionEveryProofs.v
theories/CudaTraining.v
theories/CudaTrainingProofs.v
theories/SpecLayerMatch.v
theories/LayerMatchProofs.v
theories/SpecScale.v
theories/ScaleFacts.v
theories/ScaleProofs.v
theories/CudaBlocks.v
theories/SpecCudaBlocks.v
theories/CudaBlockFacts.v
theories/CudaBlockProofs.v
theories/SpecLoss.v
theories/LossProofs.v
theories/SpecCudaPassed.v
theories/CudaPassedProofs.v
theories/GpuFloat.v
theories/SpecGpuFloat.v
theories/GpuFloatProofs.v
theories/GpuFloatSearch.v
theories/GpuNearFacts.v
theories/GpuFloatSearchProofs.v
theories/FloatSampling.v
theories/SpecFloatSampling.v
theories/FloatSampleProofs.v
theories/FloatNorm.v
theories/FloatNormProofs.v
theories/FloatAverage.v
theories/SpecFloatAverage.v
theories/FloatAverageProofs.v
theories/GpuFloatAverage.v
theories/SpecGpuFloatAverage.v
theories/GpuFloatAverageProofs.v
theories/FloatLayers.v
theories/SpecFloatLayers.v
theories/FloatPoolProofs.v
theories/FloatConv.v
theories/FloatConvProofs.v
theories/FloatPooling.v
theories/SpecFloatPooling.v
theories/FloatPoolingProofs.v
theories/GpuFloatPooling.v
theories/SpecGpuFloatPooling.v
theories/GpuFloatPoolingProofs.v
theories/CpuSearchProofs.v
theories/GpuFloatCoverProofs.v
theories/ResampleProofs.v
theories/SpecMoveLayout.v
theories/MoveLayoutProofs.v
theories/SpecLinear.v
theories/LinearProofs.v
theories/LinearCudaProofs.v
theories/SpecMonotone.v
theories/MonotoneProofs.v
theories/MonotoneCudaProofs.v
theories/RadiusProofs.v
theories/RadiusCudaProofs.v
theories/GpuFloatSampling.v
theories/GpuFloatSampleProofs.v
theories/PropertiesCloud.v
theories/PropertiesGrid.v
theories/PropertiesNeighbors.v
theories/PropertiesNeighborhood.v
theories/PropertiesSampling.v
theories/PropertiesHierarchy.v
theories/PropertiesPdf.v
theories/PropertiesLayers.v
theories/PropertiesConv.v
theories/PropertiesMove.v
theories/PropertiesKernels.v
theories/PropertiesGpuGrid.v
theories/PropertiesGpuScan.v
theories/PropertiesLoaders.v
theories/PropertiesGenerator.v
theories/PropertiesGpuNeighbors.v
theories/PropertiesLimit.v
theories/PropertiesGpuSampling.v
theories/PropertiesGpuBasis.v
theories/PropertiesGpuPdf.v
theories/PropertiesBlocks.v
theories/PropertiesFloat.v
theories/PropertiesCudaLayers.v
theories/PropertiesBatch.v
theories/PropertiesCover.v
theories/PropertiesClassifier.v
theories/PropertiesLarge.v
theories/PropertiesPrediction.v
theories/PropertiesDataSet.v
theories/PropertiesTraining.v
theories/PropertiesCudaHierarchy.v
theories/PropertiesCudaNetwork.v
theories/PropertiesCudaLarge.v
theories/PropertiesCudaPrediction.v
theories/PropertiesSingle.v
theories/PropertiesCudaTraining.v
theories/PropertiesLayerMatch.v
theories/PropertiesScale.v
theories/PropertiesCudaBlocks.v
theories/PropertiesLoss.v
theories/PropertiesCudaPassed.v
theories/PropertiesGpuFloat.v
theories/PropertiesGpuFloatSearch.v
theories/PropertiesGpuFloatSampling.v
theories/PropertiesFloatSampling.v
theories/PropertiesFloatNorm.v
theories/PropertiesOnePoint.v
theories/PropertiesFloatAverage.v
theories/PropertiesPredictionEvery.v
theories/PropertiesGpuFloatAverage.v
theories/PropertiesFloatPool.v
theories/PropertiesFloatConv.v
theories/PropertiesFloatPooling.v
theories/PropertiesGpuFloatPooling.v
theories/PropertiesCpuSearch.v
theories/PropertiesGpuFloatCover.v
theories/PropertiesResample.v
theories/PropertiesMoveLayout.v
theories/PropertiesLinear.v
theories/PropertiesLinearCuda.v
theories/PropertiesMonotone.v
theories/PropertiesMonotoneCuda.v
theories/PropertiesRadius.v
theories/PropertiesRadiusCuda.v
