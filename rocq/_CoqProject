-Q theories Verif
theories/Base.v
theories/HeapModel.v
theories/HeapSpec.v
theories/HeapProof.v
theories/PropertiesHeap.v
theories/KernelAlgModel.v
theories/KernelAlgProof.v
theories/PropertiesKernelAlg.v
theories/MortonModel.v
theories/MortonSpec.v
theories/MortonProof.v
theories/PropertiesMorton.v
theories/TreeConstructionModel.v
theories/TreeSpec.v
theories/TreeShapeProof.v
theories/TreeConstructionProof.v
theories/DeltaProof.v
theories/MortonFloatModel.v
theories/PropertiesTree.v
theories/TraversalModel.v
theories/TraversalSpec.v
theories/TraversalProof.v
theories/NearestProof.v
theories/OrderedProof.v
theories/HeightProof.v
theories/PropertiesTraversal.v
theories/BruteForceModel.v
theories/BruteForceProof.v
theories/PropertiesBruteForce.v
theories/CrsModel.v
theories/CrsSpec.v
theories/CrsProof.v
theories/PropertiesCrs.v
theories/NeighborModel.v
theories/NeighborProof.v
theories/PropertiesNeighbor.v
theories/Interleave.v
theories/LabelModel.v
theories/LabelProof.v
theories/PropertiesLabel.v
theories/UnionFindModel.v
theories/UnionFindSpec.v
theories/UnionFindProof.v
theories/PropertiesUnionFind.v
theories/DbscanModel.v
theories/FinalizeProof.v
theories/DbscanSpec.v
theories/DbscanProof.v
theories/PropertiesDbscan.v
theories/ReorderModel.v
theories/ReorderProof.v
theories/PropertiesReorder.v
theories/DenseBoxModel.v
theories/DenseBoxProof.v
theories/PropertiesDenseBox.v
theories/GridModel.v
theories/GridProof.v
theories/PropertiesGrid.v
theories/EdgeModel.v
theories/PropertiesEdge.v
theories/DendrogramModel.v
theories/DendrogramProof.v
theories/PropertiesDendrogram.v
theories/DistDbscanModel.v
theories/MergeProof.v
theories/DistDbscanSpec.v
theories/DistDbscanProof.v
theories/DistPipelineProof.v
theories/PropertiesDistDbscan.v
theories/DistributorModel.v
theories/DistributorSpec.v
theories/DistributorProof.v
theories/PropertiesDistributor.v
theories/DistTreeModel.v
theories/DistTreeProof.v
theories/DistTreeSpec.v
theories/DistQueryProof.v
theories/PropertiesDistTree.v
theories/DistNearestProof.v
theories/PropertiesDistNearest.v
theories/FactorsModel.v
theories/PropertiesFactors.v
theories/BoxFloatModel.v
theories/PropertiesBoxQuery.v
theories/GeomOps.v
theories/BoxModel.v
theories/BoxSpec.v
theories/PropertiesBox.v
theories/KdopModel.v
theories/PropertiesKdop.v
theories/ShapeModel.v
theories/ShapeSpec.v
theories/PropertiesShape.v
theories/PropertiesClosest.v
theories/PropertiesSat.v
theories/PropertiesEllipsoid.v
theories/RayModel.v
theories/PropertiesRay.v
theories/PropertiesRayReal.v
theories/InterpModel.v
theories/PropertiesBasis.v
theories/PropertiesCrbf.v
theories/SvdProof.v
theories/PropertiesSvd.v
theories/PropertiesMls.v
theories/PropertiesInterpFloat.v
theories/MstSpec.v
theories/MstProof.v
theories/BoruvkaGraph.v
theories/HdbscanTree.v
theories/BoruvkaModel.v
theories/BoruvkaOrder.v
theories/BoruvkaSearch.v
theories/BoruvkaUpdate.v
theories/BoruvkaProof.v
theories/HdbscanModel.v
theories/HdbscanUpdate.v
theories/HdbscanLoop.v
theories/HdbscanSpec.v
theories/HdbscanSort.v
theories/HdbscanProof.v
theories/PropertiesHdbscan.v
theories/PropertiesBoruvka.v
theories/CoreSpec.v
theories/CoreModel.v
theories/CoreProof.v
theories/PropertiesCore.v
theories/IeeeSpec.v
theories/IeeeModel.v
theories/IeeeProof.v
theories/IeeeBoxProof.v
theories/PropertiesIeee.v
theories/BuildFloatModel.v
theories/BuildFloatProof.v
theories/BuildFloatTreeProof.v
theories/PropertiesBuildFloat.v
theories/VizModel.v
theories/VizProof.v
theories/PropertiesViz.v
theories/PropertiesBoxTight.v
theories/PropertiesKdopTight.v
theories/GridIndexModel.v
theories/PropertiesGridIndex.v
theories/DistFloatModel.v
theories/DistFloatProof.v
theories/PropertiesDistFloat.v
theories/ValidModel.v
theories/PropertiesValid.v
theories/ReduceModel.v
theories/PropertiesReduce.v
theories/PropertiesCentroid.v
theories/PropertiesDegenerate.v
theories/PropertiesEchelon.v
theories/VerifyModel.v
theories/VerifySpec.v
theories/VerifyProof.v
theories/VerifyUniqueProof.v
theories/PropertiesVerify.v
theories/PropertiesPipeline.v
theories/SurfaceModel.v
theories/SurfaceSpec.v
theories/SurfaceProof.v
theories/SurfaceSplitProof.v
theories/SurfaceEdgeProof.v
theories/SurfaceCheckProof.v
theories/SurfaceGeomModel.v
theories/SurfaceGeomSpec.v
theories/SurfaceGeomProof.v
theories/PropertiesSurface.v
theories/BenchDataModel.v
theories/BenchDataProof.v
theories/PropertiesBenchData.v
theories/RaytracingModel.v
theories/RaytracingSpec.v
theories/RaytracingProof.v
theories/PropertiesRaytracing.v
theories/MolecularModel.v
theories/MolecularSpec.v
theories/MolecularProof.v
theories/PropertiesMolecular.v
theories/DriverModel.v
theories/PropertiesDriver.v
theories/GridFloatModel.v
theories/PropertiesGridFloat.v
theories/GridFloatProof.v
theories/PropertiesGridFloatSafe.v
theories/PropertiesRayCoplanar.v
theories/SortModel.v
theories/PropertiesSort.v
theories/PropertiesSortBuild.v
theories/BenchLoopsModel.v
theories/PropertiesBenchLoops.v
theories/ContactModel.v
theories/PropertiesContact.v
theories/ClusterSortModel.v
theories/ClusterSortSpec.v
theories/ClusterSortProof.v
theories/PropertiesClusterSort.v
theories/PropertiesClusterDbscan.v
theories/ClusterReportModel.v
theories/PropertiesClusterReport.v
theories/CustomDistanceModel.v
theories/PropertiesCustomDistance.v
theories/ExampleOutputModel.v
theories/PropertiesExampleOutput.v
theories/TimerModel.v
theories/PropertiesTimer.v
