-Q theories Verif
theories/Base.v
theories/Tables.v
theories/MeshModel.v
theories/MeshSpec.v
theories/MeshProofs.v
theories/MaterialFilterModel.v
theories/MaterialFilterSpec.v
theories/MaterialFilterProofs.v
theories/DsuModel.v
theories/DsuSpec.v
theories/DsuProofs.v
theories/PropMesh.v
theories/PropMaterial.v
theories/PropDsu.v
theories/Arith.v
theories/GridModel.v
theories/GridSpec.v
theories/GridProofs.v
theories/PropGrid.v
theories/EdgeModel.v
theories/EdgeSpec.v
theories/EdgeProofs.v
theories/LoopLemmas.v
theories/FillModel.v
theories/FillSpec.v
theories/FillProofs.v
theories/RealArith.v
theories/FloatArith.v
theories/PropFill.v
theories/PropFillNum.v
theories/CellSpec.v
theories/CellTables.v
theories/MergeProofs.v
theories/MCModel.v
theories/MCProofs.v
theories/MCClosed.v
theories/PropMC.v
theories/OrientSpec.v
theories/OrientProofs.v
theories/PropMCOrient.v
theories/UdcModel.v
theories/DualSpec.v
theories/DualProofs.v
theories/UdcProofs.v
theories/PropUdc.v
theories/ZeroModel.v
theories/ZeroReal.v
theories/ZeroFloat.v
theories/FalsiFloat.v
theories/PropZero.v
theories/OctreeModel.v
theories/DcTables.v
theories/DcModel.v
theories/OctreeSpec.v
theories/OctreeSums.v
theories/OctreeProofs.v
theories/OctreeFlux.v
theories/DcSpec.v
theories/DcBuild.v
theories/DcContour.v
theories/PropDc.v
theories/MdcModel.v
theories/MdcSpec.v
theories/MdcTables.v
theories/MdcFlux.v
theories/MdcLeaf.v
theories/MdcTrav.v
theories/MdcForest.v
theories/MdcBuild.v
theories/MdcCluster.v
theories/MdcContour.v
theories/PropMdc.v
theories/DcHeap.v
theories/DcHeapProofs.v
theories/PropDcHeap.v
theories/HeightmapModel.v
theories/HeightmapSpec.v
theories/HeightmapProofs.v
theories/PropHeightmap.v
theories/TriModel.v
theories/TriSpec.v
theories/TriProofs.v
theories/TriDist.v
theories/TriNear.v
theories/TriCells.v
theories/PropTri.v
theories/PlyModel.v
theories/PlySpec.v
theories/PlyProofs.v
theories/PlyReal.v
theories/PropPly.v
theories/PropMeshField.v
theories/QefModel.v
theories/QefLin.v
theories/QefHouse.v
theories/QefSpec.v
theories/QefProofs.v
theories/XReal.v
theories/QefJacobi.v
theories/QefLeast.v
theories/QefFinite.v
theories/PropQef.v
theories/PropQefSolve.v
theories/DmcModel.v
theories/DmcTrav.v
theories/DmcFlux.v
theories/DmcContour.v
theories/DmcSpec.v
theories/DmcProofs.v
theories/DmcMesh.v
theories/DmcClosed.v
theories/DmcBuild.v
theories/PropDmc.v
theories/PropDmcIeee.v
theories/PropDmcExact.v
theories/SolverModel.v
theories/DcQef.v
theories/PropDcQef.v
theories/QefFlat.v
theories/QefPlane.v
theories/PropFlat.v
theories/PropPlane.v
theories/PlaneMerge.v
theories/PropDcPlane.v
theories/MdcQef.v
theories/PropMdcQef.v
theories/PropMdcPlane.v
theories/MdcHeap.v
theories/MdcHeapProofs.v
theories/PropMdcHeap.v
theories/PropNear.v
theories/DmcHeap.v
theories/DmcHeapProofs.v
theories/PropDmcHeap.v
theories/PropDmcPlane.v
theories/PropNormals.v
theories/PropNormalsDmc.v
theories/DsuWidthModel.v
theories/PropDsuWidth.v
theories/PropMoved.v
theories/PropMovedDmc.v
theories/PropMovedEx.v
theories/CopyModel.v
theories/PropCopyDmc.v
theories/PropCopyDc.v
theories/PropCopyMdc.v
theories/PropNodes.v
theories/MeshFieldModel.v
theories/PropMeshFieldLife.v
theories/TriHeap.v
theories/TriHeapProofs.v
theories/TriHeapUse.v
theories/PropTriHeap.v
theories/FillThrowModel.v
theories/PropFillThrow.v
theories/PropNewGrid.v
theories/MeshThrowModel.v
theories/PropMeshThrow.v
theories/DsuThrowModel.v
theories/PropDsuThrow.v
theories/PropVertexMaterial.v
