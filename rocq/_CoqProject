-Q theories Verif

theories/Base.v
theories/BaseProofs.v
theories/BucketProofs.v
theories/AdjList.v
theories/AdjListSpec.v
theories/AdjListProofs.v
theories/PropAdjList.v
theories/Sort.v
theories/SortSpec.v
theories/SortProofs.v
theories/PropSort.v
theories/Ranges.v
theories/RangesProofs.v
theories/PropRanges.v
theories/Nbx.v
theories/NbxProofs.v
theories/PcxProofs.v
theories/NbxRuns.v
theories/PropNbx.v
theories/Algo.v
theories/AlgoProofs.v
theories/World.v
theories/WorldProofs.v
theories/IndexMap.v
theories/IndexMapSpec.v
theories/IndexMapProofs.v
theories/ImSharedProofs.v
theories/PropIndexMap.v
theories/Scatterer.v
theories/ScattererProofs.v
theories/VectorOps.v
theories/VectorSpec.v
theories/VectorOpsProofs.v
theories/OrthoProofs.v
theories/VectorStmts.v
theories/PropVector.v
theories/SubMap.v
theories/SubMapSpec.v
theories/OwnedProofs.v
theories/RoundTrip.v
theories/StackProofs.v
theories/SubIndices.v
theories/SubMapProofs.v
theories/PropSubMap.v
theories/PostOffice.v
theories/PostOfficeProofs.v
theories/PropPostOffice.v
theories/Sparsity.v
theories/SparsitySpec.v
theories/SparsityProofs.v
theories/PropSparsity.v
theories/MatrixCSR.v
theories/MatrixSpec.v
theories/MatrixProofs.v
theories/MatrixDense.v
theories/PropMatrix.v
theories/MatrixPar.v
theories/MatrixParSpec.v
theories/MatrixParProofs.v
theories/SpmvProofs.v
theories/MultProofs.v
theories/PatternMats.v
theories/PropMatrixPar.v
theories/Collectives.v
theories/MatTrans.v
theories/MatOpsSpec.v
theories/TransLocal.v
theories/TransCopy.v
theories/TransProofs.v
theories/PropMatTrans.v
theories/MatMul.v
theories/MatMulLocal.v
theories/MatMulComm.v
theories/MatMulSpec.v
theories/MatMulProofs.v
theories/PropMatMul.v
theories/Bbox.v
theories/BboxSpec.v
theories/BboxProofs.v
theories/BboxSearch.v
theories/BboxMain.v
theories/PropBbox.v
theories/Tags.v
theories/TagsProofs.v
theories/PropTags.v
theories/CellTypes.v
theories/PropCells.v
theories/DirichletBC.v
theories/BcProofs.v
theories/PropBC.v
theories/RefUtils.v
theories/RefUtilsProofs.v
theories/PropRefUtils.v
theories/Ordering.v
theories/OrderingProofs.v
theories/PropOrdering.v
theories/Orient.v
theories/OrientSpec.v
theories/OrientProofs.v
theories/PropOrient.v
theories/Entities.v
theories/EntitiesSpec.v
theories/EntitiesProofs.v
theories/NumberProofs.v
theories/PropEntities.v
theories/LocalIndexing.v
theories/LocalIndexingSpec.v
theories/LiLemmas.v
theories/LiGather.v
theories/LiNumber.v
theories/LiProofs.v
theories/PropLocalIndexing.v
theories/DofBuilder.v
theories/DofSpec.v
theories/DofReq.v
theories/DofCells.v
theories/DofBasic.v
theories/RenumSpec.v
theories/DofRenum.v
theories/DofRcm.v
theories/DofGlobal.v
theories/DofWorld.v
theories/DofReal.v
theories/DofUse.v
theories/PropDofs.v
theories/SubDofs.v
theories/SubDofsSpec.v
theories/SubDofsProofs.v
theories/CollapseProofs.v
theories/CollapseBlocked.v
theories/PropSubDofs.v
theories/Assemble.v
theories/AssembleSpec.v
theories/AsmBlocks.v
theories/AsmSums.v
theories/AsmVector.v
theories/AsmMatrix.v
theories/AsmCsr.v
theories/AsmScalar.v
theories/AssembleBC.v
theories/AssembleBcSpec.v
theories/AsmLift.v
theories/AsmBC.v
theories/AsmSystem.v
theories/AsmElement.v
theories/PropAssemble.v
theories/FormData.v
theories/FormSpec.v
theories/FormProofs.v
theories/PropForm.v
theories/Locate.v
theories/LocateSpec.v
theories/LocateProofs.v
theories/LocatePairProofs.v
theories/PropLocate.v
theories/Marking.v
theories/MarkingSpec.v
theories/MarkingRanks.v
theories/MarkingProofs.v
theories/MarkingLoop.v
theories/PropMarking.v
theories/Plaza.v
theories/PlazaSpec.v
theories/PlazaTiling.v
theories/PlazaBisect.v
theories/PlazaCheck.v
theories/PlazaProofs.v
theories/PlazaOrder.v
theories/PropPlaza.v
theories/Cells.v
theories/CellsSpec.v
theories/CellsPop.v
theories/CellsTri.v
theories/CellsTet.v
theories/CellsBlocks.v
theories/CellsProofs.v
theories/CellsInverse.v
theories/PropNodeOrder.v
theories/DualGraph.v
theories/DualGraphSpec.v
theories/DualRows.v
theories/DualPairs.v
theories/DualMatch.v
theories/DualStorage.v
theories/DualLocal.v
theories/DualLocalGraph.v
theories/DualPlan.v
theories/DualCompact.v
theories/DualSend.v
theories/DualGraphProofs.v
theories/DualGraphExtra.v
theories/PropDualGraph.v
theories/Distribute.v
theories/DistributeSpec.v
theories/DistributeProofs.v
theories/PropDistribute.v
theories/GhostIdx.v
theories/GhostIdxSpec.v
theories/GhostIdxProofs.v
theories/PropGhostIdx.v
theories/MeshCreate.v
theories/MeshCreateSpec.v
theories/MeshCreateProofs.v
theories/PropMeshCreate.v
theories/Sharing.v
theories/SharingProofs.v
theories/TopoCreate.v
theories/TopoCreateSpec.v
theories/TopoBase.v
theories/TopoCreateProofs.v
theories/PropTopoCreate.v
theories/BoundaryVerts.v
theories/BoundarySpec.v
theories/BoundaryProofs.v
theories/BoundaryMain.v
theories/BoundaryWorld.v
theories/BoundaryCheck.v
theories/PropBoundary.v
theories/SubMesh.v
theories/SubMeshSpec.v
theories/SubMeshProofs.v
theories/PropSubMesh.v
theories/TagTransfer.v
theories/TagTransferSpec.v
theories/TagTransferProofs.v
theories/PropTagTransfer.v
theories/PointOwner.v
theories/PointOwnerSpec.v
theories/PointOwnerProofs.v
theories/PropPointOwner.v
theories/EntityData.v
theories/EntityDataSpec.v
theories/EntityDataProofs.v
theories/PropEntityData.v
theories/Generation.v
theories/GenerationSpec.v
theories/GridTiling.v
theories/GridCells.v
theories/GridShapes.v
theories/GenerationProofs.v
theories/GridTri.v
theories/PropGeneration.v
theories/CellMap.v
theories/CellMapSpec.v
theories/CellMapProofs.v
theories/PropCellMap.v
theories/Uniform.v
theories/UniformSpec.v
theories/UniformShapes.v
theories/UniformProds.v
theories/UniformFacets.v
theories/UniformWorld.v
theories/UniformEdge.v
theories/PropUniform.v
theories/Gjk.v
theories/GjkSpec.v
theories/GjkHull.v
theories/GjkNearest.v
theories/GjkTet.v
theories/GjkLoop.v
theories/GjkThreads.v
theories/GjkEdge.v
theories/PropGjk.v
theories/Interp.v
theories/InterpSpec.v
theories/InterpWrites.v
theories/InterpProofs.v
theories/InterpEval.v
theories/InterpRound.v
theories/PropInterp.v
theories/NonMatching.v
theories/NonMatchingSpec.v
theories/NonMatchingScatter.v
theories/NonMatchingProofs.v
theories/NonMatchingCoords.v
theories/PropNonMatching.v
theories/FormPattern.v
theories/FormPatternSpec.v
theories/FormPatternProofs.v
theories/FormPatternBlocks.v
theories/FormPatternPar.v
theories/PropFormPattern.v
theories/Pack.v
theories/PackSpec.v
theories/PackProofs.v
theories/PackForm.v
theories/PackEnts.v
theories/PropPack.v
theories/StackPattern.v
theories/StackPatternSpec.v
theories/StackPatternProofs.v
theories/PropStackPattern.v
theories/NewVerts.v
theories/NewVertsSpec.v
theories/NewVertsProofs.v
theories/NewVertsGeom.v
theories/PropNewVerts.v
theories/DestRanks.v
theories/DestRanksSpec.v
theories/DestRanksProofs.v
theories/PropDestRanks.v
theories/MarkMax.v
theories/MarkMaxSpec.v
theories/MarkMaxProofs.v
theories/PropMarkMax.v
theories/Newton.v
theories/NewtonSpec.v
theories/NewtonProofs.v
theories/PropNewton.v
theories/DofCoords.v
theories/DofCoordsSpec.v
theories/DofCoordsProofs.v
theories/PropDofCoords.v
theories/DiscreteOps.v
theories/DiscreteOpsSpec.v
theories/DiscreteLinear.v
theories/DiscreteSet.v
theories/DiscreteGrad.v
theories/DiscreteAdd.v
theories/PropDiscreteOps.v
theories/Xdmf.v
theories/XdmfSpec.v
theories/XdmfProofs.v
theories/XdmfData.v
theories/PropXdmf.v
theories/Expr.v
theories/ExprSpec.v
theories/ExprProofs.v
theories/PropExpr.v
theories/Spaces.v
theories/SpacesSpec.v
theories/SpacesProofs.v
theories/PropSpaces.v
theories/VtkHdf.v
theories/VtkHdfSpec.v
theories/VtkHdfWrite.v
theories/VtkHdfRead.v
theories/VtkHdfTrip.v
theories/VtkHdfSteps.v
theories/PropVtkHdf.v
theories/Vtx.v
theories/VtxSpec.v
theories/VtxProofs.v
theories/PropVtx.v
theories/VtkFile.v
theories/VtkFileSpec.v
theories/VtkFileProofs.v
theories/PropVtkFile.v
theories/Table.v
theories/TableSpec.v
theories/TableProofs.v
theories/PropTable.v
theories/TimeLog.v
theories/TimeLogSpec.v
theories/TimeLogProofs.v
theories/PropTimeLog.v
theories/CommGraph.v
theories/CommGraphSpec.v
theories/CommGraphProofs.v
theories/PropCommGraph.v
theories/TimeTableProofs.v
theories/PropTimeTable.v
theories/CommTotalProofs.v
theories/PropCommTotal.v
