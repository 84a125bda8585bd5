-Q theories Verif
theories/Base.v
theories/MultiIndex.v
theories/MultiIndexSpec.v
theories/MultiIndexFacts.v
theories/P_MultiIndex.v
theories/KnotVec.v
theories/Basis.v
theories/VecUtils.v
theories/Spaces.v
theories/SplineEval.v
theories/SplineEdit.v
theories/SplineDegree.v
theories/BaseFacts.v
theories/RSum.v
theories/KnotVecSpec.v
theories/KnotVecFacts.v
theories/KnotVecThms.v
theories/P_KnotVec.v
theories/BSplineTheory.v
theories/Boehm.v
theories/BasisSpec.v
theories/BasisFacts.v
theories/BasisThms.v
theories/P_Basis.v
theories/SpacesSpec.v
theories/SpacesFacts.v
theories/SpacesThms.v
theories/P_ParamSpace.v
theories/TensorSum.v
theories/SplineSpec.v
theories/EvalFacts.v
theories/RationalDeriv.v
theories/EvalDeriv.v
theories/SplineNew.v
theories/EvalThms.v
theories/P_Eval.v
theories/OneSidedSpec.v
theories/OneSidedThms.v
theories/SmoothThms.v
theories/P_OneSided.v
theories/PhysFacts.v
theories/AdjustFacts.v
theories/InsertKnots.v
theories/InsertFacts.v
theories/EditSpec.v
theories/InsertThms.v
theories/P_Insert.v
theories/RemoveFacts.v
theories/RemoveCompact.v
theories/RemoveCheck.v
theories/RemovePoints.v
theories/RemoveKnots.v
theories/RemoveMain.v
theories/RemoveThms.v
theories/RemoveSpec.v
theories/RemoveDecide.v
theories/InsertRepeat.v
theories/RemoveBound.v
theories/RemoveExamples.v
theories/P_Remove.v
theories/SubdivideFacts.v
theories/SubdividePieces.v
theories/SubdivideThms.v
theories/P_Subdivide.v
theories/HistorySpec.v
theories/HistoryThms.v
theories/P_History.v
theories/DegreeSpec.v
theories/DegreeFacts.v
theories/DegreeReduce.v
theories/DegreeThms.v
theories/P_Degree.v
theories/EqualSpec.v
theories/EqualThms.v
theories/P_Equal.v
theories/VecSpec.v
theories/VecThms.v
theories/P_Vec.v
theories/Gauss.v
theories/GaussSpec.v
theories/GaussThms.v
theories/P_Gauss.v
theories/IgaSpec.v
theories/Iga.v
theories/IgaFacts.v
theories/IgaThms.v
theories/IgaBasis.v
theories/IgaBasisThms.v
theories/IgaExamples.v
theories/P_Iga.v
theories/IgaSystem.v
theories/IgaSystemSpec.v
theories/Scatter.v
theories/IgaSystemFacts.v
theories/IgaAssembly.v
theories/IgaStiffness.v
theories/IgaSystemThms.v
theories/IgaSystemCons.v
theories/IgaBoundaryFacts.v
theories/IgaBoundaryThms.v
theories/IgaSolveSpec.v
theories/IgaSolveThms.v
theories/IgaSolveExamples.v
theories/IgaFaceFacts.v
theories/IgaFaceThms.v
theories/IgaNeumannThms.v
theories/IgaFaceExamples.v
theories/IgaSystemExamples.v
theories/P_IgaSystem.v
theories/P_IgaBoundary.v
theories/P_IgaFaces.v
theories/IgaSolutionThms.v
theories/IgaSolutionExamples.v
theories/P_IgaSolution.v
theories/StrOps.v
theories/StrSpec.v
theories/StrFacts.v
theories/StrNum.v
theories/StrDelim.v
theories/StrThms.v
theories/Convert.v
theories/ConvertSpec.v
theories/ConvertFacts.v
theories/ConvertThms.v
theories/P_Str.v
theories/P_Convert.v
theories/Vtk.v
theories/VtkSpec.v
theories/VtkFacts.v
theories/VtkThms.v
theories/P_Vtk.v
theories/Generators.v
theories/GeneratorsSpec.v
theories/GeneratorsFacts.v
theories/SquareFacts.v
theories/GrevilleSpec.v
theories/GrevilleFacts.v
theories/GeneratorsThms.v
theories/P_Generators.v
theories/SlopeFacts.v
theories/Projection.v
theories/ProjectionFacts.v
theories/ProjectionThms.v
theories/P_Projection.v
theories/Format.v
theories/Irit.v
theories/FormatSpec.v
theories/FormatFacts.v
theories/IritFacts.v
theories/IritRead.v
theories/Rebuild.v
theories/IritBack.v
theories/IritFile.v
theories/Fixed.v
theories/IritThms.v
theories/P_Irit.v
theories/Xml.v
theories/XmlFacts.v
theories/XmlThms.v
theories/P_Xml.v
theories/Iges.v
theories/IgesFacts.v
theories/IgesData.v
theories/IgesFile.v
theories/IgesThms.v
theories/P_Iges.v
theories/Heap.v
theories/HeapSpec.v
theories/HeapFacts.v
theories/HeapLink.v
theories/HeapThms.v
theories/P_Heap.v
theories/ConstructSpec.v
theories/ConstructThms.v
theories/P_Construct.v
theories/Random.v
theories/RandomSpec.v
theories/RandomThms.v
theories/P_Random.v
theories/Swept.v
theories/SweptSpec.v
theories/SweptFacts.v
theories/SweptThms.v
theories/SweptExamples.v
theories/P_Swept.v
theories/ConvLog.v
theories/ConvLogSpec.v
theories/ConvLogFacts.v
theories/ConvLogThms.v
theories/ConvLogEnd.v
theories/P_ConvLog.v
theories/NearMap.v
theories/NearThms.v
theories/P_RoundTrip.v
theories/ConvertFile.v
theories/ConvertFileSpec.v
theories/ConvertFileThms.v
theories/ConvertFileExamples.v
theories/P_ConvertFile.v
theories/NewtonSpec.v
theories/NewtonFacts.v
theories/P_Newton.v
theories/XmlReadSpec.v
theories/XmlReadFacts.v
theories/XmlReadThms.v
theories/P_XmlRead.v
theories/DoubleSpec.v
theories/DoubleFacts.v
theories/DoubleError.v
theories/DoubleKnots.v
theories/DoubleBasis.v
theories/DoubleSum.v
theories/DoubleEval.v
theories/DoubleThms.v
theories/DoubleExamples.v
theories/DoubleRationalSpec.v
theories/DoubleRational.v
theories/DoubleRationalEval.v
theories/DoubleRationalThms.v
theories/DoubleRationalExamples.v
theories/P_Double.v
theories/IgesReadSpec.v
theories/IgesReadFacts.v
theories/IgesReadThms.v
theories/P_IgesRead.v
theories/IritDocSpec.v
theories/IritDocFacts.v
theories/IritDocThms.v
theories/P_IritRead.v
theories/AdjustAny.v
theories/DoubleMix.v
theories/DoubleInsert.v
theories/DoubleInsertThms.v
theories/DoubleInsertExamples.v
theories/P_DoubleInsert.v
theories/IgesLayoutSpec.v
theories/IgesLayout.v
theories/IgesLayoutThms.v
theories/WrittenSpec.v
theories/WrittenFacts.v
theories/WrittenThms.v
theories/P_Written.v
theories/DoubleMixRational.v
theories/DoubleInsertRational.v
theories/DoubleInsertRationalThms.v
theories/DoubleNurbsInsert.v
theories/DoubleNurbsExamples.v
theories/P_DoubleNurbs.v
theories/DoubleDerivSpec.v
theories/DoubleDeriv.v
theories/DoubleDerivThms.v
theories/DoubleDerivExamples.v
theories/P_DoubleDeriv.v
theories/UniqueSpec.v
theories/UniqueFacts.v
theories/UniqueThms.v
theories/P_Unique.v
theories/TangentSpec.v
theories/TangentFacts.v
theories/BernsteinFacts.v
theories/TangentThms.v
theories/P_Tangent.v
theories/RescaleSpec.v
theories/RescaleFacts.v
theories/RescaleThms.v
theories/P_Rescale.v
theories/VariationSpec.v
theories/VariationFacts.v
theories/VariationThms.v
theories/P_Variation.v
theories/PolynomialSpec.v
theories/PolynomialFacts.v
theories/PolynomialThms.v
theories/P_Polynomial.v
theories/IntegralFacts.v
theories/GalerkinSpec.v
theories/GalerkinFacts.v
theories/GalerkinThms.v
theories/StiffnessExact.v
theories/GalerkinExamples.v
theories/P_Galerkin.v
theories/IntEval.v
theories/IntSpec.v
theories/IntFacts.v
theories/IntEvalFacts.v
theories/IntThms.v
theories/P_Int.v
theories/SolvableSpec.v
theories/PolyGrid.v
theories/LinearFacts.v
theories/SolvableFacts.v
theories/SolvableThms.v
theories/SolvableExamples.v
theories/P_Solvable.v
theories/KnotRuns.v
theories/ReduceKnots.v
theories/ReduceSegments.v
theories/ReduceSpan.v
theories/ReduceSums.v
theories/ReduceFacts.v
theories/ReduceStage.v
theories/ReduceMain.v
theories/ReduceSpec.v
theories/ReduceThms.v
theories/ReduceExamples.v
theories/P_Reduce.v
theories/DegreeSafeSpec.v
theories/DegreeSafe.v
theories/ElevateFacts.v
theories/DegreeSafeThms.v
theories/DegreeSafeExamples.v
theories/P_DegreeSafe.v
theories/DoubleSplitSpec.v
theories/DoubleSplit.v
theories/DoubleSplitSums.v
theories/DoubleSplitThms.v
theories/DoubleSplitClose.v
theories/DoubleSplitNurbs.v
theories/DoubleSplitExamples.v
theories/P_DoubleSplit.v
theories/OrderSpec.v
theories/OrderThms.v
theories/OrderExamples.v
theories/P_Order.v
theories/CutsThms.v
theories/CutsClose.v
theories/CutsExamples.v
theories/P_Cuts.v
theories/Programs.v
theories/ProgramsThms.v
theories/P_Programs.v
theories/RefineCutSpec.v
theories/RefineCut.v
theories/RefineCutExamples.v
theories/P_RefineCut.v
theories/PatchSpec.v
theories/PatchFacts.v
theories/PatchThms.v
theories/PatchExamples.v
theories/P_Patch.v
theories/UndoSpec.v
theories/Undo.v
theories/UndoExamples.v
theories/P_Undo.v
theories/MonotoneSpec.v
theories/Monotone1.v
theories/Monotone.v
theories/RationalGrowth.v
theories/MonotoneExamples.v
theories/P_Monotone.v
theories/SteepSpec.v
theories/Steep.v
theories/SteepExamples.v
theories/P_Steep.v
theories/ResolveSpec.v
theories/Resolve.v
theories/ResolveExamples.v
theories/P_Resolve.v
theories/SmoothSpec.v
theories/Smooth.v
theories/SmoothExamples.v
theories/P_Smooth.v
theories/ConvergeSpec.v
theories/Converge.v
theories/ConvergeExamples.v
theories/P_Converge.v
theories/PiecesShape.v
theories/PiecesShapeExamples.v
theories/P_PiecesShape.v
theories/VariesSpec.v
theories/Varies.v
theories/VariesRefine.v
theories/VariesExamples.v
theories/P_Varies.v
