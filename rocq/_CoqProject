-Q theories Verif
theories/Base.v
theories/Model.v
theories/Spec.v
theories/Util.v
theories/SplitProof.v
theories/InsertProof.v
theories/LookupProof.v
theories/RemoveProof.v
theories/Reach.v
theories/Wide.v
theories/Main.v
theories/MinOne.v
theories/Heuristics.v
theories/GeomModel.v
theories/GeomSpec.v
theories/GeomProof.v
theories/FCVecModel.v
theories/FCVecSpec.v
theories/FCVecProof.v
theories/IterModel.v
theories/SortedModel.v
theories/DistModel.v
theories/SphereModel.v
theories/JoinModel.v
theories/LeftJoinModel.v
theories/IterSpec.v
theories/IterProof.v
theories/JoinProof.v
theories/LeftJoinProof.v
theories/RcMutModel.v
theories/RcMutSpec.v
theories/RcMutProof.v
theories/MutProof.v
theories/SortedProof.v
theories/MemModel.v
theories/MemSpec.v
theories/MemProof.v
theories/ForestProof.v
theories/DistSpec.v
theories/DistProof.v
theories/RealSpec.v
theories/FloatReal.v
theories/BoxDistProof.v
theories/BoxJoinProof.v
theories/SphereProof.v
theories/Witness.v
theories/SortedWitness.v
theories/PropCore.v
theories/PropGeom.v
theories/PropIter.v
theories/PropSorted.v
theories/PropJoin.v
theories/PropDist.v
theories/PropFloat.v
theories/SegModel.v
theories/SegSpec.v
theories/SegProof.v
theories/SegFloat.v
theories/SegQuery.v
theories/PropSphere.v
theories/PropSeg.v
theories/PropMem.v
theories/PropDrop.v
theories/PropRc.v
theories/CrashModel.v
theories/CrashSpec.v
theories/CrashProof.v
theories/CrashTree.v
theories/CrashInsert.v
theories/CrashUnique.v
theories/CrashRemove.v
theories/CrashOps.v
theories/CrashForest.v
theories/CrashCalm.v
theories/CalmInv.v
theories/PropCrash.v
theories/PropCalm.v
theories/LayoutModel.v
theories/PropLayout.v
theories/CheckModel.v
theories/CheckProof.v
theories/CheckSpec.v
theories/CheckI32.v
theories/CostProof.v
theories/CheckRun.v
theories/PropCheck.v
theories/FpModel.v
theories/FpSpec.v
theories/FpProof.v
theories/PropFp.v
theories/FpDist.v
theories/PropFpDist.v
theories/PropFilter.v
theories/FxModel.v
theories/FxSpec.v
theories/FxProof.v
theories/PropFx.v
theories/FxSortedModel.v
theories/FxSortedSpec.v
theories/FxSortedProof.v
theories/FxSortedLaw.v
theories/PropBest.v
theories/FxLeftModel.v
theories/FxLeftSpec.v
theories/FxLeftProof.v
theories/PropFxLeft.v
theories/PropSpace.v
theories/UModel.v
theories/USpec.v
theories/UProof.v
theories/UDist.v
theories/SearchModel.v
theories/SearchSpec.v
theories/SearchProof.v
theories/PropSearch.v
theories/PropUnsigned.v
theories/DebugModel.v
theories/DebugSpec.v
theories/DebugProof.v
theories/PropDebug.v
theories/DtorModel.v
theories/DtorSpec.v
theories/DtorProof.v
theories/PropDtor.v
theories/FpSphereModel.v
theories/FpSphereProof.v
theories/PropFpSphere.v
theories/FpSegModel.v
theories/FpSegSpec.v
theories/FpSegProof.v
theories/PropFpSeg.v
theories/PropFpRay.v
theories/LenModel.v
theories/LenSpec.v
theories/LenProof.v
theories/PropLen.v
theories/WildModel.v
theories/WildSpec.v
theories/WildProof.v
theories/WildTree.v
theories/WildUnique.v
theories/WildOps.v
theories/WildForest.v
theories/PropWild.v
theories/HeapModel.v
theories/HeapSpec.v
theories/HeapProof.v
theories/PropHeap.v
theories/VolSpec.v
theories/VolProof.v
theories/PropVolume.v
theories/SplitSpec.v
theories/HeurProof.v
theories/VolLaws.v
theories/PropSplit.v
theories/FpCheckSpec.v
theories/FpCheckProof.v
theories/PropFpCheck.v
theories/VolExt.v
theories/PropFpSplit.v
theories/VecModel.v
theories/PropVec.v
theories/IndepSpec.v
theories/Indep.v
theories/PropIndep.v
theories/SintModel.v
theories/SintSpec.v
theories/SintProof.v
theories/PropSint.v
theories/PropAssert.v
theories/PropCost.v
theories/InitModel.v
theories/InitSpec.v
theories/InitProof.v
theories/PropInit.v
theories/PropFits.v
