-Q theories Verif
theories/Base.v
theories/BaseProofs.v
theories/Num.v
theories/KnnModel.v
theories/KnnSpec.v
theories/KnnProofs.v
theories/F64.v
theories/F64Proofs.v
theories/Vec.v
theories/KdModel.v
theories/KdSpec.v
theories/KdProofs.v
theories/KdSearchProofs.v
theories/KdTop.v
theories/KdF64.v
theories/RNum.v
theories/NthElement.v
theories/KdReal.v
theories/KdThms.v
theories/Prop_Knn.v
theories/Prop_KdTree.v
theories/KdParModel.v
theories/KdParProofs.v
theories/Prop_KdPar.v
theories/FloorModel.v
theories/FloorProofs.v
theories/SortSpec.v
theories/VoxModel.v
theories/VoxSpec.v
theories/VoxProofs.v
theories/VoxKey.v
theories/VoxPar.v
theories/VoxReal.v
theories/F64Err.v
theories/VoxF64.v
theories/Prop_Vox.v
theories/SortModel.v
theories/SortProofs.v
theories/RadixModel.v
theories/RadixProofs.v
theories/SampleModel.v
theories/Prop_Sort.v
theories/VmapModel.v
theories/VmapSpec.v
theories/VmapProofs.v
theories/VmapHist.v
theories/VmapSearch.v
theories/VmapBody.v
theories/Prop_Vmap.v
theories/Lin.v
theories/LinSpec.v
theories/LinProofs.v
theories/FactorModel.v
theories/ReduceModel.v
theories/ReduceSpec.v
theories/ReduceProofs.v
theories/Prop_Reduce.v
theories/OptModel.v
theories/OptSpec.v
theories/OptProofs.v
theories/FactorProofs.v
theories/RegF64.v
theories/Prop_Opt.v
theories/LieSpec.v
theories/LieModel.v
theories/LieProofs.v
theories/LieFlow.v
theories/LieSmall.v
theories/Prop_Lie.v
theories/FactorGrad.v
theories/EstModel.v
theories/EstSpec.v
theories/EstProofs.v
theories/EstReal.v
theories/Prop_Est.v
theories/FactorSpec.v
theories/FactorReal.v
theories/StepProofs.v
theories/Prop_Factor.v
theories/RobustProofs.v
theories/Prop_Robust.v
theories/AxisModel.v
theories/AxisSpec.v
theories/AxisProofs.v
theories/Prop_Axis.v
theories/CloudModel.v
theories/CloudSpec.v
theories/CloudProofs.v
theories/Prop_Cloud.v
theories/HeapModel.v
theories/HeapSpec.v
theories/HeapProofs.v
theories/HeapWorld.v
theories/Prop_Heap.v
theories/PclModel.v
theories/PclSpec.v
theories/PclProofs.v
theories/Prop_Pcl.v
theories/ProjModel.v
theories/ProjSpec.v
theories/ProjProofs.v
theories/ProjF64.v
theories/Prop_Proj.v
theories/IoModel.v
theories/IoSpec.v
theories/IoProofs.v
theories/Prop_Io.v
theories/FlowModel.v
theories/FlowSpec.v
theories/FlowProofs.v
theories/Prop_Flow.v
theories/HelperModel.v
theories/HelperSpec.v
theories/HelperProofs.v
theories/Prop_Helper.v
theories/KdSafe.v
theories/RegSafe.v
theories/PipeSpec.v
theories/PipeSample.v
theories/PipeModel.v
theories/PipeProofs.v
theories/PipeRun.v
theories/Prop_Pipe.v
theories/PyModel.v
theories/PySpec.v
theories/PyLoop.v
theories/PyProofs.v
theories/Prop_PyTree.v
theories/Prop_PyReg.v
theories/OdomModel.v
theories/OdomSpec.v
theories/OdomProofs.v
theories/Prop_Odom.v
theories/EstF64Spec.v
theories/PipeEst.v
theories/MoveSpec.v
theories/MoveProofs.v
theories/MoveFactor.v
theories/MoveTree.v
theories/Prop_Move.v
theories/FitSpec.v
theories/FitProofs.v
theories/Prop_Fit.v
theories/AlignSpec.v
theories/AlignProofs.v
theories/Prop_Align.v
theories/BenchModel.v
theories/BenchSpec.v
theories/Prop_Bench.v
theories/F32.v
theories/F32Proofs.v
theories/KittiModel.v
theories/KittiSpec.v
theories/Prop_Kitti.v
theories/PclPointModel.v
theories/PclPointSpec.v
theories/Prop_PclPoint.v
theories/PyFactorModel.v
theories/Prop_PyFactor.v
theories/OdomPclModel.v
theories/OdomPclSpec.v
theories/Prop_OdomPcl.v
theories/TurnSpec.v
theories/TurnProofs.v
theories/TurnTree.v
theories/Prop_Turn.v
theories/OrderSpec.v
theories/OrderProofs.v
theories/Prop_Order.v
theories/ShiftSpec.v
theories/ShiftProofs.v
theories/Prop_Shift.v
theories/SpinSpec.v
theories/SpinProofs.v
theories/Prop_Spin.v
theories/Prop_VoxTwice.v
theories/Prop_RobustF64.v
theories/NanSpec.v
theories/NanProofs.v
theories/NanMap.v
theories/Prop_Nan.v
theories/KeepF64Spec.v
theories/KeepF64.v
theories/KeepRun.v
theories/Prop_KeepF64.v
theories/UnitSpec.v
theories/UnitProofs.v
theories/Prop_Unit.v
theories/FlatSpec.v
theories/ScatterF64.v
theories/FlatProofs.v
theories/FlatRun.v
theories/Prop_Flat.v
theories/LieF64Model.v
theories/RigidSpec.v
theories/RigidLen.v
theories/RigidF64.v
theories/RigidQuat.v
theories/RigidStep.v
theories/RigidRun.v
theories/Prop_Rigid.v
theories/FixedSpec.v
theories/FixedProofs.v
theories/Prop_Fixed.v
theories/EnergySpec.v
theories/EnergyProofs.v
theories/Prop_Energy.v
theories/TemplateModel.v
theories/TemplateSpec.v
theories/TemplateProofs.v
theories/Prop_Template.v
theories/SumSpec.v
theories/SumProofs.v
theories/Prop_Sum.v
theories/KdNearSpec.v
theories/KdNear.v
theories/KdNearDist.v
theories/Prop_KdNear.v
theories/PyOdomModel.v
theories/PyOdomSpec.v
theories/Prop_PyOdom.v
theories/GaussF64Spec.v
theories/GaussF64.v
theories/Prop_GaussF64.v
theories/TransErr.v
theories/TransSpec.v
theories/TransF64.v
theories/Prop_Trans.v
theories/Prop_Limit.v
theories/Prop_Rebuild.v
