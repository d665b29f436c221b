-Q theories Verif
theories/Base/Lists.v
theories/Base/Occ.v
theories/Base/OptionM.v
theories/Base/ZRange.v
theories/Cluster/BlockBuild.v
theories/Cluster/BlockGeo.v
theories/Cluster/BlockModel.v
theories/Cluster/ClusterContainerExample.v
theories/Cluster/ClusterContainerModel.v
theories/Cluster/ClusterContainerSpec.v
theories/Cluster/ClusterForEach.v
theories/Cluster/ClusterGeo.v
theories/Cluster/ClusterIterate.v
theories/Cluster/ClusterRebuilt.v
theories/Cluster/ClusterTraversalModel.v
theories/Cluster/ClusterUpdate.v
theories/Cluster/ListsBufferModel.v
theories/Cluster/ListsBufferProofs.v
theories/Cluster/ListsBufferSpec.v
theories/Cluster/ListsCount.v
theories/Cluster/ListsExample.v
theories/Cluster/ListsProofs.v
theories/Cluster/ListsSpec.v
theories/Cluster/PartitionProofs.v
theories/Cluster/TowerExample.v
theories/Cluster/TowerModel.v
theories/Cluster/TowerProofs.v
theories/Cluster/TowerProps.v
theories/Cluster/TowerSpec.v
theories/Cluster/TraversalCount.v
theories/Cluster/TraversalIds.v
theories/Cluster/TraversalOnce.v
theories/Cluster/TraversalOrders.v
theories/Cluster/TraversalProps.v
theories/Cluster/TraversalRaces.v
theories/Cluster/TraversalSpec.v
theories/Container/CellCallsCount.v
theories/Container/CellCallsExample.v
theories/Container/CellCallsModel.v
theories/Container/CellCallsSpec.v
theories/Container/CollectContainers.v
theories/Container/CollectModel.v
theories/Container/CollectProofs.v
theories/Container/CollectRun.v
theories/Container/CollectSpec.v
theories/Container/CollectTheorems.v
theories/Container/CombinedC01Model.v
theories/Container/CombinedC01Particles.v
theories/Container/CombinedC01Proofs.v
theories/Container/CombinedC01Slices.v
theories/Container/CombinedC04Count.v
theories/Container/CombinedC04Grid.v
theories/Container/CombinedC04Handler.v
theories/Container/CombinedC04Model.v
theories/Container/CombinedC04Offsets.v
theories/Container/CombinedC04Parallel.v
theories/Container/CombinedC04Particles.v
theories/Container/CombinedC04Run.v
theories/Container/CombinedC04Sim.v
theories/Container/CombinedC04Spec.v
theories/Container/CombinedExample.v
theories/Container/DirectSumProofs.v
theories/Container/ForEachModel.v
theories/Container/ForEachProofs.v
theories/Container/IteratorContainers.v
theories/Container/IteratorExample.v
theories/Container/IteratorGeneric.v
theories/Container/IteratorGenericModel.v
theories/Container/IteratorGrid.v
theories/Container/IteratorInstances.v
theories/Container/IteratorLemmas.v
theories/Container/IteratorModel.v
theories/Container/IteratorPadded.v
theories/Container/IteratorParallel.v
theories/Container/IteratorProps.v
theories/Container/IteratorRegion.v
theories/Container/IteratorRestart.v
theories/Container/IteratorSearch.v
theories/Container/IteratorSpec.v
theories/Container/IteratorSteps.v
theories/Container/LinkedCellsBuild.v
theories/Container/LinkedCellsCount.v
theories/Container/LinkedCellsDir.v
theories/Container/LinkedCellsExample.v
theories/Container/LinkedCellsGeo.v
theories/Container/LinkedCellsModel.v
theories/Container/LinkedCellsProofs.v
theories/Container/LinkedCellsSpec.v
theories/Container/ParticleModel.v
theories/Container/TripletsProofs.v
theories/Container/UpdateExample.v
theories/Container/UpdateModel.v
theories/Container/UpdateProofs.v
theories/Flex/BalanceProofs.v
theories/Flex/DomainModel.v
theories/Flex/DomainProofs.v
theories/Flex/DomainSpec.v
theories/Flex/ExchangeModel.v
theories/Flex/ExchangeSpec.v
theories/Flex/FactorProofs.v
theories/Flex/FlexExample.v
theories/Flex/FlexRefuted.v
theories/Flex/GridProofs.v
theories/Flex/HaloProofs.v
theories/Flex/HaloTheorem.v
theories/Flex/IntegrateExample.v
theories/Flex/IntegrateModel.v
theories/Flex/IntegrateProofs.v
theories/Flex/IntegrateResult.v
theories/Flex/IntegrateSpec.v
theories/Flex/IntegrateTheorem.v
theories/Flex/MigrationProofs.v
theories/Flex/MigrationResult.v
theories/Flex/MigrationTheorem.v
theories/Flex/QuatExample.v
theories/Flex/QuatModel.v
theories/Flex/QuatProofs.v
theories/Flex/QuatSpec.v
theories/Flex/ReflectExample.v
theories/Flex/ReflectModel.v
theories/Flex/ReflectMulti.v
theories/Flex/ReflectProofs.v
theories/Flex/ReflectSpec.v
theories/Flex/ThermostatModel.v
theories/Flex/ThermostatProofs.v
theories/Flex/ThermostatSpec.v
theories/Flex/ThermostatTheorem.v
theories/Functor/CellFunctor3BCounts.v
theories/Functor/CellFunctor3BModel.v
theories/Functor/CellFunctor3BProofs.v
theories/Functor/CellFunctorModel.v
theories/Functor/CellFunctorProofs.v
theories/Functor/CellsCount.v
theories/Functor/Functor3BSpec.v
theories/Functor/FunctorSpec.v
theories/Functor/SortModel.v
theories/Functor/SortProofs.v
theories/Functor/SortSpec.v
theories/Fuzzy/FuzzyModel.v
theories/Fuzzy/FuzzyProofs.v
theories/Fuzzy/FuzzySpec.v
theories/Fuzzy/FuzzyTuningModel.v
theories/Fuzzy/FuzzyTuningProofs.v
theories/Fuzzy/FuzzyTuningSpec.v
theories/Grid/CellBlockExact.v
theories/Grid/CellBlockFloat.v
theories/Grid/CellBlockModel.v
theories/Grid/CellBlockProofs.v
theories/Grid/CellBlockRounding.v
theories/Grid/CellBlockSpec.v
theories/Grid/IndexModel.v
theories/Grid/IndexProofs.v
theories/Grid/IndexSpec.v
theories/Logic/BalanceModel.v
theories/Logic/BalanceProofs.v
theories/Logic/Compute3Example.v
theories/Logic/Compute3Slots.v
theories/Logic/Compute3Spec.v
theories/Logic/Compute3Theorem.v
theories/Logic/ComputeExample.v
theories/Logic/ComputeModel.v
theories/Logic/ComputeProofs.v
theories/Logic/ComputeSlots.v
theories/Logic/ComputeSpec.v
theories/Logic/ComputeTheorem.v
theories/Logic/HandlerAge.v
theories/Logic/HandlerCont.v
theories/Logic/HandlerDrift.v
theories/Logic/HandlerExact.v
theories/Logic/HandlerExample.v
theories/Logic/HandlerFields.v
theories/Logic/HandlerHalo.v
theories/Logic/HandlerImages.v
theories/Logic/HandlerModel.v
theories/Logic/HandlerNear.v
theories/Logic/HandlerProofs.v
theories/Logic/HandlerSize.v
theories/Logic/HandlerSpec.v
theories/Logic/HandlerTotal.v
theories/Logic/HandlerUpdate.v
theories/Logic/LocksModel.v
theories/Logic/LocksProofs.v
theories/Logic/LocksSpec.v
theories/Logic/Remainder3Containers.v
theories/Logic/Remainder3Core.v
theories/Logic/Remainder3Model.v
theories/Logic/Remainder3Region.v
theories/Logic/RemainderContainers.v
theories/Logic/RemainderExample.v
theories/Logic/RemainderMembers.v
theories/Logic/RemainderModel.v
theories/Logic/RemainderProofs.v
theories/Logic/RemainderSpec.v
theories/MD/ATComputeExample.v
theories/MD/ATComputeModel.v
theories/MD/ATComputeProofs.v
theories/MD/ATComputeSpec.v
theories/MD/ATComputeTheorem.v
theories/MD/ATExample.v
theories/MD/ATModel.v
theories/MD/ATPhysics.v
theories/MD/ATSpec.v
theories/MD/ATTheorem.v
theories/MD/AVXExample.v
theories/MD/AVXModel.v
theories/MD/AVXProofs.v
theories/MD/AVXSpec.v
theories/MD/AVXTheorem.v
theories/MD/AVXVerlet.v
theories/MD/LJComputeExample.v
theories/MD/LJComputeModel.v
theories/MD/LJComputeProofs.v
theories/MD/LJComputeSpec.v
theories/MD/LJComputeTheorem.v
theories/MD/LJExample.v
theories/MD/LJFloat.v
theories/MD/LJGradient.v
theories/MD/LJModel.v
theories/MD/LJPhysics.v
theories/MD/LJProofs.v
theories/MD/LJSpec.v
theories/MD/LJTheorem.v
theories/MD/MixingModel.v
theories/MD/MixingProofs.v
theories/MD/MixingSpec.v
theories/MD/MultisiteExample.v
theories/MD/MultisiteModel.v
theories/MD/MultisitePhysics.v
theories/MD/MultisiteProofs.v
theories/MD/MultisiteSpec.v
theories/MD/MultisiteSums.v
theories/Octree/DirectionModel.v
theories/Octree/OctreeAxis.v
theories/Octree/OctreeBase.v
theories/Octree/OctreeContainer.v
theories/Octree/OctreeContainerExample.v
theories/Octree/OctreeContainerModel.v
theories/Octree/OctreeDouble.v
theories/Octree/OctreeExample.v
theories/Octree/OctreeGap.v
theories/Octree/OctreeInsert.v
theories/Octree/OctreeIterate.v
theories/Octree/OctreeIterateExample.v
theories/Octree/OctreeIterateSpec.v
theories/Octree/OctreeIteratorModel.v
theories/Octree/OctreeModel.v
theories/Octree/OctreeNeighbor.v
theories/Octree/OctreeNumbers.v
theories/Octree/OctreeProps.v
theories/Octree/OctreeRegion.v
theories/Octree/OctreeSpec.v
theories/Octree/OctreeTouch.v
theories/Octree/OctreeTraversal.v
theories/Octree/OctreeTraversalModel.v
theories/Octree/OctreeWalk.v
theories/Properties/P01_Index.v
theories/Properties/P02_CellBlock.v
theories/Properties/P06_C08.v
theories/Properties/P08_C18.v
theories/Properties/P10_C04.v
theories/Properties/P13_C01.v
theories/Properties/P15_Sliced.v
theories/Properties/P19_CellFunctor.v
theories/Properties/P21_CellFunctor3B.v
theories/Properties/P22_LinkedCells.v
theories/Properties/P23_Iterators.v
theories/Properties/P26_Handler.v
theories/Properties/P28_Lists.v
theories/Properties/P30_Remainder.v
theories/Properties/P31_Balance.v
theories/Properties/P32_Collect.v
theories/Properties/P33_Update.v
theories/Properties/P34_Locks.v
theories/Properties/P35_Tuner.v
theories/Properties/P37_Mpi.v
theories/Properties/P41_Octree.v
theories/Properties/P43_Towers.v
theories/Properties/P44_ClusterLists.v
theories/Properties/P45_Utils.v
theories/Properties/P47_ForEach.v
theories/Properties/P50_OctreeTraversal.v
theories/Properties/P51_ClusterTraversals.v
theories/Properties/P54_VerletLists.v
theories/Properties/P56_CellCalls.v
theories/Properties/P57_CombinedSoA.v
theories/Properties/P58_Compute.v
theories/Properties/P59_Compute3.v
theories/Properties/P60_LennardJones.v
theories/Properties/P61_LJCompute.v
theories/Properties/P62_AxilrodTeller.v
theories/Properties/P63_AxilrodTellerForces.v
theories/Properties/P64_DomainDecomposition.v
theories/Properties/P65_HaloExchange.v
theories/Properties/P66_Migration.v
theories/Properties/P67_AVXFunctor.v
theories/Properties/P68_References.v
theories/Properties/P69_Integration.v
theories/Properties/P70_Thermostat.v
theories/Properties/P71_Rules.v
theories/Properties/P72_SearchSpace.v
theories/Properties/P73_Rotation.v
theories/Properties/P74_AngularMomentum.v
theories/Properties/P75_Reflection.v
theories/Properties/P76_ReflectionMultisite.v
theories/Properties/P77_MultisiteForces.v
theories/Properties/P78_MultisiteLayout.v
theories/Properties/P79_ClusterListsBuffer.v
theories/Properties/P80_Density.v
theories/Properties/P81_HydroForce.v
theories/Properties/P82_Predictive.v
theories/Properties/P83_Fuzzy.v
theories/Properties/P84_FuzzyTuning.v
theories/Refs/RefAdd.v
theories/Refs/RefExact.v
theories/Refs/RefExample.v
theories/Refs/RefModel.v
theories/Refs/RefProofs.v
theories/Refs/RefSpec.v
theories/Refs/RefSweep.v
theories/Refs/RefTheorem.v
theories/Rules/RuleClash.v
theories/Rules/RuleExample.v
theories/Rules/RuleModel.v
theories/Rules/RuleProofs.v
theories/Rules/RuleSpec.v
theories/Rules/RuleTheorem.v
theories/Rules/RuleTuning.v
theories/SPH/SPHKernel.v
theories/SPH/SPHLayout.v
theories/SPH/SPHModel.v
theories/SPH/SPHPhysics.v
theories/SPH/SPHSpec.v
theories/Traversal/C01Model.v
theories/Traversal/C01Proofs.v
theories/Traversal/C01Spec.v
theories/Traversal/C04HCPProofs.v
theories/Traversal/C04Model.v
theories/Traversal/C04Proofs.v
theories/Traversal/C08Bases.v
theories/Traversal/C08Model.v
theories/Traversal/C08Proofs.v
theories/Traversal/C18Model.v
theories/Traversal/C18Proofs.v
theories/Traversal/CellLemmas.v
theories/Traversal/CellSpec.v
theories/Traversal/ColorModel.v
theories/Traversal/ColorProofs.v
theories/Traversal/LockModel.v
theories/Traversal/LockProofs.v
theories/Traversal/SliceCells.v
theories/Traversal/SliceModel.v
theories/Traversal/SliceProofs.v
theories/Traversal/SliceSpec.v
theories/Tuning/DistributeModel.v
theories/Tuning/DistributeProofs.v
theories/Tuning/DistributeSpec.v
theories/Tuning/DistributeTheorems.v
theories/Tuning/MpiModel.v
theories/Tuning/MpiProofs.v
theories/Tuning/MpiSpec.v
theories/Tuning/PredictiveModel.v
theories/Tuning/PredictiveProofs.v
theories/Tuning/PredictiveSpec.v
theories/Tuning/SearchExample.v
theories/Tuning/SearchModel.v
theories/Tuning/SearchProofs.v
theories/Tuning/SearchSpec.v
theories/Tuning/TunerModel.v
theories/Tuning/TunerProofs.v
theories/Tuning/TunerSpec.v
theories/Tuning/TunerSwitch.v
theories/Utils/SafeMathModel.v
theories/Utils/SafeMathProofs.v
theories/Utils/SafeMathSpec.v
theories/Utils/SoAModel.v
theories/Utils/SoAProofs.v
theories/Utils/SoASpec.v
theories/Verlet/VerletAsBuilt.v
theories/Verlet/VerletBase.v
theories/Verlet/VerletC08Model.v
theories/Verlet/VerletC08Proofs.v
theories/Verlet/VerletC08Step.v
theories/Verlet/VerletC08Store.v
theories/Verlet/VerletCells.v
theories/Verlet/VerletExample.v
theories/Verlet/VerletGen.v
theories/Verlet/VerletModel.v
theories/Verlet/VerletPairs.v
theories/Verlet/VerletProofs.v
theories/Verlet/VerletSpec.v
theories/Verlet/VerletStore.v
theories/Verlet/VerletTop.v
theories/Verlet/VerletTraverse.v
