-Q theories Verif
theories/Base.v
theories/BitModel.v
theories/BitSpec.v
theories/BitProofs.v
theories/BitProps.v
theories/AlgoModel.v
theories/AlgoSpec.v
theories/AlgoProofs.v
theories/AlgoProps.v
theories/Conc.v
theories/AtomicModel.v
theories/AtomicSpec.v
theories/AtomicProofs.v
theories/AtomicProps.v
theories/BitsetModel.v
theories/BitsetSpec.v
theories/BitsetProofs.v
theories/BitsetProps.v
theories/MutexModel.v
theories/MutexSpec.v
theories/MutexProofs.v
theories/MutexProps.v
theories/SlotModel.v
theories/SlotSpec.v
theories/SlotProofs.v
theories/Lifetime.v
theories/VectorModel.v
theories/VectorSpec.v
theories/VectorProofs.v
theories/VectorConcProofs.v
theories/VectorProps.v
theories/DequeModel.v
theories/DequeSpec.v
theories/DequeProofs.v
theories/DequeConcProofs.v
theories/DequeProps.v
theories/UnorderedModel.v
theories/UnorderedSpec.v
theories/HashProofs.v
theories/UnorderedProofs.v
theories/CapacityProofs.v
theories/UnorderedSeqProofs.v
theories/UnorderedProps.v
theories/MemoryModel.v
theories/MemorySpec.v
theories/MemoryProofs.v
theories/MemoryArrayProofs.v
theories/MemoryConcProofs.v
theories/MemoryFinalProofs.v
theories/MemoryProps.v
theories/UtilModel.v
theories/UtilSpec.v
theories/UtilProofs.v
theories/UtilProps.v
theories/UConcModel.v
theories/UConcSpec.v
theories/UConcProofs.v
theories/UConcReach.v
theories/UConcFinal.v
theories/UConcEnd.v
theories/UConcTop.v
theories/UConcProps.v
theories/ContainerMemModel.v
theories/ContainerMemSpec.v
theories/ContainerMemProofs.v
theories/ContainerMemFinal.v
theories/ContainerMemProps.v
theories/UEraseModel.v
theories/UEraseSpec.v
theories/UEraseProofs.v
theories/UEraseFinal.v
theories/UEraseTop.v
theories/UHistSpec.v
theories/UHistProofs.v
theories/UEraseProps.v
theories/UHistProps.v
theories/UProgSpec.v
theories/UWalk.v
theories/UInsProg.v
theories/UErsProg.v
theories/UProgTop.v
theories/UProgProps.v
theories/URangeModel.v
theories/URangeProofs.v
theories/URangeProps.v
theories/UMixProps.v
theories/UMixSpec.v
theories/UMixVec.v
theories/UMixShape.v
theories/UMixKnow.v
theories/UMixCore.v
theories/UMixIns.v
theories/UMixErs.v
theories/UMixTop.v
theories/UMix2Props.v
theories/UOneVec.v
theories/UOneDefs.v
theories/UOneUpd.v
theories/UOneStep.v
theories/UOneLink.v
theories/UOneMain.v
theories/UOneSpec.v
theories/UOneTop.v
theories/UOneProps.v
theories/UOneProg.v
theories/UOneProg2.v
theories/UOneProgProps.v
theories/UniqueModel.v
theories/UniqueSpec.v
theories/UniqueProofs.v
theories/UniqueProps.v
theories/RangeModel.v
theories/RangeProofs.v
theories/RangeProps.v
theories/ULikeModel.v
theories/ULikeProofs.v
theories/ULikeProps.v
theories/FifoSpec.v
theories/FifoProofs.v
theories/FifoQueue.v
theories/FifoPair.v
theories/FifoStack.v
theories/FifoRefute.v
theories/FifoRefute2.v
theories/FifoVPair.v
theories/FifoProps.v
theories/OneKind.v
theories/OneKindProps.v
theories/CounterModel.v
theories/CounterProofs.v
theories/CounterProps.v
theories/URaceModel.v
theories/URaceProofs.v
theories/URaceProps.v
theories/RejectProofs.v
theories/RejectProps.v
theories/USepSpec.v
theories/USepProofs.v
theories/USepTop.v
theories/USepProg.v
theories/USepFind.v
theories/USepKern.v
theories/USepProps.v
theories/UAnyVec.v
theories/UAnyDefs.v
theories/UAnySpec.v
theories/UAnyStep.v
theories/UAnyTop.v
theories/UAnyProps.v
theories/UKeepSpec.v
theories/UKeepProofs.v
theories/UKeepTop.v
theories/UKeepProps.v
theories/UTruthSpec.v
theories/UTruthProofs.v
theories/UTruthProps.v
theories/VDebtSpec.v
theories/VDebtProofs.v
theories/VDebtProps.v
theories/DDebtSpec.v
theories/DDebtProofs.v
theories/DDebtProps.v
theories/VHistSpec.v
theories/VHistProofs.v
theories/VHistProps.v
theories/DHistSpec.v
theories/DHistProofs.v
theories/DHistProps.v
theories/SizeSpec.v
theories/SizeProofs.v
theories/USizeProofs.v
theories/SizeProps.v
theories/LifeModel.v
theories/LifeSpec.v
theories/LifeProofs.v
theories/LifeProps.v
theories/URace2Proofs.v
theories/URace2Props.v
theories/CollectModel.v
theories/CollectSpec.v
theories/CollectProofs.v
theories/CollectProps.v
theories/LoopModel.v
theories/LoopSpec.v
theories/LoopProofs.v
theories/LoopProps.v
theories/ValidSpec.v
theories/ValidProofs.v
theories/ValidNext.v
theories/ValidEnds.v
theories/ValidProps.v
theories/VValidProps.v
theories/DValidProps.v
theories/VValidHist.v
