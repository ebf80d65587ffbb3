-Q theories Verif
theories/Base.v
theories/BaseLemmas.v
theories/HeapModel.v
theories/HeapSpec.v
theories/HeapProofs1.v
theories/HeapProofs2.v
theories/HeapProofs3.v
theories/HeapProofs4.v
theories/HeapProofs5.v
theories/HeapProofs6.v
theories/HeapProps.v
theories/ObsArray.v
theories/ObserverModel.v
theories/ObserverSpec.v
theories/ObserverProofs1.v
theories/ObserverProofs2.v
theories/ObserverProofs3.v
theories/ObserverProofs4.v
theories/ObserverProps.v
theories/ValuesModel.v
theories/ValuesSpec.v
theories/ValuesProofs1.v
theories/ValuesProofs2.v
theories/ValuesProofs3.v
theories/ValuesProps.v
theories/MediatorModel.v
theories/MediatorSpec.v
theories/MediatorProofs.v
theories/MediatorProofs2.v
theories/MediatorProps.v
theories/PipelineModel.v
theories/PipelineSpec.v
theories/PipelineProofs1.v
theories/PipelineProofs2.v
theories/PipelineProps.v
theories/ArgvModel.v
theories/ArgvSpec.v
theories/ArgvProofs.v
theories/ArgvProps.v
theories/DataModel.v
theories/DataSpec.v
theories/DataProofs.v
theories/DataProps.v
theories/PacketModel.v
theories/PacketProofs.v
theories/PacketSpec.v
theories/PacketProps.v
theories/LruModel.v
theories/LruSpec.v
theories/LruProofs.v
theories/LruProps.v
theories/PimplModel.v
theories/PimplSpec.v
theories/PimplProofs.v
theories/PimplProps.v
theories/IntervalModel.v
theories/IntervalSpec.v
theories/IntervalProofs.v
theories/IntervalProofs2.v
theories/IntervalProps.v
theories/ValuesProofs4.v
theories/ObserverProofs5.v
theories/ValuesProofs5.v
theories/ValuesProofs6.v
theories/HeapProofs7.v
theories/HeapUseModel.v
theories/HeapUseSpec.v
theories/HeapUseProofs.v
theories/HeapUseProps.v
theories/ChainModel.v
theories/ChainSpec.v
theories/ChainProofs.v
theories/ChainProps.v
theories/IntervalProofs3.v
theories/AllocatorsModel.v
theories/AllocatorsSpec.v
theories/AllocatorsProofs.v
theories/AllocatorsProps.v
theories/ObsThreadsModel.v
theories/ObsThreadsSpec.v
theories/ObsThreadsProofs.v
theories/ObsThreadsProps.v
theories/HeapCopyModel.v
theories/HeapCopySpec.v
theories/HeapCopyProofs.v
theories/HeapCopyProps.v
theories/ObsNetModel.v
theories/ObsNetSpec.v
theories/ObsNetProofs.v
theories/ObsNetProofs2.v
theories/ObsNetProofs3.v
theories/ObsNetProofs4.v
theories/ObsNetProps.v
theories/ObsLifeModel.v
theories/ObsLifeSpec.v
theories/ObsLifeProofs.v
theories/ObsLifeProps.v
theories/VNetModel.v
theories/VNetSpec.v
theories/VNetProofs.v
theories/VNetProofs2.v
theories/VNetProps.v
theories/MedNetModel.v
theories/MedNetSpec.v
theories/MedNetProofs.v
theories/MedNetProofs2.v
theories/MedNetProofs3.v
theories/MedNetProps.v
theories/PipelineProofs3.v
theories/PipelineLiveProps.v
theories/VLifeModel.v
theories/VLifeSpec.v
theories/VLifeProofs1.v
theories/VLifeProofs2.v
theories/VLifeProofs3.v
theories/VLifeProofs4.v
theories/VLifeProps.v
theories/FlowModel.v
theories/FlowSpec.v
theories/FlowProofs1.v
theories/FlowProofs2.v
theories/FlowProofs3.v
theories/FlowProofs4.v
theories/FlowProofs5.v
theories/FlowProps.v
theories/PoolModel.v
theories/PoolSpec.v
theories/PoolProofs1.v
theories/PoolProofs2.v
theories/PoolProofs3.v
theories/PoolProps.v
theories/TimersModel.v
theories/TimersSpec.v
theories/TimersProofs1.v
theories/TimersProofs2.v
theories/TimersProofs3.v
theories/TimersProofs4.v
theories/TimersProps.v
theories/HeapFragProofs.v
theories/HeapFragProps.v
theories/ObsShareModel.v
theories/ObsShareSpec.v
theories/ObsShareProofs.v
theories/ObsShareProofs2.v
theories/ObsShareProofs3.v
theories/ObsShareProps.v
theories/HeapPoolSpec.v
theories/HeapPoolProofs.v
theories/HeapPoolProofs2.v
theories/HeapPoolProps.v
theories/LruSizeSpec.v
theories/LruSizeProofs.v
theories/LruSizeProps.v
theories/MedShareModel.v
theories/MedShareSpec.v
theories/MedShareProofs.v
theories/MedShareProofs2.v
theories/MedShareProofs3.v
theories/MedShareProofs4.v
theories/MedShareProofs5.v
theories/MedShareProps.v
theories/HeapAlignSpec.v
theories/HeapAlignProofs.v
theories/HeapAlignProps.v
theories/ObsThrowModel.v
theories/ObsThrowSpec.v
theories/ObsThrowProofs.v
theories/ObsThrowProofs2.v
theories/ObsThrowProofs3.v
theories/ObsThrowProps.v
theories/FValModel.v
theories/FValSpec.v
theories/FValProofs.v
theories/FValProofs2.v
theories/FValProofs3.v
theories/FValProps.v
theories/HeapVecModel.v
theories/HeapVecSpec.v
theories/HeapVecProofs.v
theories/HeapVecProofs2.v
theories/HeapVecProofs3.v
theories/HeapVecProofs4.v
theories/HeapVecProofs5.v
theories/HeapVecProofs6.v
theories/HeapVecProps.v
theories/VShareModel.v
theories/VShareSpec.v
theories/VShareProofs.v
theories/VShareProofs2.v
theories/VShareProps.v
theories/HeapListModel.v
theories/HeapListSpec.v
theories/HeapListProofs.v
theories/HeapListProofs2.v
theories/HeapListProofs3.v
theories/HeapListProofs4.v
theories/HeapListProofs5.v
theories/HeapListProofs6.v
theories/HeapListProofs7.v
theories/HeapListProps.v
theories/ArgvAgainSpec.v
theories/ArgvAgainProofs.v
theories/ArgvAgainProps.v
theories/HeapShareModel.v
theories/HeapShareSpec.v
theories/HeapShareProofs.v
theories/HeapShareProofs2.v
theories/HeapShareProofs3.v
theories/HeapShareProps.v
theories/VThrowModel.v
theories/VThrowSpec.v
theories/VThrowProofs.v
theories/VThrowProofs2.v
theories/VThrowProps.v
theories/VRegModel.v
theories/VRegSpec.v
theories/VRegProofs.v
theories/VRegProofs2.v
theories/VRegProps.v
theories/VDynModel.v
theories/VDynSpec.v
theories/VDynProofs.v
theories/VDynProofs2.v
theories/VDynProps.v
theories/PThrowModel.v
theories/PThrowSpec.v
theories/PThrowProofs.v
theories/PThrowProps.v
theories/IThrowModel.v
theories/IThrowSpec.v
theories/IThrowProofs.v
theories/IThrowProps.v
