-Q theories Verif
theories/GoBase.v
theories/GoLists.v
theories/CmpModel.v
theories/CmpProofs.v
theories/CmpProps.v
theories/HeapModel.v
theories/HeapSpec.v
theories/HeapProofs.v
theories/HeapHistory.v
theories/HeapProps.v
theories/StackModel.v
theories/StackSpec.v
theories/StackProofs.v
theories/StackProps.v
theories/QueueModel.v
theories/QueueSpec.v
theories/QueueProofs.v
theories/QueueProps.v
theories/DequeModel.v
theories/DequeSpec.v
theories/DequeProofs.v
theories/DequeProps.v
theories/SortSliceModel.v
theories/SortSliceSpec.v
theories/SortSliceProofs.v
theories/SortSliceProps.v
theories/TreeModel.v
theories/TreeSpec.v
theories/TreeProofs.v
theories/TreeProps.v
theories/MathModel.v
theories/MathSpec.v
theories/MathProofs.v
theories/MathProps.v
theories/PrimeData.v
theories/NumModel.v
theories/NumSpec.v
theories/NumProofs.v
theories/NumProps.v
theories/ConcBase.v
theories/RandModel.v
theories/RandSpec.v
theories/RandProofs.v
theories/RandProps.v
theories/ListModel.v
theories/ListCore.v
theories/ListSort.v
theories/ListSpec.v
theories/ListProofs.v
theories/ListRefine.v
theories/ListMore.v
theories/ListProps.v
theories/SListModel.v
theories/SListSpec.v
theories/SListProofs.v
theories/SListRefine.v
theories/SListCycle.v
theories/SListMore.v
theories/SListProps.v
theories/LFQModel.v
theories/LFQSpec.v
theories/LFQProofs.v
theories/LFQProps.v
theories/RingModel.v
theories/RingSpec.v
theories/RingProofs.v
theories/RingSeq.v
theories/RingProps.v
theories/LFDModel.v
theories/LFDSpec.v
theories/LFDProofs.v
theories/LFDConc.v
theories/LFDProps.v
theories/CryptoModel.v
theories/CryptoSpec.v
theories/CryptoProofs.v
theories/CryptoCipher.v
theories/CryptoMain.v
theories/CryptoProps.v
theories/GoMap.v
theories/GoStrings.v
theories/RegModel.v
theories/RegSpec.v
theories/RegProofs.v
theories/RegProps.v
theories/IoModel.v
theories/IoSpec.v
theories/IoProofs.v
theories/IoProps.v
theories/IniModel.v
theories/IniSpec.v
theories/IniProofs.v
theories/IniProps.v
theories/SpinModel.v
theories/SpinSpec.v
theories/SpinProofs.v
theories/SpinRW.v
theories/SpinProps.v
theories/FileSizeModel.v
theories/FileSizeSpec.v
theories/FileSizeProofs.v
theories/FileSizeProps.v
theories/DurModel.v
theories/DurProofs.v
theories/DurProps.v
theories/PathModel.v
theories/PathSpec.v
theories/PathProofs.v
theories/PathProps.v
theories/FsModel.v
theories/FsSpec.v
theories/FsProofs.v
theories/HashProofs.v
theories/FsProps.v
theories/SpinMore.v
theories/SumModel.v
theories/SumSpec.v
theories/SumProofs.v
theories/SumProps.v
theories/PathMore.v
theories/SpinSeq.v
theories/RbModel.v
theories/RbSpec.v
theories/RbProofs.v
theories/RbOps.v
theories/RbMore.v
theories/RbProps.v
theories/TailModel.v
theories/TailSpec.v
theories/TailProofs.v
theories/TailMore.v
theories/TailProps.v
theories/FileLockModel.v
theories/FileLockSpec.v
theories/FileLockProofs.v
theories/FileLockMore.v
theories/FileLockLive.v
theories/FileLockProps.v
theories/TreeHeapModel.v
theories/TreeHeapSpec.v
theories/TreeHeapProofs.v
theories/TreeHeapMore.v
theories/TreeHeapVisit.v
theories/TreeHeapGrow.v
theories/TreeHeapGraft.v
theories/TreeHeapHang.v
theories/TreeHeapProps.v
theories/FloatModel.v
theories/FloatSpec.v
theories/FloatProofs.v
theories/FloatMore.v
theories/FloatProps.v
theories/StrRandModel.v
theories/StrRandSpec.v
theories/StrRandProofs.v
theories/StrRandConc.v
theories/StrRandMore.v
theories/StrRandProps.v
theories/UnsafeModel.v
theories/UnsafeSpec.v
theories/UnsafeProofs.v
theories/UnsafeMore.v
theories/UnsafeProps.v
theories/WorkModel.v
theories/WorkSpec.v
theories/WorkProofs.v
theories/WorkMore.v
theories/WorkProps.v
theories/CreateModel.v
theories/CreateSpec.v
theories/CreateProofs.v
theories/CreateProps.v
theories/SeedModel.v
theories/SeedSpec.v
theories/SeedProofs.v
theories/SeedMore.v
theories/SeedProps.v
theories/ErrConcModel.v
theories/ErrConcSpec.v
theories/ErrConcProofs.v
theories/ErrConcMore.v
theories/ErrConcProps.v
theories/FactoryModel.v
theories/FactorySpec.v
theories/FactoryProofs.v
theories/FactoryProps.v
theories/RsaModel.v
theories/RsaSpec.v
theories/RsaProofs.v
theories/RsaMore.v
theories/RsaSign.v
theories/RsaApi.v
theories/RsaKeys.v
theories/RsaWitness.v
theories/RsaProps.v
theories/ProgSpec.v
theories/ProgBase.v
theories/LFQLive.v
theories/LFQLive2.v
theories/LFQLiveProps.v
theories/LFDLiveSpec.v
theories/LFDLive.v
theories/LFDLive2.v
theories/LFDLiveProps.v
theories/BtModel.v
theories/BtSpec.v
theories/BtProofs.v
theories/BtProps.v
theories/RaceSpec.v
theories/RaceBase.v
theories/RaceModel.v
theories/LFQRace.v
theories/LFQHonest.v
theories/RingRace.v
theories/RingHonest.v
theories/LFDRace.v
theories/LFDHonest.v
theories/SpinRace.v
theories/SpinHonest.v
theories/RaceWit.v
theories/RaceProps.v
theories/RsaStd.v
theories/RaceMutex.v
theories/ErrFineModel.v
theories/ErrFineRace.v
theories/ErrFineProofs.v
theories/ErrFineHonest.v
theories/ErrFineLive.v
theories/ErrFineProps.v
theories/RegObjModel.v
theories/RegObjSpec.v
theories/RegObjProofs.v
theories/RegObjProps.v
theories/RegFineModel.v
theories/RegFineSpec.v
theories/RegFineRace.v
theories/RegFineProofs.v
theories/RegFineHonest.v
theories/RegFineLive.v
theories/RegFineWit.v
theories/RegFineProps.v
theories/DurFloatModel.v
theories/DurFloatSpec.v
theories/DurFloatProofs.v
theories/DurFloatQ.v
theories/DurFloatProps.v
theories/PathPartModel.v
theories/PathPartSpec.v
theories/PathPartProofs.v
theories/PathPartProps.v
theories/LFDLazyModel.v
theories/LFDLazySpec.v
theories/LFDLazyProofs.v
theories/LFDLazyRace.v
theories/LFDLazyProps.v
theories/RandLive.v
theories/RandLiveProps.v
theories/RingLiveSpec.v
theories/RingLive.v
theories/RingLiveProps.v
theories/AesModel.v
theories/AesSpec.v
theories/AesProofs.v
theories/AesChain.v
theories/AesStd.v
theories/AesProps.v
theories/DesModel.v
theories/DesSpec.v
theories/DesProofs.v
theories/DesMain.v
theories/DesProps.v
theories/MatchModel.v
theories/MatchSpec.v
theories/MatchProofs.v
theories/MatchScan.v
theories/MatchMain.v
theories/MatchErr.v
theories/MatchBad.v
theories/MatchProps.v
theories/WinModel.v
theories/WinSpec.v
theories/WinProofs.v
theories/WinMore.v
theories/WinJoin.v
theories/WinDir.v
theories/WinProps.v
theories/WalkSpec.v
theories/WalkModel.v
theories/WalkProofs.v
theories/WalkProps.v
theories/LinkSpec.v
theories/LinkModel.v
theories/LinkProofs.v
theories/LinkMore.v
theories/LinkProps.v
theories/LoopSpec.v
theories/LoopModel.v
theories/LoopProofs.v
theories/LoopProps.v
theories/SubsSpec.v
theories/SubsModel.v
theories/SubsProofs.v
theories/SubsProps.v
theories/ReflModel.v
theories/ReflSpec.v
theories/ReflProofs.v
theories/ReflProps.v
theories/RenSpec.v
theories/RenModel.v
theories/RenProofs.v
theories/RenProps.v
theories/WlinkSpec.v
theories/WlinkModel.v
theories/WlinkProofs.v
theories/WlinkProps.v
theories/MvdirSpec.v
theories/MvdirModel.v
theories/MvdirProofs.v
theories/MvdirProps.v
theories/RmallSpec.v
theories/RmallModel.v
theories/RmallProofs.v
theories/RmallProps.v
theories/MkallSpec.v
theories/MkallModel.v
theories/MkallProofs.v
theories/MkallProps.v
theories/MvfpSpec.v
theories/MvfpProofs.v
theories/MvfpProps.v
theories/EvalSpec.v
theories/EvalModel.v
theories/EvalProofs.v
theories/EvalProps.v
theories/CwdModel.v
theories/CwdSpec.v
theories/CwdProofs.v
theories/CwdProps.v
theories/SeedAlone.v
theories/WrelModel.v
theories/WrelSpec.v
theories/WrelProofs.v
theories/WrelProps.v
theories/RmallMore.v
theories/WrelMore.v
theories/WpartModel.v
theories/WpartSpec.v
theories/WpartProofs.v
theories/WpartProps.v
theories/WmatchModel.v
theories/WmatchSpec.v
theories/WmatchProofs.v
theories/WmatchErr.v
theories/WmatchMore.v
theories/WmatchProps.v
theories/WmatchBad.v
theories/WrelMix.v
theories/WinRelDir.v
theories/WinSplit.v
theories/WinChild.v
