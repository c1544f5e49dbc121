-Q theories Verif
theories/CBase.v
theories/BitOpsModel.v
theories/BitOpsProofs.v
theories/AxmapModel.v
theories/AxmapSpec.v
theories/AxmapDriver.v
theories/AxmapProofs.v
theories/AxmapProps.v
theories/FloatZ.v
theories/Orbit.v
theories/RandMapModel.v
theories/RandMapSpec.v
theories/RandMapProofs.v
theories/RandMapProps.v
theories/LfsrModel.v
theories/LfsrSpec.v
theories/LfsrAlgebra.v
theories/LfsrCerts.v
theories/LfsrProofs.v
theories/LfsrProps.v
theories/Mem.v
theories/FifoModel.v
theories/FifoSpec.v
theories/FifoProofs.v
theories/FifoProps.v
theories/IouqModel.v
theories/IouqSpec.v
theories/IouqProofs.v
theories/IouqProps.v
theories/PatternModel.v
theories/PatternSpec.v
theories/PatternProofs.v
theories/PatternProps.v
theories/PatParseModel.v
theories/PatParseSpec.v
theories/PatParseProofs.v
theories/PatParseProps.v
theories/PlatModel.v
theories/PlatSpec.v
theories/PlatProofs.v
theories/PlatProps.v
theories/IoStatModel.v
theories/IoStatSpec.v
theories/IoStatProofs.v
theories/IoStatProps.v
theories/TimeModel.v
theories/TimeSpec.v
theories/TimeProofs.v
theories/TimeProps.v
theories/ClockModel.v
theories/ClockProofs.v
theories/ClockProps.v
theories/SmallocModel.v
theories/SmallocBits.v
theories/SmallocSpec.v
theories/SmallocProofs.v
theories/SmallocProps.v
theories/CrcTables.v
theories/CrcModel.v
theories/CrcSpec.v
theories/CrcProofs.v
theories/CrcProps.v
theories/DigestTables.v
theories/DigestModel.v
theories/DigestSpec.v
theories/DigestProofs.v
theories/DigestProps.v
theories/RbModel.v
theories/RbSpec.v
theories/RbProofs.v
theories/RbProps.v
theories/HistModel.v
theories/HistSpec.v
theories/HistProofs.v
theories/HistProps.v
theories/ZeroModel.v
theories/ZeroProps.v
theories/BloomModel.v
theories/BloomProps.v
theories/FlsortModel.v
theories/FlsortSpec.v
theories/FlsortProofs.v
theories/FlsortProps.v
theories/VerifyModel.v
theories/VerifySpec.v
theories/VerifyCsum.v
theories/VerifyProofs.v
theories/VerifyProps.v
theories/CStr.v
theories/VStateModel.v
theories/VStateSpec.v
theories/VStateLive.v
theories/VStateProofs.v
theories/VStateLiveProofs.v
theories/VStateProps.v
theories/SteadyModel.v
theories/SteadySpec.v
theories/SteadyProofs.v
theories/SteadyProps.v
theories/Ieee754Model.v
theories/Ieee754Spec.v
theories/Ieee754Proofs.v
theories/Ieee754Props.v
theories/BucketsModel.v
theories/BucketsSpec.v
theories/BucketsProofs.v
theories/BucketsProps.v
theories/BuflenModel.v
theories/BuflenSpec.v
theories/BuflenProofs.v
theories/BuflenProps.v
theories/OffsetModel.v
theories/OffsetSpec.v
theories/OffsetProofs.v
theories/OffsetProps.v
theories/DdirModel.v
theories/DdirSpec.v
theories/DdirProofs.v
theories/DdirProps.v
theories/SeqlockModel.v
theories/SeqlockSpec.v
theories/SeqlockProofs.v
theories/SeqlockProps.v
theories/UnitsModel.v
theories/UnitsSpec.v
theories/UnitsProofs.v
theories/UnitsProps.v
theories/JsonModel.v
theories/JsonSpec.v
theories/JsonProofs.v
theories/JsonProps.v
theories/IologModel.v
theories/IologSpec.v
theories/IologProofs.v
theories/IologProps.v
theories/NetModel.v
theories/NetSpec.v
theories/NetProofs.v
theories/NetProps.v
theories/FilelockModel.v
theories/FilelockSpec.v
theories/FilelockProofs.v
theories/FilelockProps.v
theories/WorkqModel.v
theories/WorkqSpec.v
theories/WorkqProofs.v
theories/WorkqProps.v
theories/ZbdModel.v
theories/ZbdSpec.v
theories/ZbdProofs.v
theories/ZbdProps.v
theories/LifeModel.v
theories/LifeSpec.v
theories/LifeProofs.v
theories/LifeProps.v
theories/SemModel.v
theories/SemSpec.v
theories/SemProofs.v
theories/SemProps.v
theories/RandModel.v
theories/RandAlgebra.v
theories/RandSpec.v
theories/RandCerts.v
theories/RandProofs.v
theories/RandProps.v
theories/RateModel.v
theories/RateSpec.v
theories/RateProofs.v
theories/RateProps.v
theories/FillModel.v
theories/FillSpec.v
theories/FillProofs.v
theories/FillProps.v
theories/LatModel.v
theories/LatSpec.v
theories/LatProofs.v
theories/LatProps.v
theories/FlowModel.v
theories/FlowSpec.v
theories/FlowProofs.v
theories/FlowProps.v
theories/FselModel.v
theories/FselSpec.v
theories/FselProofs.v
theories/FselProps.v
theories/MergeModel.v
theories/MergeSpec.v
theories/MergeProofs.v
theories/MergeProps.v
theories/N2sModel.v
theories/N2sSpec.v
theories/N2sProofs.v
theories/N2sProps.v
theories/ZdModel.v
theories/ZdSpec.v
theories/ZdProofs.v
theories/ZdProps.v
theories/PlaceModel.v
theories/PlaceSpec.v
theories/PlaceProofs.v
theories/PlaceProps.v
theories/JobsModel.v
theories/JobsSpec.v
theories/JobsProofs.v
theories/JobsProps.v
theories/FszModel.v
theories/FszSpec.v
theories/FszProofs.v
theories/FszProps.v
theories/ThinkModel.v
theories/ThinkSpec.v
theories/ThinkProofs.v
theories/ThinkProps.v
theories/EtaModel.v
theories/EtaSpec.v
theories/EtaProofs.v
theories/EtaProps.v
