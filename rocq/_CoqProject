-Q theories Verif
theories/Base.v
theories/BaseProofs.v
theories/PopModel.v
theories/PopFloatModel.v
theories/PopSpec.v
theories/PopProofs.v
theories/ReconProofs.v
theories/PlanProofs.v
theories/PopProps.v
theories/WalkModel.v
theories/WalkSpec.v
theories/WalkProofs.v
theories/WalkProps.v
theories/SchedModel.v
theories/SchedSpec.v
theories/SchedProofs.v
theories/SchedProps.v
theories/LinModel.v
theories/LinSpec.v
theories/LinProofs.v
theories/LinExamples.v
theories/LinProps.v
theories/PhaseModel.v
theories/PhaseSpec.v
theories/PhaseProofs.v
theories/PhaseProps.v
theories/EBModel.v
theories/EBSpec.v
theories/EBProofs.v
theories/EBProps.v
theories/CholModel.v
theories/CholSpec.v
theories/CholProofs.v
theories/CholProps.v
theories/IntsModel.v
theories/IntsSpec.v
theories/IntsProofs.v
theories/IntsProps.v
theories/Pop2Model.v
theories/Pop2Spec.v
theories/Pop2Proofs.v
theories/Pop2Props.v
theories/StatsModel.v
theories/StatsSpec.v
theories/StatsProofs.v
theories/StatsProps.v
theories/AcfModel.v
theories/AcfSpec.v
theories/AcfProofs.v
theories/AcfProps.v
theories/BosonModel.v
theories/BosonSpec.v
theories/BosonProofs.v
theories/BosonProps.v
theories/QhfModel.v
theories/QhfSpec.v
theories/QhfProofs.v
theories/QhfProps.v
theories/CavModel.v
theories/CavSpec.v
theories/CavProofs.v
theories/CavProps.v
theories/HopModel.v
theories/HopSpec.v
theories/HopProofs.v
theories/HopProps.v
theories/HubModel.v
theories/HubSpec.v
theories/HubProofs.v
theories/HubProps.v
theories/InfModel.v
theories/InfSpec.v
theories/InfProofs.v
theories/InfProps.v
theories/TbModel.v
theories/TbSpec.v
theories/TbProofs.v
theories/TbProps.v
theories/CcModel.v
theories/CcSpec.v
theories/CcProofs.v
theories/CcProps.v
theories/FciModel.v
theories/FciSpec.v
theories/FciProofs.v
theories/FciProps.v
theories/ScqModel.v
theories/ScqSpec.v
theories/ScqProofs.v
theories/ScqProps.v
theories/ScfModel.v
theories/ScfSpec.v
theories/ScfProofs.v
theories/ScfProps.v
theories/MathModel.v
theories/MathSpec.v
theories/MathProofs.v
theories/MathProps.v
theories/MdModel.v
theories/MdSpec.v
theories/MdProofs.v
theories/MdProps.v
theories/ShModel.v
theories/ShSpec.v
theories/ShProofs.v
theories/ShProps.v
theories/NnModel.v
theories/NnSpec.v
theories/NnProofs.v
theories/NnProps.v
theories/AggModel.v
theories/AggSpec.v
theories/AggProofs.v
theories/AggProps.v
theories/KernModel.v
theories/KernSpec.v
theories/KernProofs.v
theories/KernProps.v
theories/DispModel.v
theories/DispSpec.v
theories/DispProofs.v
theories/DispProps.v
theories/YeeModel.v
theories/YeeSpec.v
theories/YeeProofs.v
theories/YeeProps.v
theories/YbcModel.v
theories/YbcSpec.v
theories/YbcProg.v
theories/YbcProofs.v
theories/YbcMirror.v
theories/YbcSizes.v
theories/YbcLin.v
theories/YbcMore.v
theories/YbcProps.v
theories/SrcModel.v
theories/SrcSpec.v
theories/SrcProofs.v
theories/SrcProps.v
theories/MonModel.v
theories/MonSpec.v
theories/MonProofs.v
theories/MonProps.v
theories/GrdModel.v
theories/GrdSpec.v
theories/GrdProofs.v
theories/GrdProps.v
theories/EbsModel.v
theories/EbsSpec.v
theories/EbsProofs.v
theories/EbsMore.v
theories/EbsLast.v
theories/EbsProps.v
theories/GwfModel.v
theories/GwfSpec.v
theories/GwfProofs.v
theories/GwfMore.v
theories/GwfLast.v
theories/GwfEx.v
theories/GwfProps.v
theories/QccModel.v
theories/QccCode.v
theories/QccSym.v
theories/QccNorm.v
theories/QccSpec.v
theories/QccDer.v
theories/QccProofs.v
theories/QccFacts.v
theories/QccMain.v
theories/QccEx.v
theories/QccProps.v
theories/MdtModel.v
theories/MdtSpec.v
theories/MdtProofs.v
theories/MdtProps.v
theories/TbsModel.v
theories/TbsSpec.v
theories/TbsProofs.v
theories/TbsProps.v
theories/PccModel.v
theories/PccSpec.v
theories/PccProofs.v
theories/PccProps.v
theories/HypModel.v
theories/HypSpec.v
theories/HypProofs.v
theories/HypProps.v
theories/SpnModel.v
theories/SpnSpec.v
theories/SpnProofs.v
theories/SpnProps.v
theories/SpnDimModel.v
theories/SpnDimProofs.v
theories/SpnDimProps.v
theories/VmcModel.v
theories/VmcSpec.v
theories/VmcProofs.v
theories/VmcProps.v
theories/PopFloatProofs.v
theories/PopFloatProps.v
