-Q theories Verif
theories/AcurGroup.v
theories/AcurModel.v
theories/AcurPlain.v
theories/AcurProofs.v
theories/AcurProps.v
theories/AcurSpec.v
theories/AeqModel.v
theories/AeqProofs.v
theories/AeqProps.v
theories/AeqRound.v
theories/AeqSpec.v
theories/AmbModel.v
theories/AmbProofs.v
theories/AmbProps.v
theories/AmbSpec.v
theories/ArefModel.v
theories/ArefProofs.v
theories/ArefProps.v
theories/ArefSpec.v
theories/AretModel.v
theories/AretProofs.v
theories/AretProps.v
theories/AretSpec.v
theories/AsyModel.v
theories/AsyProofs.v
theories/AsyProps.v
theories/AsySpec.v
theories/Base.v
theories/BaseProofs.v
theories/BindModel.v
theories/BindProofs.v
theories/BindProps.v
theories/BindSeesProofs.v
theories/BindSpec.v
theories/ChkModel.v
theories/ChkProofs.v
theories/ChkProps.v
theories/ChkSpec.v
theories/CicModel.v
theories/CicProofs.v
theories/CicProps.v
theories/CicSpec.v
theories/CliModel.v
theories/CliProofs.v
theories/CliProps.v
theories/CliSpec.v
theories/CollModel.v
theories/CollProofs.v
theories/CollProps.v
theories/CollSpec.v
theories/CondModel.v
theories/CondProofs.v
theories/CondProps.v
theories/CondSpec.v
theories/CstModel.v
theories/CstProofs.v
theories/CstProps.v
theories/CstSpec.v
theories/CtlModel.v
theories/CtlProofs.v
theories/CtlProps.v
theories/CtlSpec.v
theories/CurryBindProofs.v
theories/CurryModel.v
theories/CurryProofs.v
theories/CurryProps.v
theories/CurrySpec.v
theories/DbgModel.v
theories/DbgProofs.v
theories/DbgProps.v
theories/DbgSpec.v
theories/DboModel.v
theories/DboProofs.v
theories/DboProps.v
theories/DboSpec.v
theories/DecModel.v
theories/DecProofs.v
theories/DecProps.v
theories/DecSpec.v
theories/DexModel.v
theories/DexProofs.v
theories/DexProps.v
theories/DexSpec.v
theories/DgnModel.v
theories/DgnProofs.v
theories/DgnProps.v
theories/DgnSpec.v
theories/DispModel.v
theories/DispProofs.v
theories/DispProps.v
theories/DispSpec.v
theories/DlmModel.v
theories/DlmProofs.v
theories/DlmProps.v
theories/DlmSimProofs.v
theories/DlmSpec.v
theories/DltModel.v
theories/DltProofs.v
theories/DltProps.v
theories/DltSpec.v
theories/DmpModel.v
theories/DmpProofs.v
theories/DmpProps.v
theories/DmpSpec.v
theories/DynModel.v
theories/DynProofs.v
theories/DynProps.v
theories/DynSpec.v
theories/EcModel.v
theories/EcProofs.v
theories/EcProps.v
theories/EcSpec.v
theories/EnvModel.v
theories/EnvProofs.v
theories/EnvProps.v
theories/EnvSpec.v
theories/EvfModel.v
theories/EvfProofs.v
theories/EvfProps.v
theories/EvfSpec.v
theories/ExcModel.v
theories/ExcProofs.v
theories/ExcProps.v
theories/ExcSpec.v
theories/FamModel.v
theories/FamProofs.v
theories/FamProps.v
theories/FamSpec.v
theories/FixModel.v
theories/FixProofs.v
theories/FixProps.v
theories/FixSpec.v
theories/FnlModel.v
theories/FnlProofs.v
theories/FnlProps.v
theories/FnlSpec.v
theories/FoldModel.v
theories/FoldProofs.v
theories/FoldProps.v
theories/FoldSpec.v
theories/FunArgProofs.v
theories/FunModel.v
theories/FunProofs.v
theories/FunProps.v
theories/FunSpec.v
theories/FupModel.v
theories/FupProofs.v
theories/FupProps.v
theories/FupSpec.v
theories/GmemoProofs.v
theories/GtcoModel.v
theories/GtcoProofs.v
theories/GtcoProps.v
theories/GtcoSpec.v
theories/ISliceModel.v
theories/ISliceProofs.v
theories/ISliceProps.v
theories/IfeModel.v
theories/IfeProofs.v
theories/IfeProps.v
theories/IfeSpec.v
theories/ImzModel.v
theories/ImzProofs.v
theories/ImzProps.v
theories/ImzSpec.v
theories/InfModel.v
theories/InfProofs.v
theories/InfProps.v
theories/InfSpec.v
theories/InternModel.v
theories/InternProofs.v
theories/InternProps.v
theories/InternSpec.v
theories/ItrModel.v
theories/ItrProofs.v
theories/ItrProps.v
theories/ItrSpec.v
theories/IvkModel.v
theories/IvkProofs.v
theories/IvkProps.v
theories/LLModel.v
theories/LLProofs.v
theories/LLProps.v
theories/LLSpec.v
theories/LazyModel.v
theories/LazyProofs.v
theories/LazyProps.v
theories/LazySpec.v
theories/LfoModel.v
theories/LfoProofs.v
theories/LfoProps.v
theories/LfoSpec.v
theories/LitModel.v
theories/LitProofs.v
theories/LitProps.v
theories/LitSpec.v
theories/LmtModel.v
theories/LmtProofs.v
theories/LmtProps.v
theories/LmtSpec.v
theories/LoopModel.v
theories/LoopProofs.v
theories/LoopProps.v
theories/LoopSpec.v
theories/LrpModel.v
theories/LrpProofs.v
theories/LrpProps.v
theories/LrpSpec.v
theories/LsynModel.v
theories/LsynProofs.v
theories/LsynProps.v
theories/LsynSpec.v
theories/LvwModel.v
theories/LvwProofs.v
theories/LvwProps.v
theories/LvwSpec.v
theories/LvxModel.v
theories/LvxProofs.v
theories/LvxProps.v
theories/LvxSpec.v
theories/LzfModel.v
theories/LzfProofs.v
theories/LzfProps.v
theories/LzfSim.v
theories/LzfSpec.v
theories/MathModel.v
theories/MathProofs.v
theories/MathProps.v
theories/MathSpec.v
theories/McontArgs.v
theories/McontModel.v
theories/McontProofs.v
theories/McontProps.v
theories/McontSpec.v
theories/MemoModel.v
theories/MemoProofs.v
theories/MemoProps.v
theories/MemoSpec.v
theories/MgxModel.v
theories/MgxProofs.v
theories/MgxProps.v
theories/MgxSpec.v
theories/MiscModel.v
theories/MiscProofs.v
theories/MiscProps.v
theories/MiscSpec.v
theories/MletModel.v
theories/MletProofs.v
theories/MletProps.v
theories/MletSpec.v
theories/MogProofs.v
theories/MsgLen.v
theories/MsgModel.v
theories/MsgProofs.v
theories/MsgProps.v
theories/MsgSpec.v
theories/MtcoModel.v
theories/MtcoProofs.v
theories/MtcoProps.v
theories/MtcoSpec.v
theories/NmlModel.v
theories/NmlProofs.v
theories/NmlProps.v
theories/NmlSpec.v
theories/NumModel.v
theories/NumProofs.v
theories/NumProps.v
theories/NumSpec.v
theories/OniModel.v
theories/OniProofs.v
theories/OniProps.v
theories/OniSpec.v
theories/PartBind.v
theories/PartCurry.v
theories/PartModel.v
theories/PartProofs.v
theories/PartProps.v
theories/PartSpec.v
theories/PfxModel.v
theories/PfxProofs.v
theories/PfxProps.v
theories/PfxSpec.v
theories/PklModel.v
theories/PklProofs.v
theories/PklProps.v
theories/PklSpec.v
theories/PrimeProofs.v
theories/PtcSpec.v
theories/PtnModel.v
theories/PtnProofs.v
theories/PtnProps.v
theories/PtnSpec.v
theories/PtyModel.v
theories/PtyProofs.v
theories/PtyProps.v
theories/PtySpec.v
theories/PyModel.v
theories/PyProofs.v
theories/QklModel.v
theories/QklProofs.v
theories/QklProps.v
theories/QklSpec.v
theories/ScpModel.v
theories/ScpProofs.v
theories/ScpProps.v
theories/ScpSpec.v
theories/SeqInts.v
theories/SeqModel.v
theories/SeqProofs.v
theories/SeqProps.v
theories/SeqSpec.v
theories/SesModel.v
theories/SesProofs.v
theories/SesProps.v
theories/SesSpec.v
theories/SliceModel.v
theories/SliceProofs.v
theories/SliceProps.v
theories/SlmModel.v
theories/SlmProofs.v
theories/SlmProps.v
theories/SlmSpec.v
theories/SrvModel.v
theories/SrvProofs.v
theories/SrvProps.v
theories/SrvSpec.v
theories/StoModel.v
theories/StoProofs.v
theories/StoProps.v
theories/StoSpec.v
theories/TbkModel.v
theories/TbkProofs.v
theories/TbkProps.v
theories/TbkSpec.v
theories/TcoModel.v
theories/TcoProofs.v
theories/TcoProps.v
theories/TcoSpec.v
theories/TimeModel.v
theories/TimeProofs.v
theories/TimeProps.v
theories/TimeSpec.v
theories/TmrModel.v
theories/TmrProofs.v
theories/TmrProps.v
theories/TmrSpec.v
theories/TmsModel.v
theories/TmsProofs.v
theories/TmsProps.v
theories/TmsSpec.v
theories/TsetModel.v
theories/TsetProofs.v
theories/TsetProps.v
theories/TsetSpec.v
theories/TypeModel.v
theories/TypeProofs.v
theories/TypeProps.v
theories/TypeSpec.v
theories/UlpModel.v
theories/UlpProofs.v
theories/UlpProps.v
theories/UlpSpec.v
theories/UtlModel.v
theories/UtlProofs.v
theories/UtlProps.v
theories/UtlSpec.v
theories/ViewModel.v
theories/ViewProofs.v
theories/ViewProofs2.v
theories/ViewProps.v
theories/ViewSpec.v
