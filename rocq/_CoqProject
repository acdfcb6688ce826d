-Q theories Verif
theories/Base.v
theories/BaseFacts.v
theories/UnitsModel.v
theories/UnitsSpec.v
theories/UnitsProofs.v
theories/UnitsLibProofs.v
theories/UnitsBaseProofs.v
theories/UnitsProps.v
theories/DriverModel.v
theories/DriverSpec.v
theories/DriverProofs.v
theories/DriverProps.v
theories/OptionsModel.v
theories/OptionsSpec.v
theories/OptionsProofs.v
theories/OptionsProps.v
theories/RecordModel.v
theories/RecordSpec.v
theories/RecordProofs.v
theories/RecordProps.v
theories/TransferModel.v
theories/TransferSpec.v
theories/TransferProofs.v
theories/TransferProps.v
theories/VecModel.v
theories/VecSpec.v
theories/VecProofs.v
theories/VecProps.v
theories/FdModel.v
theories/FdSpec.v
theories/FdProofs.v
theories/FdProofs2.v
theories/FdProps.v
theories/LinModel.v
theories/LinSpec.v
theories/LinProofs.v
theories/LinProofs2.v
theories/LinProps.v
theories/SolveModel.v
theories/SolveSpec.v
theories/SolveProofs.v
theories/SolveProofs2.v
theories/SolveProofs3.v
theories/SolveProps.v
theories/PathModel.v
theories/PathSpec.v
theories/PathProofs.v
theories/PathProps.v
theories/AllocModel.v
theories/AllocSpec.v
theories/AllocProofs.v
theories/AllocProofs2.v
theories/AllocProps.v
theories/DoeModel.v
theories/DoeSpec.v
theories/DoeProofs.v
theories/DoeProofs2.v
theories/DoeProps.v
theories/ProcModel.v
theories/ProcSpec.v
theories/ProcProofs.v
theories/ProcProps.v
theories/FileModel.v
theories/FileSpec.v
theories/FileProofs.v
theories/FileProofs2.v
theories/FileProps.v
theories/GraphSpec.v
theories/GraphProofs.v
theories/OrderModel.v
theories/OrderSpec.v
theories/OrderProofs.v
theories/OrderProofs2.v
theories/OrderProps.v
theories/ReqModel.v
theories/ReqSpec.v
theories/ReqProofs.v
theories/ReqProps.v
theories/RelModel.v
theories/RelSpec.v
theories/RelProofs.v
theories/RelProps.v
theories/NameModel.v
theories/NameSpec.v
theories/NameProofs.v
theories/NameProps.v
theories/ConnModel.v
theories/ConnSpec.v
theories/ConnProofs.v
theories/ConnProofs2.v
theories/ConnProofs3.v
theories/ConnProofs4.v
theories/ConnProofs5.v
theories/ConnProps.v
theories/EvalModel.v
theories/EvalSpec.v
theories/PermSolve.v
theories/EvalProofs.v
theories/EvalProps.v
theories/BalModel.v
theories/BalSpec.v
theories/BalProofs.v
theories/BalProofs2.v
theories/BalProofs3.v
theories/BalRanks.v
theories/BalProps.v
theories/MpModel.v
theories/MpProofs.v
theories/MpProps.v
theories/ParModel.v
theories/ParSpec.v
theories/ParProofs.v
theories/ParProofs2.v
theories/ParProofs3.v
theories/ParProps.v
theories/ScipyModel.v
theories/ScipySpec.v
theories/ScipyProofs.v
theories/ScipyProps.v
theories/ActiveModel.v
theories/ActiveSpec.v
theories/ActiveProofs.v
theories/ActiveProps.v
theories/RsmModel.v
theories/RsmSpec.v
theories/RsmProofs.v
theories/RsmProps.v
theories/MetaModel.v
theories/MetaSpec.v
theories/MetaProofs.v
theories/MetaProps.v
theories/ExprModel.v
theories/ExprSpec.v
theories/ExprProofs.v
theories/ExprProps.v
theories/LsysModel.v
theories/LsysSpec.v
theories/LsysProofs.v
theories/LsysProps.v
theories/DirectModel.v
theories/DirectSpec.v
theories/DirectProps.v
theories/AssembleModel.v
theories/AssembleSpec.v
theories/AssembleProofs.v
theories/AssembleProps.v
theories/GradModel.v
theories/GradSpec.v
theories/GradProofs.v
theories/GradProps.v
theories/WireModel.v
theories/WireSpec.v
theories/WireProofs.v
theories/WireProofs2.v
theories/WireProofs3.v
theories/WireProps.v
theories/RunModel.v
theories/RunSpec.v
theories/RunProofs.v
theories/RunProofs2.v
theories/RunProofs3.v
theories/RunProofs4.v
theories/RunProofs5.v
theories/RunProps.v
theories/AccessModel.v
theories/AccessSpec.v
theories/AccessProofs.v
theories/AccessProofs2.v
theories/AccessProofs3.v
theories/AccessProps.v
theories/InterpModel.v
theories/InterpSpec.v
theories/InterpProofs.v
theories/InterpProofs2.v
theories/InterpProofs3.v
theories/InterpProofs4.v
theories/InterpProofs5.v
theories/InterpProofs6.v
theories/InterpProofs7.v
theories/InterpProps.v
theories/CheckModel.v
theories/CheckSpec.v
theories/CheckProofs.v
theories/CheckProofs2.v
theories/CheckProps.v
theories/DetProofs.v
theories/RedModel.v
theories/RedSpec.v
theories/RedProofs.v
theories/RedProofs2.v
theories/RedChecks.v
theories/RedProps.v
theories/NamelistModel.v
theories/NamelistSpec.v
theories/NamelistProofs.v
theories/NamelistProofs2.v
theories/NamelistProofs3.v
theories/NamelistProofs4.v
theories/NamelistProofs5.v
theories/NamelistProofs6.v
theories/NamelistLoadProofs.v
theories/NamelistProps.v
theories/TotModel.v
theories/TotSpec.v
theories/TotProofs.v
theories/TotProofs2.v
theories/TotProofs3.v
theories/TotProps.v
theories/CtotModel.v
theories/CtotSpec.v
theories/CtotProofs.v
theories/CtotProps.v
theories/KryModel.v
theories/KrySpec.v
theories/KryProofs.v
theories/KryProps.v
theories/KrigModel.v
theories/KrigSpec.v
theories/KrigProofs.v
theories/KrigProps.v
theories/InModel.v
theories/InSpec.v
theories/InProofs.v
theories/InProps.v
theories/SubpModel.v
theories/SubpSpec.v
theories/SubpProofs.v
theories/SubpProps.v
theories/CksModel.v
theories/CksSpec.v
theories/CksProofs.v
theories/CksProofs2.v
theories/CksProps.v
theories/MfiModel.v
theories/MfiSpec.v
theories/MfiProofs.v
theories/MfiProps.v
theories/DtrModel.v
theories/DtrSpec.v
theories/DtrProofs.v
theories/DtrProps.v
theories/PboModel.v
theories/PboSpec.v
theories/PboProofs.v
theories/PboProps.v
theories/SpsModel.v
theories/SpsSpec.v
theories/SpsProofs.v
theories/SpsProps.v
theories/PrfModel.v
theories/PrfSpec.v
theories/PrfProofs.v
theories/PrfProofs2.v
theories/PrfProofs3.v
theories/PrfProofs4.v
theories/PrfProofs5.v
theories/PrfProps.v
theories/RmModel.v
theories/RmSpec.v
theories/RmProofs.v
theories/RmProofs2.v
theories/RmProofs3.v
theories/RmProofs4.v
theories/RmProps.v
theories/SmModel.v
theories/SmSpec.v
theories/SmProofs.v
theories/SmProps.v
theories/DirModel.v
theories/DirSpec.v
theories/DirProofs.v
theories/DirProps.v
theories/FrefModel.v
theories/FrefSpec.v
theories/FrefProofs.v
theories/FrefProps.v
theories/VoiModel.v
theories/VoiSpec.v
theories/VoiProofs.v
theories/VoiProps.v
theories/CokModel.v
theories/CokSpec.v
theories/CokProofs.v
theories/CokProps.v
theories/CstrPy.v
theories/CstrModel.v
theories/CstrSpec.v
theories/CstrProofs.v
theories/CstrProps.v
theories/BdirModel.v
theories/BdirSpec.v
theories/BdirProofs.v
theories/BdirProps.v
theories/FindModel.v
theories/FindSpec.v
theories/FindProofs.v
theories/FindProps.v
theories/ShmModel.v
theories/ShmSpec.v
theories/ShmProofs.v
theories/ShmProps.v
theories/LcnModel.v
theories/LcnSpec.v
theories/LcnProofs.v
theories/LcnProps.v
theories/LpmModel.v
theories/LpmSpec.v
theories/LpmProps.v
theories/ChsModel.v
theories/ChsSpec.v
theories/ChsProps.v
theories/DclModel.v
theories/DclSpec.v
theories/DclProps.v
theories/SrlModel.v
theories/SrlSpec.v
theories/SrlProps.v
theories/TokModel.v
theories/TokSpec.v
theories/TokProofs.v
theories/TokProps.v
theories/JsModel.v
theories/JsSpec.v
theories/JsProps.v
theories/VcModel.v
theories/VcSpec.v
theories/VcProps.v
theories/OpnModel.v
theories/OpnSpec.v
theories/OpnProps.v
theories/FpeModel.v
theories/FpeSpec.v
theories/FpeProps.v
theories/CpxModel.v
theories/CpxSpec.v
theories/CpxProps.v
theories/TrvModel.v
theories/TrvSpec.v
theories/TrvProps.v
theories/JtrModel.v
theories/JtrSpec.v
theories/JtrProps.v
theories/N2Model.v
theories/N2Spec.v
theories/N2Props.v
theories/CkpModel.v
theories/CkpSpec.v
theories/CkpProps.v
theories/RelnModel.v
theories/RelnSpec.v
theories/RelnProps.v
theories/StatModel.v
theories/StatSpec.v
theories/StatProps.v
theories/BfsModel.v
theories/BfsSpec.v
theories/BfsProps.v
theories/NlbModel.v
theories/NlbSpec.v
theories/NlbProps.v
theories/UlibModel.v
theories/UlibData.v
theories/UlibProps.v
theories/MpvModel.v
theories/MpvSpec.v
theories/MpvProps.v
theories/MfcModel.v
theories/MfcSpec.v
theories/MfcProps.v
theories/RcmModel.v
theories/RcmSpec.v
theories/RcmProps.v
theories/DmpModel.v
theories/DmpSpec.v
theories/DmpProps.v
theories/VdpModel.v
theories/VdpSpec.v
theories/VdpProps.v
theories/BxcModel.v
theories/BxcSpec.v
theories/BxcProps.v
theories/PrnModel.v
theories/PrnSpec.v
theories/PrnProps.v
theories/WrpModel.v
theories/WrpSpec.v
theories/WrpProps.v
