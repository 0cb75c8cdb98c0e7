-Q theories Verif

theories/Base.v
theories/Lib.v
theories/CodecModel.v
theories/Reader.v
theories/CodecSpec.v
theories/CodecProofs.v
theories/IncrProofs.v
theories/CodecProps.v
theories/PnModel.v
theories/PnProofs.v
theories/PnProps.v
theories/FrameModel.v
theories/FrameSpec.v
theories/FrameProofs.v
theories/FrameProofs2.v
theories/FrameProofs3.v
theories/FrameProps.v
theories/TrackingModel.v
theories/TrackingSpec.v
theories/TrackingProofs.v
theories/TrackingProps.v
theories/FcModel.v
theories/FcSpec.v
theories/FcProofs.v
theories/FcProps.v
theories/RxModel.v
theories/RxSpec.v
theories/RxProofs.v
theories/RxProps.v
theories/RsModel.v
theories/RsSpec.v
theories/RsProofs.v
theories/RsProps.v
theories/RtModel.v
theories/RtSpec.v
theories/RtProofs.v
theories/RtProps.v
theories/SsModel.v
theories/SsSpec.v
theories/SsProofs.v
theories/SsProofs2.v
theories/SsProofs3.v
theories/SsProps.v
theories/LrModel.v
theories/LrSpec.v
theories/LrProofs.v
theories/LrProofs2.v
theories/LrProofs3.v
theories/LrProofs4.v
theories/LrProofs5.v
theories/LrProofs6.v
theories/LrProps.v
theories/LrProofs7.v
theories/RttModel.v
theories/RttSpec.v
theories/RttProofs.v
theories/RttProofs2.v
theories/RttProps.v
theories/CcModel.v
theories/CcSpec.v
theories/CcProofs.v
theories/CcProofs2.v
theories/CcProofs3.v
theories/CcProps.v
theories/CcProofs4.v
theories/CcProofs5.v
theories/CcFlightProps.v
theories/PaceModel.v
theories/PaceProofs.v
theories/PaceProps.v
theories/EcnModel.v
theories/EcnProps.v
theories/PmtudModel.v
theories/PmtudProps.v
theories/CidModel.v
theories/CidProps.v
theories/IdleModel.v
theories/IdleProps.v
theories/DgramModel.v
theories/DgramProps.v
theories/AddrModel.v
theories/AddrProps.v
theories/PathModel.v
theories/PathProps.v
theories/PathsProps.v
theories/VerModel.v
theories/VerProps.v
theories/SniModel.v
theories/SniProps.v
theories/PktModel.v
theories/PktSpec.v
theories/PktProofs.v
theories/PktProofs2.v
theories/PktProofs3.v
theories/PktProps.v
theories/CryModel.v
theories/CrySpec.v
theories/CryProofs.v
theories/CryProps.v
theories/KeyModel.v
theories/KeySpec.v
theories/KeyProofs.v
theories/KeyProofs2.v
theories/KeyProofs3.v
theories/KeyProofs4.v
theories/KeyProps.v
theories/TpModel.v
theories/TpSpec.v
theories/TpProofs.v
theories/TpProofs2.v
theories/TpProps.v
theories/ClModel.v
theories/ClSpec.v
theories/ClProofs.v
theories/ClProps.v
theories/SchModel.v
theories/SchSpec.v
theories/SchProofs.v
theories/SchProofs2.v
theories/SchProofs3.v
theories/SchProofs4.v
theories/SchProps.v
theories/QpTables.v
theories/QiModel.v
theories/QiSpec.v
theories/QiProofs.v
theories/QiProofs2.v
theories/QiProps.v
theories/QbModel.v
theories/QeModel.v
theories/QjModel.v
theories/QbSpec.v
theories/QjSpec.v
theories/QbProofs.v
theories/QbProofs2.v
theories/QeProofs.v
theories/QeProofs2.v
theories/QeProofs3.v
theories/QjProofs.v
theories/QjProofs2.v
theories/QjProofs3.v
theories/QdProofs.v
theories/QjProps.v
theories/HfModel.v
theories/HfSpec.v
theories/HfProofs.v
theories/HfProofs2.v
theories/HfProps.v
theories/HhModel.v
theories/HhSpec.v
theories/HhProofs.v
theories/HhProps.v
theories/HmModel.v
theories/HmSpec.v
theories/HmProofs.v
theories/HmProofs2.v
theories/HmProofs3.v
theories/HmProps.v
theories/HsModel.v
theories/HsSpec.v
theories/HsProofs.v
theories/HsProps.v
theories/HtModel.v
theories/HtSpec.v
theories/HtProofs.v
theories/HtProps.v
theories/HpModel.v
theories/HpSpec.v
theories/HpProofs.v
theories/HpProofs2.v
theories/HpProps.v
theories/HcModel.v
theories/HcSpec.v
theories/HcProofs.v
theories/HcProofs2.v
theories/HcProps.v
theories/HqModel.v
theories/HqSpec.v
theories/HqProofs.v
theories/HqProps.v
theories/EvModel.v
theories/EvSpec.v
theories/EvProofs.v
theories/EvProps.v
theories/NtModel.v
theories/NtSpec.v
theories/NtProofs.v
theories/NtProps.v
theories/ScModel.v
theories/ScSpec.v
theories/ScProps.v
theories/XsModel.v
theories/XsSpec.v
theories/XsProofs.v
theories/XsProofs2.v
theories/XsProofs3.v
theories/XsProofs4.v
theories/XsProps.v
theories/XdModel.v
theories/XdProps.v
theories/WtModel.v
theories/WtSpec.v
theories/WtProps.v
theories/SvModel.v
theories/SvSpec.v
theories/SvProps.v
theories/NgModel.v
theories/NgSpec.v
theories/NgProps.v
theories/HeModel.v
theories/HeSpec.v
theories/HeProps.v
theories/HvModel.v
theories/HvSpec.v
theories/HvProps.v
theories/HdModel.v
theories/HdProps.v
theories/HzModel.v
theories/HzSpec.v
theories/HzProps.v
theories/UdModel.v
theories/UdSpec.v
theories/UdProps.v
theories/WrModel.v
theories/WrSpec.v
theories/WrProps.v
