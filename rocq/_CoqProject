-Q theories Verif
theories/Cpp.v
theories/TimeModel.v
theories/TimeSpec.v
theories/TimeProofs.v
theories/TimeProps.v
theories/EventModel.v
theories/EventSpec.v
theories/EventProofs.v
theories/EventProps.v
theories/UuidModel.v
theories/UuidSpec.v
theories/UuidProofs.v
theories/UuidProps.v
theories/StatusModel.v
theories/StatusSpec.v
theories/StatusProofs.v
theories/StatusProps.v
theories/AuthModel.v
theories/AuthSpec.v
theories/AuthProofs.v
theories/AuthProps.v
theories/ClientModel.v
theories/ClientSpec.v
theories/ClientProofs.v
theories/ClientProps.v
theories/ViewModel.v
theories/ViewSpec.v
theories/ViewProofs.v
theories/ViewProps.v
theories/Vec.v
theories/GeomModel.v
theories/RotSpec.v
theories/RotProofs.v
theories/CoeffProofs.v
theories/DerivSpec.v
theories/DerivProofs.v
theories/TransProtoModel.v
theories/FrameSpec.v
theories/FrameProofs.v
theories/FrameProps.v
theories/ScrewSpec.v
theories/LieSpec.v
theories/LieProofs.v
theories/LieProps.v
theories/DiffProofs.v
theories/DiffProps.v
theories/TransProtoSpec.v
theories/TransProtoProofs.v
theories/TransProtoProps.v
theories/JetModel.v
theories/JetSpec.v
theories/JetLaws.v
theories/JetProofs.v
theories/JetProps.v
theories/CurveModel.v
theories/CurveSpec.v
theories/CurveProofs.v
theories/TCurveProofs.v
theories/SegClose.v
theories/DCurveSpec.v
theories/DCurveProofs.v
theories/DCurveCases.v
theories/CurveProps.v
theories/DCurveProps.v
theories/FloatModel.v
theories/FloatSpec.v
theories/FloatProofs.v
theories/FSampleProofs.v
theories/FloatProps.v
theories/StateModel.v
theories/StateSpec.v
theories/StateProofs.v
theories/TrajProofs.v
theories/StateProps.v
theories/CurveProtoModel.v
theories/CurveProtoSpec.v
theories/CurveProtoProofs.v
theories/CurveProtoProps.v
theories/StatModel.v
theories/StatSpec.v
theories/StatProofs.v
theories/StatProps.v
theories/ApproxModel.v
theories/ApproxSpec.v
theories/ApproxProofs.v
theories/ApproxProps.v
theories/StmtModel.v
theories/StmtSpec.v
theories/StmtProofs.v
theories/StmtProps.v
theories/NrmModel.v
theories/NrmSpec.v
theories/NrmProofs.v
theories/NrmProps.v
theories/QfModel.v
theories/QfSpec.v
theories/QfProofs.v
theories/QfProps.v
theories/SymSpec.v
theories/SymProofs.v
theories/SymProofs2.v
theories/SymCases.v
theories/SymProps.v
theories/LenModel.v
theories/LenSpec.v
theories/LenProofs.v
theories/LenProps.v
theories/DriftModel.v
theories/DriftSpec.v
theories/DriftProofs.v
theories/DriftProofs2.v
theories/DriftProps.v
theories/SpinModel.v
theories/SpinSpec.v
theories/SpinProofs.v
theories/SpinProofs2.v
theories/SpinProofs3.v
theories/SpinProps.v
theories/TwistModel.v
theories/TwistSpec.v
theories/TwistProofs.v
theories/TwistProofs2.v
theories/TwistProofs3.v
theories/TwistProofs4.v
theories/TwistProps.v
theories/DSymSpec.v
theories/DSymProofs.v
theories/DSymProofs2.v
theories/DSymProps.v
theories/TlogModel.v
theories/TlogSpec.v
theories/TlogProofs.v
theories/TlogProofs2.v
theories/TlogProofs3.v
theories/TlogProofs4.v
theories/TlogProofs5.v
theories/TlogProofs6.v
theories/TlogProps.v
theories/ExamModel.v
theories/ExamSpec.v
theories/ExamProofs.v
theories/ExamProofs2.v
theories/ExamProofs3.v
theories/ExamProps.v
theories/SlogModel.v
theories/SlogProofs.v
theories/SlogProofs2.v
theories/SlogProofs3.v
theories/SlogProofs4.v
theories/SlogProofs5.v
theories/SlogProofs6.v
theories/SlogProofs7.v
theories/SlogProofs8.v
theories/SlogProps.v
theories/FdcModel.v
theories/FdcSpec.v
theories/FdcProofs.v
theories/FdcProofs2.v
theories/FdcProofs3.v
theories/FdcProofs4.v
theories/FdcProofs5.v
theories/FdcProps.v
theories/MatchModel.v
theories/MatchSpec.v
theories/MatchProofs.v
theories/MatchProofs2.v
theories/MatchProps.v
theories/FtsModel.v
theories/FtsSpec.v
theories/FtsProofs.v
theories/FtsProofs2.v
theories/FtsProofs3.v
theories/FtsProofs4.v
theories/FtsProofs5.v
theories/FtsProps.v
theories/FtcModel.v
theories/FtcSpec.v
theories/FtcProofs.v
theories/FtcProofs2.v
theories/FtcProofs3.v
theories/FtcProofs4.v
theories/FtcProofs5.v
theories/FtcProps.v
theories/MockModel.v
theories/MockSpec.v
theories/MockProofs.v
theories/MockProofs2.v
theories/MockProofs3.v
theories/MockProps.v
theories/RefModel.v
theories/RefSpec.v
theories/RefProofs.v
theories/RefProps.v
theories/DevModel.v
theories/DevSpec.v
theories/DevProofs.v
theories/DevProps.v
theories/FpsModel.v
theories/FpsSpec.v
theories/FpsProofs.v
theories/FpsProofs2.v
theories/FpsProofs3.v
theories/FpsProofs4.v
theories/FpsProofs5.v
theories/FpsProofs6.v
theories/FpsProofs7.v
theories/FpsProps.v
theories/FpcModel.v
theories/FpcSpec.v
theories/FpcProofs.v
theories/FpcProofs2.v
theories/FpcProofs3.v
theories/FpcProofs4.v
theories/FpcProofs5.v
theories/FpcProps.v
theories/FtrModel.v
theories/FtrSpec.v
theories/FtrProofs.v
theories/FtrProofs2.v
theories/FtrProofs3.v
theories/FtrProofs4.v
theories/FtrProps.v
theories/FstModel.v
theories/FstSpec.v
theories/FstProofs.v
theories/FstProofs2.v
theories/FstProofs3.v
theories/FstProofs4.v
theories/FstProps.v
theories/FmjModel.v
theories/FmjSpec.v
theories/FmjProofs.v
theories/FmjProofs2.v
theories/FmjProofs3.v
theories/FmjProps.v
theories/TexModel.v
theories/TexSpec.v
theories/TexProofs.v
theories/TexProofs2.v
theories/TexProofs3.v
theories/TexProofs4.v
theories/TexProps.v
theories/FapModel.v
theories/FapSpec.v
theories/FapProofs.v
theories/FapProofs2.v
theories/FapProofs3.v
theories/FapProofs4.v
theories/FapProofs5.v
theories/FapProps.v
theories/BankModel.v
theories/BankSpec.v
theories/BankProofs.v
theories/BankProps.v
theories/AdjModel.v
theories/AdjSpec.v
theories/AdjProofs.v
theories/AdjProofs2.v
theories/AdjProofs3.v
theories/AdjProofs4.v
theories/AdjProofs5.v
theories/AdjProofs6.v
theories/AdjProofs7.v
theories/AdjProps.v
theories/GsnModel.v
theories/GsnSpec.v
theories/GsnProofs.v
theories/GsnProofs2.v
theories/GsnProofs3.v
theories/GsnProofs4.v
theories/GsnProps.v
theories/TvModel.v
theories/TvSpec.v
theories/TvProofs.v
theories/TvProofs2.v
theories/TvProofs3.v
theories/TvProofs4.v
theories/TvProofs5.v
theories/TvProofs6.v
theories/TvProofs7.v
theories/TvProofs8.v
theories/TvProofs9.v
theories/TvProps.v
theories/CthModel.v
theories/CthSpec.v
theories/CthProofs.v
theories/CthProofs2.v
theories/CthProofs3.v
theories/CthProps.v
theories/TdModel.v
theories/TdSpec.v
theories/TdProofs.v
theories/TdProofs2.v
theories/TdProps.v
theories/MsModel.v
theories/MsSpec.v
theories/MsProofs.v
theories/MsProps.v
theories/RdModel.v
theories/RdSpec.v
theories/RdProofs.v
theories/RdProps.v
