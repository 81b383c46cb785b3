-Q theories Verif
theories/AdtConsProofs.v
theories/AdtFinalProofs.v
theories/AdtModel.v
theories/AdtNamesProofs.v
theories/AdtProofs.v
theories/AdtProps.v
theories/AdtSpec.v
theories/AdtUseProofs.v
theories/CallModel.v
theories/CallProofs.v
theories/CallProps.v
theories/CallSpec.v
theories/CeModel.v
theories/CeNameProofs.v
theories/CeProofs.v
theories/CeProps.v
theories/CeSpec.v
theories/ClauseModel.v
theories/ClauseProofs.v
theories/ClauseProps.v
theories/ClauseSpec.v
theories/ClsAxProofs.v
theories/ClsConsProofs.v
theories/ClsModel.v
theories/ClsProofs.v
theories/ClsProps.v
theories/ClsSpec.v
theories/ConfModel.v
theories/ConfProofs.v
theories/ConfProps.v
theories/ConfSpec.v
theories/ContModel.v
theories/ContProofs.v
theories/ContProps.v
theories/ContSpec.v
theories/DataModel.v
theories/DataProofs.v
theories/DataProps.v
theories/DataSpec.v
theories/DefModel.v
theories/DefProofs.v
theories/DefProofs2.v
theories/DefProps.v
theories/DefSpec.v
theories/DepModel.v
theories/DepProofs.v
theories/DepProps.v
theories/DepSpec.v
theories/EnumModel.v
theories/EnumProofs.v
theories/EnumProps.v
theories/EnumSpec.v
theories/ErrModel.v
theories/ErrProofs.v
theories/ErrProps.v
theories/ErrSpec.v
theories/ExprModel.v
theories/ExprProofs.v
theories/ExprProps.v
theories/ExprSpec.v
theories/ExsModel.v
theories/ExsProofs.v
theories/ExsProps.v
theories/ExsSpec.v
theories/FamModel.v
theories/FamProofs.v
theories/FamProps.v
theories/FamSpec.v
theories/FloatModel.v
theories/FloatProofs.v
theories/FloatProps.v
theories/FloatSpec.v
theories/FlowModel.v
theories/FlowProofs.v
theories/FlowProps.v
theories/FlowSpec.v
theories/GhostModel.v
theories/GhostProofs.v
theories/GhostProps.v
theories/GhostSpec.v
theories/GlobModel.v
theories/GlobProofs.v
theories/GlobProofs2.v
theories/GlobProofs3.v
theories/GlobProofs4.v
theories/GlobProps.v
theories/GlobSpec.v
theories/GuardModel.v
theories/GuardProofs.v
theories/GuardProps.v
theories/GuardSpec.v
theories/ImpModel.v
theories/ImpProofs.v
theories/ImpProps.v
theories/ImpSpec.v
theories/IntModel.v
theories/IntProofs.v
theories/IntProps.v
theories/IntSpec.v
theories/IoModel.v
theories/IoOpenProofs.v
theories/IoProofs.v
theories/IoProps.v
theories/IoSpec.v
theories/LeakModel.v
theories/LeakProofs.v
theories/LeakProps.v
theories/LeakSpec.v
theories/LensModel.v
theories/LensProofs.v
theories/LensProps.v
theories/LensSpec.v
theories/LevelModel.v
theories/LevelProofs.v
theories/LevelProps.v
theories/LevelSpec.v
theories/LockModel.v
theories/LockProofs.v
theories/LockProofs2.v
theories/LockProofs3.v
theories/LockProofs4.v
theories/LockProps.v
theories/LockRun.v
theories/LockSpec.v
theories/LspModel.v
theories/LspProofs.v
theories/LspProps.v
theories/LspSpec.v
theories/MatchModel.v
theories/MatchProofs.v
theories/MatchProps.v
theories/MatchSpec.v
theories/ModModel.v
theories/ModProofs.v
theories/ModProps.v
theories/ModSpec.v
theories/NamesModel.v
theories/NamesProofs.v
theories/NamesProps.v
theories/NamesSpec.v
theories/ObjModel.v
theories/ObjProofs.v
theories/ObjProofs2.v
theories/ObjProps.v
theories/ObjSpec.v
theories/OpModel.v
theories/OpProofs.v
theories/OpProps.v
theories/OpSpec.v
theories/PermModel.v
theories/PermProofs.v
theories/PermProps.v
theories/PermSpec.v
theories/PureModel.v
theories/PureProofs.v
theories/PureProps.v
theories/PureSpec.v
theories/SelModel.v
theories/SelProofs.v
theories/SelProps.v
theories/SelSpec.v
theories/SeqModel.v
theories/SeqProofs.v
theories/SeqProps.v
theories/SeqSpec.v
theories/SifForProofs.v
theories/SifModel.v
theories/SifProofs.v
theories/SifProps.v
theories/SifSimProofs.v
theories/SifSpec.v
theories/SifStmtProofs.v
theories/SilModel.v
theories/SilProofs.v
theories/SilProps.v
theories/SilSpec.v
theories/StatModel.v
theories/StatProofs.v
theories/StatProps.v
theories/StatSpec.v
theories/SvcModel.v
theories/SvcProofs.v
theories/SvcProps.v
theories/SvcSpec.v
theories/TermModel.v
theories/TermProofs.v
theories/TermProps.v
theories/TermSpec.v
theories/ThrModel.v
theories/ThrProofs.v
theories/ThrProofs2.v
theories/ThrProps.v
theories/ThrRun.v
theories/ThrSpec.v
theories/TupConsProofs.v
theories/TupModel.v
theories/TupProofs.v
theories/TupProps.v
theories/TupSpec.v
theories/UnitModel.v
theories/UnitProofs.v
theories/UnitProps.v
theories/UnitSpec.v
theories/WaitModel.v
theories/WaitProofs.v
theories/WaitProps.v
theories/WaitSpec.v
