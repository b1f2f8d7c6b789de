-Q theories Verif
theories/ActModel.v
theories/ActProof.v
theories/ActSpec.v
theories/ActThm.v
theories/AssocModel.v
theories/AssocProof.v
theories/AtomModel.v
theories/AtomProof.v
theories/AtomSpec.v
theories/AtomThm.v
theories/BibModel.v
theories/BibProof.v
theories/BibSpec.v
theories/BibThm.v
theories/BndModel.v
theories/BndProof.v
theories/BndSpec.v
theories/BndThm.v
theories/BrkModel.v
theories/BrkSpec.v
theories/BrkThm.v
theories/CallHints.v
theories/CallModel.v
theories/CallProof.v
theories/CallSpec.v
theories/CallThm.v
theories/CfgModel.v
theories/CfgProof.v
theories/CfgSpec.v
theories/CfgThm.v
theories/ClickFindProof.v
theories/ClickModel.v
theories/ClickProof.v
theories/ClickSpec.v
theories/ClickThm.v
theories/ColModel.v
theories/ColProof.v
theories/ColSpec.v
theories/ColThm.v
theories/CompEditProof.v
theories/CompModel.v
theories/CompProof.v
theories/CompSpec.v
theories/CompThm.v
theories/ConEndProof.v
theories/ConModel.v
theories/ConProof.v
theories/ConRunProof.v
theories/ConSpec.v
theories/ConThm.v
theories/ConvModel.v
theories/ConvProof.v
theories/ConvSpec.v
theories/ConvThm.v
theories/CovCountProof.v
theories/CovModel.v
theories/CovProof.v
theories/CovRunProof.v
theories/CovSpec.v
theories/CovThm.v
theories/CovTreeProof.v
theories/DbgModel.v
theories/DbgProof.v
theories/DbgSpec.v
theories/DbgThm.v
theories/DefModel.v
theories/DefProof.v
theories/DefSpec.v
theories/DefThm.v
theories/DescModel.v
theories/DescProof.v
theories/DescSpec.v
theories/DescThm.v
theories/DiagModel.v
theories/DiagProof.v
theories/DiagSpec.v
theories/DiagThm.v
theories/DigModel.v
theories/DigProof.v
theories/DocModel.v
theories/DocProof.v
theories/DocSpec.v
theories/DocThm.v
theories/DocTidyProof.v
theories/DocWalkProof.v
theories/EntryModel.v
theories/EntryProof.v
theories/EntrySpec.v
theories/EntryThm.v
theories/FamModel.v
theories/FamProof.v
theories/FamSpec.v
theories/FamThm.v
theories/FmtModel.v
theories/FmtProof.v
theories/FmtSpec.v
theories/FmtThm.v
theories/FocusModel.v
theories/FocusProof.v
theories/FocusSpec.v
theories/FocusThm.v
theories/FoldModel.v
theories/FoldProof.v
theories/FoldSpec.v
theories/FoldThm.v
theories/FontModel.v
theories/FontProof.v
theories/FontSpec.v
theories/FontThm.v
theories/FpModel.v
theories/FpProof.v
theories/FpSpec.v
theories/FpThm.v
theories/GraphModel.v
theories/GraphProof.v
theories/GraphSpec.v
theories/GraphThm.v
theories/HlModel.v
theories/HlProof.v
theories/HlSpec.v
theories/HlThm.v
theories/HovModel.v
theories/HovProof.v
theories/HovSpec.v
theories/HovThm.v
theories/ImpModel.v
theories/ImpProof.v
theories/ImpSpec.v
theories/ImpThm.v
theories/InfModel.v
theories/InfProof.v
theories/InfSpec.v
theories/InfThm.v
theories/InternModel.v
theories/InternProof.v
theories/InternSpec.v
theories/InternThm.v
theories/JumpModel.v
theories/JumpProof.v
theories/JumpSpec.v
theories/JumpThm.v
theories/KindModel.v
theories/KindProof.v
theories/KindSpec.v
theories/KindThm.v
theories/LabModel.v
theories/LabProof.v
theories/LabSpec.v
theories/LabThm.v
theories/LexModel.v
theories/LexProof.v
theories/LexSpec.v
theories/LexThm.v
theories/LinkModel.v
theories/LinkProof.v
theories/LinkSpec.v
theories/LinkThm.v
theories/LintEval.v
theories/LintModel.v
theories/LintMust.v
theories/LintProof.v
theories/LintSpec.v
theories/LintThm.v
theories/LocModel.v
theories/LocProof.v
theories/LocSpec.v
theories/LocThm.v
theories/LockModel.v
theories/LockProof.v
theories/LockSpec.v
theories/LockThm.v
theories/MdKeepProof.v
theories/MdModel.v
theories/MdProof.v
theories/MdSpec.v
theories/MdTextProof.v
theories/MdThm.v
theories/MemModel.v
theories/MemProof.v
theories/MemSpec.v
theories/MemThm.v
theories/MetModel.v
theories/MetSpec.v
theories/MetThm.v
theories/ModeModel.v
theories/ModeProof.v
theories/ModeSpec.v
theories/ModeThm.v
theories/MsgModel.v
theories/MsgProof.v
theories/MsgSpec.v
theories/MsgThm.v
theories/NumModel.v
theories/NumProof.v
theories/OrigModel.v
theories/OrigProof.v
theories/OrigSpec.v
theories/OrigThm.v
theories/OutModel.v
theories/OutProof.v
theories/OutSpec.v
theories/OutThm.v
theories/PackModel.v
theories/PackSpec.v
theories/PackThm.v
theories/PageModel.v
theories/PageProof.v
theories/PageSpec.v
theories/PageThm.v
theories/PathModel.v
theories/PathProof.v
theories/PathSpec.v
theories/PathThm.v
theories/PkgModel.v
theories/PkgProof.v
theories/PkgSpec.v
theories/PkgThm.v
theories/PlaneModel.v
theories/PlaneProof.v
theories/PlaneSpec.v
theories/PlaneThm.v
theories/PrevModel.v
theories/PrevProof.v
theories/PrevSpec.v
theories/PrevThm.v
theories/QueueModel.v
theories/QueueProof.v
theories/QueueSpec.v
theories/QueueThm.v
theories/RefsFile.v
theories/RefsModel.v
theories/RefsProject.v
theories/RefsProof.v
theories/RefsSpec.v
theories/RefsThm.v
theories/RenModel.v
theories/RenProject.v
theories/RenProof.v
theories/RenSpec.v
theories/RenThm.v
theories/RevModel.v
theories/RevProof.v
theories/RevSpec.v
theories/RevThm.v
theories/RpcModel.v
theories/RpcProof.v
theories/RpcSpec.v
theories/RpcThm.v
theories/ScanModel.v
theories/ScanProof.v
theories/ScanSpec.v
theories/ScanThm.v
theories/SchedAnnounce.v
theories/SchedModel.v
theories/SchedMono.v
theories/SchedProof.v
theories/SchedSpec.v
theories/SchedThm.v
theories/ScopeCheck.v
theories/ScopeFile.v
theories/ScopeImport.v
theories/ScopeModel.v
theories/ScopeProof.v
theories/ScopeSpec.v
theories/ScopeThm.v
theories/ScrModel.v
theories/ScrProof.v
theories/ScrRunProof.v
theories/ScrSpec.v
theories/ScrThm.v
theories/SelModel.v
theories/SelProof.v
theories/SelSpec.v
theories/SelThm.v
theories/SigModel.v
theories/SigProof.v
theories/SigSpec.v
theories/SigThm.v
theories/SimpModel.v
theories/SimpProof.v
theories/SimpRunProof.v
theories/SimpSpec.v
theories/SimpThm.v
theories/SiteModel.v
theories/SiteProof.v
theories/SiteSpec.v
theories/SiteThm.v
theories/SnapModel.v
theories/SnapProof.v
theories/SnapSpec.v
theories/SnapThm.v
theories/SpanModel.v
theories/SpanProof.v
theories/SpanSpec.v
theories/SpanThm.v
theories/SrcModel.v
theories/SrcProof.v
theories/SrcRunProof.v
theories/SrcSpec.v
theories/SrcThm.v
theories/StatModel.v
theories/StatProof.v
theories/StatSpec.v
theories/StatThm.v
theories/StkModel.v
theories/StkProof.v
theories/StkSpec.v
theories/StkThm.v
theories/SymModel.v
theories/SymProof.v
theories/SymSpec.v
theories/SymThm.v
theories/TextModel.v
theories/TextProof.v
theories/TextSpec.v
theories/TextThm.v
theories/TipModel.v
theories/TipProof.v
theories/TipSpec.v
theories/TipThm.v
theories/TmplModel.v
theories/TmplSpec.v
theories/TmplThm.v
theories/TokModel.v
theories/TokProof.v
theories/TokSpec.v
theories/TokThm.v
theories/TstModel.v
theories/TstProof.v
theories/TstSpec.v
theories/TstThm.v
theories/UnivModel.v
theories/UnivProof.v
theories/UnivSpec.v
theories/UnivThm.v
theories/UpModel.v
theories/UpProof.v
theories/UpSpec.v
theories/UpThm.v
theories/UrlModel.v
theories/UrlProof.v
theories/UrlSpec.v
theories/UrlThm.v
theories/ValModel.v
theories/ValProof.v
theories/ValSpec.v
theories/ValThm.v
theories/VfsLayer.v
theories/VfsModel.v
theories/VfsProof.v
theories/VfsSpec.v
theories/VfsThm.v
theories/WatchModel.v
theories/WatchProof.v
theories/WatchSpec.v
theories/WatchThm.v
theories/WordModel.v
theories/WordProof.v
theories/WordSpec.v
theories/WordThm.v
theories/WsModel.v
theories/WsProof.v
theories/WsSpec.v
theories/WsThm.v
