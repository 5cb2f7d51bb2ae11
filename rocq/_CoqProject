-Q theories Verif
theories/Base.v
theories/ConfigModel.v
theories/ConfigSpec.v
theories/ConfigProofs.v
theories/ConfigProofs2.v
theories/ConfigProofs3.v
theories/ConfigProofs4.v
theories/ConfigProps.v
theories/ExpandModel.v
theories/ExpandSpec.v
theories/ExpandProofs.v
theories/ParserModel.v
theories/ParserSpec.v
theories/ParserProofs.v
theories/ParserProofs2.v
theories/ParserProofs3.v
theories/ParserProofs4.v
theories/ParserProofs5.v
theories/ParserProofs6.v
theories/DocSpec.v
theories/DocProofs.v
theories/ParserProofs7.v
theories/ParserProps.v
theories/TokenizeModel.v
theories/TokenizeSpec.v
theories/TokenizeProofs.v
theories/Numbers.v
theories/IoModel.v
theories/IoSpec.v
theories/IoProofs.v
theories/IoProofs2.v
theories/IoProofs3.v
theories/IoProps.v
theories/ImageModel.v
theories/ImageSpec.v
theories/ImageProofs.v
theories/ImageProofs2.v
theories/ImageProofs3.v
theories/ImageProps.v
theories/Stream.v
theories/TimestampModel.v
theories/TimestampProps.v
theories/TrackModel.v
theories/TrackSpec.v
theories/TrackProofs.v
theories/TrackProofs2.v
theories/TrackProps.v
theories/TrackIoModel.v
theories/TrackIoSpec.v
theories/TrackIoProofs.v
theories/TrackIoProps.v
theories/PlyModel.v
theories/PlySpec.v
theories/PlyProofs.v
theories/PlyProps.v
theories/AlgoModel.v
theories/AlgoSpec.v
theories/AlgoProofs.v
theories/AlgoProofs2.v
theories/AlgoProps.v
theories/OnceModel.v
theories/OnceProofs.v
theories/OnceProps.v
theories/Base64Model.v
theories/Base64Spec.v
theories/Base64Proofs.v
theories/Base64Proofs2.v
theories/Base64Props.v
theories/CacheModel.v
theories/CacheProofs.v
theories/CacheProps.v
theories/CStringModel.v
theories/CStringProps.v
theories/SparseModel.v
theories/SparseProps.v
theories/CovarModel.v
theories/CovarProps.v
theories/AlgoProps2.v
theories/GeomModel.v
theories/GeomProofs.v
theories/GeomProps.v
theories/GeomProps2.v
theories/GeomProps3.v
theories/CameraModel.v
theories/CameraProps.v
theories/CameraProps2.v
theories/AlgoDataModel.v
theories/AlgoDataProps.v
theories/GeoModel.v
theories/GeoProofs.v
theories/GeoProps.v
theories/ConfigProps2.v
theories/ParserProps2.v
theories/PathModel.v
theories/PathSpec.v
theories/PathProofs.v
theories/PathProps.v
theories/PathProps2.v
theories/PathProps3.v
theories/MkdirModel.v
theories/MkdirProps.v
theories/CamIoModel.v
theories/CamIoProofs.v
theories/CamIoProps.v
theories/CamIoProps2.v
theories/PluginModel.v
theories/PluginSpec.v
theories/PluginProps.v
theories/PluginProps2.v
theories/PluginProps3.v
theories/RegexModel.v
theories/RegexSpec.v
theories/RegexAst.v
theories/RegexGen.v
theories/RegexPass.v
theories/RegexSim.v
theories/RegexSim2.v
theories/RegexSim3.v
theories/RegexSim4.v
theories/RegexGrammar.v
theories/RegexGrammar2.v
theories/RegexGrammar3.v
theories/RegexCompile.v
theories/RegexCompile2.v
theories/RegexProps.v
theories/RegexMatch.v
theories/RegexMatch2.v
theories/RegexMatch3.v
theories/RegexFind.v
theories/RegexWays.v
theories/RegexLayout.v
theories/RegexProps2.v
theories/RegexProps3.v
theories/RegexSize.v
theories/GlobModel.v
theories/GlobSpec.v
theories/GlobProofs.v
theories/GlobProofs2.v
theories/GlobProps.v
theories/GlobFindSpec.v
theories/GlobFind.v
theories/GlobFindProps.v
theories/GlobFindProps2.v
theories/LogModel.v
theories/LogProps.v
theories/LogProps2.v
theories/PyModel.v
theories/PyProps.v
theories/PyConfModel.v
theories/PyConfProps.v
theories/PyImageModel.v
theories/PyImageProps.v
theories/TokenModel.v
theories/TokenProps.v
theories/CmdModel.v
theories/CmdSpec.v
theories/CmdProps.v
theories/CmdProps2.v
theories/UtilModel.v
theories/UtilProps.v
theories/ApiModel.v
theories/ApiProofs.v
theories/ApiSpec.v
theories/ApiProofs2.v
theories/ApiProofs3.v
theories/ApiProps.v
theories/PyPathModel.v
theories/PyPathProps.v
theories/PyToolModel.v
theories/PyToolProps.v
theories/PyToolProps2.v
theories/DescModel.v
theories/DescProps.v
theories/DescProps2.v
theories/ShareModel.v
theories/ShareProps.v
theories/FundModel.v
theories/FundProps.v
theories/ArgModel.v
theories/ArgSpec.v
theories/ArgProofs.v
theories/ArgProps.v
theories/ArgProps2.v
theories/ArgHelpModel.v
theories/ArgHelpProofs.v
theories/ArgHelpProps.v
theories/ArgHelpProps2.v
theories/ErrModel.v
theories/ErrSpec.v
theories/ErrProps.v
theories/ShareProps2.v
theories/MD5Model.v
theories/MD5Spec.v
theories/MD5Table.v
theories/MD5Proofs.v
theories/MD5Props.v
theories/TreeModel.v
theories/TreeSpec.v
theories/TreeProofs.v
theories/TreeProofs2.v
theories/TreeProofs3.v
theories/TreeProps.v
theories/PyConfProps2.v
theories/PathProps4.v
theories/PyToolProps3.v
theories/TransModel.v
theories/TransProofs.v
theories/TransProps.v
theories/TransProps2.v
theories/CopyModel.v
theories/CopyProofs.v
theories/CopySpec.v
theories/CopyProofs2.v
theories/CopyProps.v
theories/CopyTree.v
theories/CopyTree2.v
theories/CopyProps2.v
theories/HashModel.v
theories/HashSpec.v
theories/HashProofs.v
theories/HashProofs2.v
theories/HashProofs3.v
theories/HashProofs4.v
theories/HashProofs5.v
theories/HashProofs6.v
theories/HashWorld.v
theories/HashStep.v
theories/HashWhole.v
theories/HashProps.v
theories/LineModel.v
theories/LineSpec.v
theories/LineProofs.v
theories/LineProps.v
theories/CStrModel.v
theories/CStrSpec.v
theories/CStrProps.v
theories/StrModel.v
theories/StrSpec.v
theories/StrProps.v
theories/SearchModel.v
theories/SearchSpec.v
theories/SearchProps.v
theories/SearchProps2.v
theories/SearchProps3.v
theories/UrlModel.v
theories/UrlSpec.v
theories/UrlProofs.v
theories/UrlProps.v
theories/OwnModel.v
theories/OwnSpec.v
theories/OwnProps.v
theories/DateModel.v
theories/DateSpec.v
theories/DateProps.v
theories/FmtModel.v
theories/FmtSpec.v
theories/FmtProps.v
theories/OutPathModel.v
theories/OutPathSpec.v
theories/OutPathProofs.v
theories/OutPathProps.v
theories/HashPrimes.v
theories/FTypeModel.v
theories/FTypeSpec.v
theories/FTypeProps.v
theories/EnvModel.v
theories/EnvSpec.v
theories/EnvProps.v
theories/TouchModel.v
theories/TouchProps.v
theories/ProcModel.v
theories/ProcSpec.v
theories/ProcProps.v
theories/ProcTabModel.v
theories/ProcTabSpec.v
theories/ProcTabProps.v
theories/ProcTimeModel.v
theories/ProcTimeSpec.v
theories/ProcTimeProps.v
theories/ProcRunModel.v
theories/ProcRunSpec.v
theories/ProcRunProps.v
theories/ProcExecModel.v
theories/ProcExecSpec.v
theories/ProcExecProps.v
theories/TermModel.v
theories/TermSpec.v
theories/TermProps.v
theories/SysMemModel.v
theories/SysMemSpec.v
theories/SysMemProps.v
theories/SysCpuModel.v
theories/SysCpuSpec.v
theories/SysCpuProps.v
theories/SysCpuIdModel.v
theories/SysCpuIdSpec.v
theories/SysCpuIdProps.v
theories/SysCpuFlagModel.v
theories/SysCpuFlagSpec.v
theories/SysCpuFlagProps.v
theories/SysLimModel.v
theories/SysLimSpec.v
theories/SysLimProps.v
theories/CpuDescModel.v
theories/CpuDescSpec.v
theories/CpuDescProps.v
