-Q theories Verif
theories/Async.v
theories/AsyncFacts.v
theories/AsyncProps.v
theories/Base.v
theories/BaseFacts.v
theories/Batch.v
theories/BatchFacts.v
theories/BatchSig.v
theories/BatchSigEx.v
theories/BatchSigFacts.v
theories/BatchSigFacts2.v
theories/BatchSigFacts3.v
theories/BatchSigFacts4.v
theories/BatchSigFacts5.v
theories/BatchSigFacts6.v
theories/BatchSigProps.v
theories/BatchSigSpec.v
theories/BatchSnr.v
theories/BatchSnrFacts.v
theories/BatchSnrProps.v
theories/BatchTime.v
theories/BatchTimeFacts.v
theories/BatchTimeProps.v
theories/BufFacts.v
theories/BufFacts2.v
theories/BufNat.v
theories/BufProps.v
theories/BufSpec.v
theories/Buffers.v
theories/Centr.v
theories/CentrFacts.v
theories/CentrProps.v
theories/CentrSpec.v
theories/Chunk.v
theories/ChunkFacts.v
theories/ChunkProps.v
theories/ChunkSpec.v
theories/Clock.v
theories/ClockFacts.v
theories/ClockProps.v
theories/ClockSpec.v
theories/CohCentr.v
theories/CohCentrFacts.v
theories/CohCentrProps.v
theories/CohCentrSpec.v
theories/CohDrift.v
theories/CohFacts.v
theories/CohFacts2.v
theories/CohFacts3.v
theories/CohFacts4.v
theories/CohFacts5.v
theories/CohFacts6.v
theories/CohProps.v
theories/CohSpec.v
theories/CompleteFacts.v
theories/CompleteFacts2.v
theories/CompleteFacts3.v
theories/CondNum.v
theories/CondNumFacts.v
theories/CondNumProps.v
theories/CondNumSpec.v
theories/Config.v
theories/ConfigFacts.v
theories/ConfigProps.v
theories/ConfigSpec.v
theories/Cx.v
theories/CxFacts.v
theories/DemoEval.v
theories/DemoEvalFacts.v
theories/DemoEvalProps.v
theories/Dist.v
theories/DistFacts.v
theories/DistFacts2.v
theories/DistFacts3.v
theories/DistProps.v
theories/DistSpec.v
theories/Divis.v
theories/DivisFacts.v
theories/Dxcp.v
theories/DxcpFacts.v
theories/DxcpFacts2.v
theories/DxcpProps.v
theories/DxcpSpec.v
theories/Eval.v
theories/EvalFacts.v
theories/EvalFacts2.v
theories/EvalProps.v
theories/EvalSpec.v
theories/Ext.v
theories/ExtFacts.v
theories/ExtSpec.v
theories/FileSel.v
theories/FileSelFacts.v
theories/FileSelProps.v
theories/FileSelSpec.v
theories/Filt.v
theories/FiltFacts.v
theories/FiltProps.v
theories/FiltSpec.v
theories/Full.v
theories/FullFacts.v
theories/FullFacts2.v
theories/FullFacts3.v
theories/FullFacts4.v
theories/FullFacts5.v
theories/FullFacts6.v
theories/FullFacts7.v
theories/FullProps.v
theories/FullSpec.v
theories/InNet.v
theories/InNetFacts.v
theories/InNetFacts2.v
theories/InNetFacts3.v
theories/InNetFacts4.v
theories/InNetSpec.v
theories/InitCov.v
theories/InitCovProps.v
theories/InitFilt.v
theories/InitProps.v
theories/InstFacts.v
theories/InstSpec.v
theories/KeyTime.v
theories/KeyTimeFacts.v
theories/KeyTimeProps.v
theories/KeyTimeSpec.v
theories/LatestFacts.v
theories/LatestFacts2.v
theories/LatestFacts3.v
theories/LatestFacts4.v
theories/LatestFacts5.v
theories/LatestProps.v
theories/LatestSpec.v
theories/Layout.v
theories/LayoutFacts.v
theories/LayoutProps.v
theories/LayoutSpec.v
theories/Level.v
theories/LevelFacts.v
theories/LevelFacts2.v
theories/LevelFacts3.v
theories/LevelProps.v
theories/LevelSpec.v
theories/Loop.v
theories/LoopFacts.v
theories/LoopFacts2.v
theories/LoopFacts3.v
theories/LoopFacts4.v
theories/LoopProps.v
theories/LoopSpec.v
theories/Netwide.v
theories/NetwideFacts.v
theories/NetwideProps.v
theories/NetwideSpec.v
theories/Online.v
theories/OnlineFacts.v
theories/OnlineFacts2.v
theories/OnlineFacts3.v
theories/OnlineProps.v
theories/OnlineSpec.v
theories/OutFacts.v
theories/OutFacts2.v
theories/OutFacts3.v
theories/OutFacts4.v
theories/OutProps.v
theories/OutSpec.v
theories/Params.v
theories/ParamsProps.v
theories/Phat.v
theories/PhatFacts.v
theories/PhatFacts2.v
theories/PhatFacts3.v
theories/PhatFacts4.v
theories/PhatFacts5.v
theories/PhatProps.v
theories/Post.v
theories/PostFacts.v
theories/PostProps.v
theories/Predef.v
theories/PredefFacts.v
theories/PredefProps.v
theories/PredefSpec.v
theories/Prep.v
theories/PrepFacts.v
theories/PrepProps.v
theories/PrepSpec.v
theories/Prune.v
theories/PruneFacts.v
theories/PruneFacts2.v
theories/PruneFacts3.v
theories/PruneFacts4.v
theories/PruneProps.v
theories/PruneSpec.v
theories/RandSig.v
theories/RandSigFacts.v
theories/RandSigFacts2.v
theories/RandSigFacts3.v
theories/RandSigProps.v
theories/RandSigSpec.v
theories/Resamp.v
theories/ResampFacts.v
theories/ResampFacts2.v
theories/ResampFacts3.v
theories/ResampProps.v
theories/ResampSpec.v
theories/Root.v
theories/RootFacts.v
theories/RootProps.v
theories/RootSpec.v
theories/Scene.v
theories/SceneFacts.v
theories/SceneFacts2.v
theories/SceneFacts3.v
theories/SceneProps.v
theories/SceneSpec.v
theories/Sched.v
theories/SchedFacts.v
theories/SchedFacts2.v
theories/SchedFacts3.v
theories/SchedFacts4.v
theories/SchedFacts5.v
theories/SchedProps.v
theories/SchedSpec.v
theories/Scm.v
theories/ScmFacts.v
theories/ScmFacts2.v
theories/ScmProps.v
theories/ScmSpec.v
theories/Settings.v
theories/SettingsProps.v
theories/SigGen.v
theories/SigGenFacts.v
theories/SigGenFacts2.v
theories/SigGenProps.v
theories/SigGenSpec.v
theories/SnrMix.v
theories/SnrMixFacts.v
theories/SnrMixProps.v
theories/SnrMixSpec.v
theories/Spin.v
theories/SpinFacts.v
theories/SpinProps.v
theories/SpinSpec.v
theories/SroComp.v
theories/SroFacts.v
theories/SroProps.v
theories/SroSpec.v
theories/Ssbc.v
theories/SsbcProps.v
theories/Stoi.v
theories/StoiFacts.v
theories/StoiProps.v
theories/StoiSpec.v
theories/SyncFacts.v
theories/SyncFacts2.v
theories/SyncFacts3.v
theories/SyncFacts4.v
theories/TiFacts.v
theories/TiFacts2.v
theories/TiFacts3.v
theories/TiFacts4.v
theories/TiFacts5.v
theories/TiFacts6.v
theories/TiFacts7.v
theories/TiProps.v
theories/TiRun.v
theories/TiSched.v
theories/TiSchedFacts.v
theories/TiSchedFacts2.v
theories/TiSchedFacts3.v
theories/TiSchedFacts4.v
theories/TiSchedProps.v
theories/TiSchedSpec.v
theories/TiSpec.v
theories/Tree.v
theories/TreeCheck.v
theories/TreeFacts.v
theories/TreeFacts2.v
theories/TreeProps.v
theories/TreeRootFacts.v
theories/TreeSpec.v
theories/WholeFacts.v
theories/WholeFacts2.v
theories/WholeProps.v
theories/WholeSpec.v
theories/Windows.v
theories/Wola.v
theories/WolaFacts.v
theories/WolaFacts2.v
theories/WolaProps.v
theories/WolaSpec.v
theories/YamlDump.v
theories/YamlDumpFacts.v
theories/YamlDumpProps.v
theories/YamlDumpSpec.v
