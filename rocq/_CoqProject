-Q theories Verif
theories/Text.v
theories/Utf8M.v
theories/Utf8P.v
theories/Sort.v
theories/SpanM.v
theories/SpanS.v
theories/SpanP.v
theories/SpanT.v
theories/ShardM.v
theories/ShardS.v
theories/ShardP.v
theories/ShardT.v
theories/ProcessM.v
theories/ProcessS.v
theories/ProcessP.v
theories/ProcessT.v
theories/OutcomeM.v
theories/OutcomeS.v
theories/OutcomeP.v
theories/OutcomeT.v
theories/F64M.v
theories/F64S.v
theories/F64P.v
theories/TimeoutM.v
theories/TimeoutS.v
theories/TimeoutP.v
theories/TimeoutT.v
theories/PathM.v
theories/PathS.v
theories/PathP.v
theories/PathT.v
theories/MutantM.v
theories/MutantP.v
theories/MutantT.v
theories/InDiffM.v
theories/InDiffS.v
theories/InDiffP.v
theories/InDiffT.v
theories/OutputM.v
theories/OutputS.v
theories/OutputP.v
theories/OutputT.v
theories/IterateM.v
theories/IterateS.v
theories/IterateP.v
theories/IterateT.v
theories/LockM.v
theories/LockS.v
theories/LockP.v
theories/LockT.v
theories/LabM.v
theories/LabS.v
theories/LabP.v
theories/LabT.v
theories/CutP.v
theories/GlobM.v
theories/GlobS.v
theories/GlobP.v
theories/GlobT.v
theories/OptionsM.v
theories/OptionsS.v
theories/OptionsP.v
theories/OptionsT.v
theories/PackageM.v
theories/PackageS.v
theories/PackageP.v
theories/PackageT.v
theories/CargoM.v
theories/CargoS.v
theories/CargoP.v
theories/CargoT.v
theories/ManifestM.v
theories/ManifestS.v
theories/ManifestP.v
theories/ManifestT.v
theories/TailM.v
theories/TailS.v
theories/TailP.v
theories/TailT.v
theories/PrettyM.v
theories/PrettyS.v
theories/PrettyP.v
theories/PrettyT.v
theories/FnValueM.v
theories/FnValueS.v
theories/FnValueP.v
theories/FnValueT.v
theories/VisitM.v
theories/VisitS.v
theories/VisitP.v
theories/VisitT.v
theories/WalkM.v
theories/WalkS.v
theories/WalkP.v
theories/WalkT.v
theories/CopyM.v
theories/CopyS.v
theories/CopyP.v
theories/CopyT.v
theories/ConsoleM.v
theories/ConsoleS.v
theories/ConsoleP.v
theories/ConsoleT.v
theories/MainM.v
theories/MainS.v
theories/MainP.v
theories/MainT.v
theories/JsonM.v
theories/JsonS.v
theories/JsonP.v
theories/JsonT.v
theories/LogM.v
theories/LogS.v
theories/LogP.v
theories/LogT.v
theories/PrintM.v
theories/PrintS.v
theories/PrintP.v
theories/PrintT.v
theories/DiskM.v
theories/DiskS.v
theories/DiskP.v
theories/DiskT.v
theories/InterruptM.v
theories/InterruptS.v
theories/InterruptP.v
theories/InterruptT.v
theories/TempM.v
theories/TempS.v
theories/TempP.v
theories/TempT.v
theories/DetS.v
theories/DetP.v
theories/DetT.v
theories/LexS.v
theories/LexP.v
theories/LexT.v
theories/OnceS.v
theories/OnceP.v
theories/OnceT.v
theories/WholeM.v
theories/WholeS.v
theories/WholeP.v
theories/WholeT.v
theories/CauseS.v
theories/CauseP.v
theories/CauseT.v
theories/ProgressM.v
theories/ProgressS.v
theories/ProgressP.v
theories/ProgressT.v
theories/LaunchM.v
theories/LaunchS.v
theories/LaunchP.v
theories/PartsP.v
theories/LaunchT.v
theories/ColorS.v
theories/ColorP.v
theories/ColorT.v
theories/EndM.v
theories/EndS.v
theories/EndP.v
theories/EndT.v
theories/ClapM.v
theories/ClapS.v
theories/ClapP.v
theories/ClapQ.v
theories/ClapR.v
theories/ClapT.v
theories/ConfigM.v
theories/ConfigS.v
theories/ConfigP.v
theories/ConfigQ.v
theories/ConfigT.v
theories/DiffS.v
theories/DiffP.v
theories/DiffRunP.v
theories/DiffT.v
theories/LogsM.v
theories/LogsS.v
theories/LogsP.v
theories/LogsRunP.v
theories/LogsUseP.v
theories/LogsJsonP.v
theories/LogsAheadP.v
theories/LogsT.v
theories/NoticeM.v
theories/NoticeS.v
theories/NoticeP.v
theories/NoticeUseP.v
theories/NoticeT.v
theories/TogetherM.v
theories/TogetherS.v
theories/TogetherP.v
theories/TogetherT.v
theories/RoundM.v
theories/RoundS.v
theories/RoundP.v
theories/RoundT.v
theories/GoesS.v
theories/GoesP.v
theories/GoesT.v
theories/StopM.v
theories/StopS.v
theories/StopP.v
theories/StopT.v
theories/F32M.v
theories/F32S.v
theories/F32P.v
theories/TimesM.v
theories/TimesS.v
theories/TimesP.v
theories/TimesT.v
theories/OwnerM.v
theories/OwnerS.v
theories/OwnerP.v
theories/OwnerT.v
theories/FilesM.v
theories/FilesS.v
theories/FilesP.v
theories/FilesT.v
theories/StdoutM.v
theories/StdoutS.v
theories/StdoutP.v
theories/StdoutT.v
