-Q theories Verif
theories/Prelude.v
theories/PreludeFacts.v
theories/SeqModel.v
theories/SeqSpec.v
theories/SeqProofs.v
theories/SeqSortProofs.v
theories/PropsSeq.v
theories/MiscModel.v
theories/MiscProofs.v
theories/PropsMisc.v
theories/MapModel.v
theories/MapSpec.v
theories/MapProofs.v
theories/Str.v
theories/StrFacts.v
theories/SetModel.v
theories/SetProofs.v
theories/PropsMap.v
theories/RBModel.v
theories/RBSpec.v
theories/RBHeap.v
theories/RBInv.v
theories/RBPut.v
theories/RBSearch.v
theories/RBIter.v
theories/RBRemFix.v
theories/RBRemove.v
theories/RBBal.v
theories/PropsRB.v
theories/ContModel.v
theories/ContSpec.v
theories/ContProofs.v
theories/PropsCont.v
theories/ConcModel.v
theories/ConcProofs.v
theories/TQModel.v
theories/TQSpec.v
theories/TQProofs.v
theories/TQSeqProofs.v
theories/TQConc.v
theories/ConcExec.v
theories/TSConc.v
theories/TQWake.v
theories/TQConserve.v
theories/PropsThreaded.v
theories/Libc.v
theories/MemSpec.v
theories/LibcFacts.v
theories/CmpModel.v
theories/CmpSpec.v
theories/CmpFacts.v
theories/CmpProofs.v
theories/PropsCmp.v
theories/EditModel.v
theories/EditSpec.v
theories/EditProofs.v
theories/EditProofs2.v
theories/EditProofs3.v
theories/EditProofs4.v
theories/EditProofs5.v
theories/PropsEdit.v
theories/PropsEdit2.v
theories/NumModel.v
theories/NumSpec.v
theories/NumProofs.v
theories/PropsNum.v
theories/BufModel.v
theories/BufSpec.v
theories/BufProofs.v
theories/PropsBuf.v
theories/WriterModel.v
theories/PropsWriter.v
theories/CsvModel.v
theories/CsvSpec.v
theories/CsvProofs.v
theories/PropsCsv.v
theories/XmlModel.v
theories/XmlSpec.v
theories/PropsXml.v
theories/IoModel.v
theories/IoProofs.v
theories/PropsIo.v
theories/StrSeqModel.v
theories/PropsStrSeq.v
theories/PathModel.v
theories/PropsPath.v
theories/CleanupModel.v
theories/PropsCleanup.v
theories/DllModel.v
theories/RefModel.v
theories/DllFacts.v
theories/PropsRef.v
theories/IpModel.v
theories/IpSpec.v
theories/IpProofs.v
theories/IpProofs6.v
theories/PropsIp4.v
theories/PropsIp6.v
theories/PropsIpCmp.v
theories/PropsIpHex.v
theories/JsonModel.v
theories/JsonFacts.v
theories/JsonSpec.v
theories/JsonSafe.v
theories/JsonParse.v
theories/JsonRead.v
theories/JsonWriteProofs.v
theories/JsonProofs.v
theories/PropsJson.v
theories/JsonMapProofs.v
theories/PropsJsonMap.v
theories/ListModel.v
theories/ListSpec.v
theories/ListProofs.v
theories/ListOps.v
theories/PropsList.v
theories/MustModel.v
theories/MustSpec.v
theories/MustProofs.v
theories/MustTags.v
theories/MustEval.v
theories/MustRender.v
theories/MustRun.v
theories/MustMain.v
theories/MustCheck.v
theories/PropsMust.v
theories/CompatModel.v
theories/CompatProofs.v
theories/CompatProofs2.v
theories/PropsCompat.v
theories/EnvModel.v
theories/EnvSpec.v
theories/EnvProofs.v
theories/EnvProofs2.v
theories/EnvProofs3.v
theories/EnvProofs4.v
theories/EnvProofs5.v
theories/PropsEnv.v
theories/PcreModel.v
theories/PcreSpec.v
theories/PcreProofs.v
theories/PcreProofs2.v
theories/PcreProofs3.v
theories/PcreProofs4.v
theories/PropsPcre.v
theories/HashModel.v
theories/HashSpec.v
theories/HashProofs.v
theories/HashProofs2.v
theories/PropsHash.v
theories/FsModel.v
theories/SafeModel.v
theories/SafeSpec.v
theories/SafeProofs.v
theories/SafeProofs2.v
theories/SafeProofs3.v
theories/SafeProofs4.v
theories/SafeProofs5.v
theories/SafeProofs6.v
theories/SafeProofs7.v
theories/PropsSafe.v
theories/PropsListStale.v
theories/PrintfModel.v
theories/PrintfSpec.v
theories/PrintfProofs.v
theories/PrintfProofs2.v
theories/PrintfProofs3.v
theories/PrintfProofs4.v
theories/PrintfProofs5.v
theories/PropsPrintf.v
theories/LogModel.v
theories/LogSpec.v
theories/PropsLog.v
theories/LockModel.v
theories/LockSpec.v
theories/PropsLock.v
theories/DirModel.v
theories/DirSpec.v
theories/DirProofs.v
theories/DirProofs2.v
theories/DirProofs3.v
theories/DirProofs4.v
theories/DirProofs5.v
theories/PropsDir.v
theories/InetModel.v
theories/InetSpec.v
theories/InetProofs.v
theories/InetProofs2.v
theories/InetProofs3.v
theories/InetProofs4.v
theories/InetProofs5.v
theories/InetProofs6.v
theories/InetProofs7.v
theories/InetProofs8.v
theories/PropsInet.v
theories/JsonHeapModel.v
theories/JsonHeapSpec.v
theories/JsonHeapFacts.v
theories/JsonHeapProofs.v
theories/JsonHeapProofs2.v
theories/JsonHeapProofs3.v
theories/JsonHeapProofs4.v
theories/JsonHeapProofs5.v
theories/PropsJsonHeap.v
theories/KnownDirsModel.v
theories/PropsKnownDirs.v
theories/YamlModel.v
theories/YamlSpec.v
theories/YamlProofs.v
theories/PropsYaml.v
theories/RegexModel.v
theories/RegexSpec.v
theories/PropsRegex.v
theories/PassModel.v
theories/PropsPass.v
theories/FilesModel.v
theories/PropsFiles.v
theories/AddrinfoModel.v
theories/PropsAddrinfo.v
theories/AtModel.v
theories/PropsAt.v
theories/SysModel.v
theories/PropsSys.v
theories/SetJsonModel.v
theories/PropsSetJson.v
theories/TextModel.v
theories/PropsText.v
theories/DataFileModel.v
theories/PropsDataFile.v
theories/CryptoModel.v
theories/PropsCrypto.v
theories/HelpModel.v
theories/PropsHelp.v
theories/PrintfFloat.v
theories/PrintfFloat2.v
theories/PrintfFloat3.v
theories/PrintfFloat4.v
theories/PrintfFloat5.v
theories/PrintfFloat6.v
theories/AllocModel.v
theories/PropsAlloc.v
theories/MiscLibModel.v
theories/PropsMiscLib.v
theories/FormatModel.v
theories/PropsFormat.v
theories/StatisticsModel.v
theories/PropsStatistics.v
theories/ListIterModel.v
theories/PropsListIter.v
theories/StrHelpModel.v
theories/PropsStrHelp.v
theories/FileOutModel.v
theories/PropsFileOut.v
theories/PropsGaps.v
theories/MutexModel.v
theories/PropsMutex.v
theories/MapStatsModel.v
theories/PropsMapStats.v
