-Q theories Verif
theories/Base.v
theories/Text.v
theories/TextSpec.v
theories/TextProofs.v
theories/Convert.v
theories/Timestamps.v
theories/NumSpec.v
theories/NumProofs.v
theories/P_Text.v
theories/LinesSpec.v
theories/Splitter.v
theories/SplitterProofs.v
theories/Batch.v
theories/BatchSpec.v
theories/BatchProofs.v
theories/Listener.v
theories/ListenerSpec.v
theories/ListenerProofs.v
theories/HttpProofs.v
theories/P_Batch.v
theories/P_Listener.v
theories/Rules.v
theories/RulesSpec.v
theories/RulesProofs.v
theories/RouteProofs.v
theories/FilterWorker.v
theories/FilterSpec.v
theories/FilterProofs.v
theories/P_Filter.v
theories/Avg.v
theories/Assigner.v
theories/AssignerSpec.v
theories/AssignerProofs.v
theories/AvgSpec.v
theories/AvgProofs.v
theories/AvgNum.v
theories/AvgPrint.v
theories/AvgExact.v
theories/DsProofs.v
theories/DsMain.v
theories/P_Downsampler.v
theories/Retry.v
theories/RetrySpec.v
theories/RetryProofs.v
theories/RetryMain.v
theories/Writer.v
theories/WriterSpec.v
theories/WriterProofs.v
theories/WriterMain.v
theories/WriterTop.v
theories/P_Writer.v
theories/Stats.v
theories/StatsSpec.v
theories/StatsProofs.v
theories/Prom.v
theories/PromSpec.v
theories/PromParse.v
theories/PromProofs.v
theories/PromMonitor.v
theories/PromTop.v
theories/PromStats.v
theories/P_Monitor.v
theories/Config.v
theories/ConfigSpec.v
theories/ConfigProofs.v
theories/ConfigLoad.v
theories/ConfigRules.v
theories/Probes.v
theories/ProbesProofs.v
theories/P_Config.v
theories/EndToEnd.v
theories/EndToEndProofs.v
theories/P_EndToEnd.v
theories/Floats.v
theories/FloatProofs.v
theories/P_Float.v
theories/HttpAck.v
theories/HttpLines.v
theories/P_Http.v
theories/HttpLock.v
theories/P_Lock.v
theories/FilterStop.v
theories/DsStop.v
theories/P_Shutdown.v
theories/DsEnd.v
theories/P_DsEnd.v
theories/FilterSize.v
theories/Tap.v
theories/P_Extra.v
theories/GrammarSpec.v
theories/GrammarProofs.v
theories/P_Grammar.v
theories/ItemStats.v
theories/P_Items.v
theories/Nats.v
theories/Cluster.v
theories/ClusterProofs.v
theories/Loop.v
theories/P_Cluster.v
theories/Url.v
theories/P_Url.v
theories/StartStop.v
theories/P_StartStop.v
theories/Window.v
theories/P_Window.v
theories/NatsSub.v
theories/WriterPool.v
theories/WriterPoolProofs.v
theories/P_Pool.v
theories/Feeds.v
theories/P_Feeds.v
theories/Chain.v
theories/P_Chain.v
theories/Pending.v
theories/P_Pending.v
theories/Crash.v
theories/P_Crash.v
theories/Store.v
theories/P_Store.v
theories/MainProg.v
theories/P_Main.v
theories/Bench.v
theories/P_Bench.v
theories/Latency.v
theories/P_Latency.v
theories/Units.v
theories/P_Units.v
theories/WriterRules.v
theories/P_WriterRules.v
theories/Redirect.v
theories/P_Redirect.v
theories/Limits.v
theories/P_Limits.v
theories/Scanner.v
theories/ScannerProofs.v
theories/P_Scanner.v
theories/Subjects.v
theories/DsLoop.v
theories/Copies.v
theories/P_Subjects.v
theories/Counts.v
theories/P_Counts.v
theories/Reports.v
theories/P_Reports.v
theories/GoLang.v
theories/GoInflux.v
theories/GoFilter.v
theories/GoBatch.v
theories/GoDown.v
theories/GoPipe.v
theories/P_Panics.v
theories/MemorySpec.v
theories/Memory.v
theories/P_Memory.v
theories/Skew.v
theories/P_Skew.v
theories/Order.v
theories/OrderFloat.v
theories/P_Order.v
theories/Grouping.v
theories/P_Grouping.v
theories/ConfTac.v
theories/ConfInflux.v
theories/ConfAvg.v
theories/ConfFilter.v
theories/ConfConfig.v
theories/ConfProm.v
theories/ConfBatch.v
theories/ConfMedium.v
theories/Forget.v
theories/ForgetMon.v
theories/P_Forget.v
theories/GoProm.v
theories/P_MonitorGo.v
theories/HttpApi.v
theories/P_HttpApi.v
theories/FracDur.v
theories/P_FracDur.v
theories/RuleEdit.v
theories/P_RuleEdit.v
theories/MetricsGrow.v
theories/CompGrow.v
theories/P_MetricsGrow.v
theories/Timeout.v
theories/TimeoutProofs.v
theories/P_Timeout.v
theories/Ports.v
theories/PortsProofs.v
theories/P_Ports.v
theories/StatsLoop.v
theories/StatsLoopProofs.v
theories/P_StatsLoop.v
theories/MonitorLock.v
theories/MonitorLockProofs.v
theories/P_MonitorLock.v
theories/TomlKeys.v
theories/TomlKeysProofs.v
theories/P_TomlKeys.v
theories/Outage.v
theories/OutageProofs.v
theories/P_Outage.v
theories/Mux.v
theories/MuxProofs.v
theories/P_Mux.v
theories/Creds.v
theories/P_Creds.v
theories/Endpoints.v
theories/P_Endpoints.v
theories/RouteSeen.v
theories/P_RouteSeen.v
theories/PromDamage.v
theories/P_MonitorDamage.v
theories/P_OutageFilter.v
theories/LabelText.v
theories/LabelLost.v
theories/P_LabelText.v
