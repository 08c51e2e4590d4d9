-Q theories Verif
theories/Common.v
theories/Threads.v
theories/TokenBucketModel.v
theories/TokenBucketSpec.v
theories/TokenBucketProofs.v
theories/TokenBucketProps.v
theories/AtomicBucketModel.v
theories/AtomicBucketSpec.v
theories/AtomicBucketProofs.v
theories/AtomicBucketProps.v
theories/AtomicProgressSpec.v
theories/AtomicProgressProofs.v
theories/AtomicServeProofs.v
theories/AtomicProgressProps.v
theories/SlidingWindowModel.v
theories/SlidingWindowSpec.v
theories/SlidingWindowProofs.v
theories/SlidingWindowProps.v
theories/Float64Model.v
theories/Float64Proofs.v
theories/FixedWindowModel.v
theories/FixedWindowSpec.v
theories/FixedWindowProofs.v
theories/FixedWindowProps.v
theories/BreakerModel.v
theories/BreakerSpec.v
theories/BreakerProofs.v
theories/BreakerProps.v
theories/BreakerOutageSpec.v
theories/BreakerOutageProofs.v
theories/BreakerOutageProps.v
theories/BreakerNestModel.v
theories/BreakerNestSpec.v
theories/BreakerNestProofs.v
theories/BreakerNestStacks.v
theories/BreakerNestProps.v
theories/SemaModel.v
theories/SemaSpec.v
theories/SemaProofs.v
theories/SemaProps.v
theories/SemaFineModel.v
theories/SemaFineSpec.v
theories/SemaFineProofs.v
theories/SemaFineProps.v
theories/Bytes.v
theories/StoreModel.v
theories/StoreSpec.v
theories/StoreProofs.v
theories/StoreProps.v
theories/ProcsModel.v
theories/ProcsSpec.v
theories/ProcsProofs.v
theories/ProcsProps.v
theories/ConfNamesModel.v
theories/ConfNamesSpec.v
theories/ConfNamesProofs.v
theories/ConfNamesProps.v
theories/RedisTtlModel.v
theories/RedisTtlSpec.v
theories/RedisTtlProofs.v
theories/RedisTtlProps.v
theories/RedisReconfSpec.v
theories/RedisReconfProofs.v
theories/RedisReconfProps.v
theories/RedisLapseModel.v
theories/RedisLapseSpec.v
theories/RedisLapseProofs.v
theories/RedisLapseProps.v
theories/BusModel.v
theories/BusSpec.v
theories/BusProofs.v
theories/BusTrace.v
theories/BusLive.v
theories/BusProps.v
theories/BusLockModel.v
theories/BusLockSpec.v
theories/BusLockProofs.v
theories/BusLockLive.v
theories/BusLockProps.v
theories/BusFineModel.v
theories/BusFineSpec.v
theories/BusFineProofs.v
theories/BusFineTrace.v
theories/BusFineProps.v
theories/ScheduleModel.v
theories/ScheduleSpec.v
theories/ScheduleProofs.v
theories/ScheduleTrace.v
theories/ScheduleRuns.v
theories/ScheduleLive.v
theories/ScheduleProps.v
theories/SchedulePromptSpec.v
theories/SchedulePromptProofs.v
theories/SchedulePromptProps.v
theories/ScheduleFineModel.v
theories/ScheduleFineSpec.v
theories/ScheduleFineProofs.v
theories/ScheduleFineSim.v
theories/ScheduleFineTrace.v
theories/ScheduleFineUse.v
theories/ScheduleFineProps.v
theories/TaskMgrModel.v
theories/TaskMgrSpec.v
theories/TaskMgrProofs.v
theories/TaskMgrProps.v
theories/ConfLoadModel.v
theories/ConfLoadSpec.v
theories/ConfLoadProofs.v
theories/ConfLoadInit.v
theories/ConfLoadFlags.v
theories/ConfLoadYaml.v
theories/ConfLoadFits.v
theories/ConfLoadRuns.v
theories/ConfLoadEnd.v
theories/ConfLoadProps.v
theories/ConfsModel.v
theories/ConfsSpec.v
theories/ConfsProofs.v
theories/ConfsProps.v
theories/PprofModel.v
theories/PprofSpec.v
theories/PprofProofs.v
theories/PprofProps.v
theories/RsaModel.v
theories/RsaSpec.v
theories/RsaProofs.v
theories/RsaProps.v
theories/SkyModel.v
theories/SkySpec.v
theories/SkyProofs.v
theories/SkyProps.v
theories/JsonModel.v
theories/JsonSpec.v
theories/JsonProofs.v
theories/JsonEncode.v
theories/JsonProps.v
theories/JsonFloatModel.v
theories/JsonFloatSpec.v
theories/JsonFloatProofs.v
theories/JsonFloatText.v
theories/JsonFloatProps.v
theories/DurationModel.v
theories/DurationSpec.v
theories/DurationFloat.v
theories/DurationProofs.v
theories/DurationProps.v
theories/FlagValueModel.v
theories/FlagValueSpec.v
theories/FlagValueProofs.v
theories/FlagFloatProofs.v
theories/FlagValueProps.v
theories/UrlModel.v
theories/UrlSpec.v
theories/UrlProofs.v
theories/UrlProps.v
theories/StorePanicModel.v
theories/StorePanicSpec.v
theories/StorePanicProofs.v
theories/StorePanicProps.v
theories/StoreConcModel.v
theories/StoreConcSpec.v
theories/StoreConcProofs.v
theories/StoreConcFresh.v
theories/StoreConcWrites.v
theories/StoreConcProps.v
theories/StoreLinSpec.v
theories/StoreLinProofs.v
theories/StoreLinProps.v
theories/StoreAloneSpec.v
theories/StoreAloneProofs.v
theories/StoreAloneProps.v
theories/StoreRateSpec.v
theories/StoreRateProofs.v
theories/StoreRateProps.v
theories/MonitorModel.v
theories/MonitorSpec.v
theories/MonitorProofs.v
theories/MonitorRuns.v
theories/LimiterConcModel.v
theories/LimiterConcSpec.v
theories/LimiterConcProofs.v
theories/LimiterConcRates.v
theories/FixedConcRates.v
theories/LimiterConcProps.v
theories/StoreNoopSpec.v
theories/StoreNoopProofs.v
theories/StoreNoopProps.v
theories/SemaFairSpec.v
theories/SemaFairProofs.v
theories/SemaFairProps.v
theories/LimiterWaitSpec.v
theories/LimiterWaitProofs.v
theories/LimiterWaitProps.v
theories/StoreNestModel.v
theories/StoreNestSpec.v
theories/StoreNestProofs.v
theories/StoreNestBlocks.v
theories/StoreNestEndless.v
theories/StoreNestProps.v
theories/PersisterSpec.v
theories/PersisterProps.v
theories/TaskSysModel.v
theories/TaskSysSpec.v
theories/TaskSysProofs.v
theories/TaskSysLive.v
theories/TaskSysProps.v
theories/StoreCrashModel.v
theories/StoreCrashSpec.v
theories/StoreCrashProofs.v
theories/StoreCrashProps.v
theories/RedisScriptModel.v
theories/RedisScriptSpec.v
theories/RedisScriptProofs.v
theories/RedisScriptProps.v
theories/TestutilModel.v
theories/TestutilSpec.v
theories/TestutilProps.v
theories/MysqlDsnModel.v
theories/MysqlDsnSpec.v
theories/MysqlDsnProofs.v
theories/MysqlDsnProps.v
theories/PgDsnModel.v
theories/PgDsnSpec.v
theories/PgDsnProofs.v
theories/PgDsnProps.v
theories/SkyTraceModel.v
theories/SkyTraceSpec.v
theories/SkyTraceProofs.v
theories/SkyTraceProps.v
theories/YamlScalarModel.v
theories/YamlScalarSpec.v
theories/YamlScalarProofs.v
theories/YamlScalarProps.v
theories/YamlKeyModel.v
theories/YamlKeySpec.v
theories/YamlKeyProofs.v
theories/YamlKeyProps.v
theories/OraDsnModel.v
theories/OraDsnSpec.v
theories/OraDsnProofs.v
theories/OraDsnProps.v
theories/SqlPoolModel.v
theories/SqlPoolSpec.v
theories/SqlPoolProofs.v
theories/SqlPoolProps.v
theories/RedisPoolModel.v
theories/RedisPoolSpec.v
theories/RedisPoolProofs.v
theories/RedisPoolProps.v
theories/HttpPoolModel.v
theories/HttpPoolSpec.v
theories/HttpPoolProofs.v
theories/HttpPoolProps.v
