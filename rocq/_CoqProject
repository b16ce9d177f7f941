-Q theories Verif
theories/SyncWriterModel.v
theories/SyncWriterSpec.v
theories/SyncWriterProofs.v
theories/SyncWriterLog.v
theories/SyncWriterExtra.v
theories/SyncWriterMain.v
theories/SyncWriterProps.v
theories/SyncDataModel.v
theories/SyncDataSpec.v
theories/SyncAbsSquash.v
theories/SyncSquashProofs.v
theories/SyncHistory.v
theories/SyncAbsMerge.v
theories/SyncMergeProofs.v
theories/SyncMergeMain.v
theories/SyncApplyProofs.v
theories/SyncPruneProofs.v
theories/SyncFlushProofs.v
theories/SyncFrameProofs.v
theories/SyncDataMain.v
theories/SyncResquash.v
theories/SyncDataProps.v
theories/CacheModel.v
theories/CacheSpec.v
theories/CacheProofs.v
theories/CacheProps.v
theories/WriteModel.v
theories/WriteSpec.v
theories/WriteProofs.v
theories/WriteProps.v
theories/LakeModel.v
theories/LakeSpec.v
theories/LakeProofs.v
theories/LakeProps.v
theories/HttpModel.v
theories/HttpSpec.v
theories/HttpProofs.v
theories/HttpProps.v
theories/CatalogModel.v
theories/CatalogSpec.v
theories/CatalogProofs.v
theories/CatalogEffects.v
theories/CatalogProps.v
theories/DdlModel.v
theories/DdlSpec.v
theories/DdlProofs.v
theories/DdlEffects.v
theories/DdlProps.v
theories/SqlModel.v
theories/SqlSpec.v
theories/SqlProofs.v
theories/SqlClauses.v
theories/SqlPlans.v
theories/SqlProps.v
theories/TypesModel.v
theories/TypesSpec.v
theories/TypesProps.v
theories/TravelModel.v
theories/TravelSpec.v
theories/TravelProofs.v
theories/TravelProps.v
theories/PushModel.v
theories/PushSpec.v
theories/PushProofs.v
theories/PushParse.v
theories/PushProps.v
theories/UdfModel.v
theories/UdfSpec.v
theories/UdfProofs.v
theories/UdfProps.v
theories/UdfBatch.v
theories/ConfigModel.v
theories/ConfigSpec.v
theories/ConfigProps.v
theories/PoolModel.v
theories/PoolSpec.v
theories/PoolProps.v
theories/StoreModel.v
theories/StoreSpec.v
theories/StoreProps.v
theories/FunModel.v
theories/FunSpec.v
theories/FunProps.v
theories/RemoteModel.v
theories/RemoteSpec.v
theories/RemoteProofs.v
theories/RemoteText.v
theories/RemoteProps.v
theories/OptsModel.v
theories/OptsSpec.v
theories/OptsProofs.v
theories/OptsProps.v
theories/LocModel.v
theories/LocSpec.v
theories/LocProofs.v
theories/LocProps.v
theories/MetaModel.v
theories/MetaSpec.v
theories/MetaProps.v
theories/CliModel.v
theories/CliSpec.v
theories/CliProps.v
theories/BootModel.v
theories/BootSpec.v
theories/BootProps.v
theories/BootAccept.v
theories/RespModel.v
theories/RespSpec.v
theories/RespProps.v
theories/UploadModel.v
theories/UploadSpec.v
theories/UploadProps.v
theories/ExtModel.v
theories/ExtSpec.v
theories/ExtProps.v
theories/PipeModel.v
theories/PipeSpec.v
theories/PipeProofs.v
theories/PipeProps.v
theories/GaugeModel.v
theories/GaugeSpec.v
theories/GaugeProofs.v
theories/GaugeProps.v
theories/FetchModel.v
theories/FetchSpec.v
theories/FetchProofs.v
theories/FetchProps.v
theories/ColsModel.v
theories/ColsSpec.v
theories/ColsProofs.v
theories/ColsProps.v
theories/CountModel.v
theories/CountSpec.v
theories/CountProps.v
theories/SysModel.v
theories/SysSpec.v
theories/SysProps.v
theories/CtasModel.v
theories/CtasSpec.v
theories/CtasProps.v
theories/DmlModel.v
theories/DmlSpec.v
theories/DmlProps.v
theories/IceModel.v
theories/IceSpec.v
theories/IceProps.v
theories/ConcModel.v
theories/ConcSpec.v
theories/ConcProofs.v
theories/ConcProps.v
theories/SnapModel.v
theories/SnapSpec.v
theories/SnapProps.v
theories/VacModel.v
theories/VacSpec.v
theories/VacProofs.v
theories/VacProps.v
theories/MigModel.v
theories/MigSpec.v
theories/MigProofs.v
theories/MigProps.v
theories/MoveModel.v
theories/MoveSpec.v
theories/MoveProps.v
theories/ScanModel.v
theories/ScanSpec.v
theories/ScanProps.v
theories/StopModel.v
theories/StopSpec.v
theories/StopProps.v
theories/PushTests.v
theories/SyncWriterTests.v
theories/SyncDataTests.v
theories/Sha256.v
theories/HttpTests.v
theories/CacheTests.v
theories/CatalogTests.v
theories/LocTests.v
theories/TravelTests.v
theories/WriteTests.v
theories/PgModel.v
theories/PgSpec.v
theories/PgProps.v
theories/FlightSyncTests.v
theories/VacTests.v
theories/DdlTests.v
theories/DmlTests.v
theories/TimeModel.v
theories/TimeSpec.v
theories/TimeProofs.v
theories/TimeProps.v
theories/TimeTests.v
theories/OptsTests.v
theories/IceTests.v
theories/BootTests.v
theories/PoolTests.v
theories/UdfTests.v
theories/MetaTests.v
theories/UdfWireSpec.v
theories/UdfWireProofs.v
theories/UdfWireProps.v
theories/MeterModel.v
theories/MeterSpec.v
theories/MeterProofs.v
theories/MeterProps.v
theories/MeterTests.v
theories/LimitModel.v
theories/LimitSpec.v
theories/LimitProps.v
theories/SweepModel.v
theories/SweepSpec.v
theories/SweepProps.v
theories/CdnModel.v
theories/CdnSpec.v
theories/CdnProps.v
theories/UsageModel.v
theories/UsageSpec.v
theories/UsageProps.v
theories/PageModel.v
theories/PageSpec.v
theories/PageProps.v
theories/CtypeModel.v
theories/CtypeSpec.v
theories/CtypeProps.v
