-Q theories Verif
theories/Base.v
theories/OMap.v
theories/Json.v
theories/Types.v
theories/Util.v
theories/Db.v
theories/Mem.v
theories/Rdb.v
theories/Spec.v
theories/QueryFacts.v
theories/JsonFacts.v
theories/UtilFacts.v
theories/SpecFacts.v
theories/QueryTrust.v
theories/MemFacts.v
theories/MemRefine.v
theories/MemHist.v
theories/KeyFacts.v
theories/RdbRep.v
theories/RdbSpec.v
theories/RdbWrite.v
theories/RdbPut.v
theories/RdbRefine.v
theories/RdbGraph.v
theories/RdbHist.v
theories/RdbCrash.v
theories/Stages.v
theories/Effects.v
theories/Claims.v
theories/PropsMem.v
theories/Examples.v
theories/PropsMemIndex.v
theories/PropsRdb.v
theories/PropsQuery.v
theories/Nav.v
theories/PropsNav.v
theories/PropsRdbIndex.v
theories/PropsCases.v
theories/Utf8.v
theories/JsonOrder.v
theories/PropsData.v
theories/MsgPack.v
theories/Image.v
theories/MemSame.v
theories/Persist.v
theories/PropsPersist.v
theories/Agree.v
theories/PropsAgree.v
theories/Proto.v
theories/ProtoFacts.v
theories/Wire.v
theories/WireFacts.v
theories/Server.v
theories/Transport.v
theories/Cli.v
theories/Clean.v
theories/PropsProto.v
theories/JsonText.v
theories/PropsText.v
theories/Plugin.v
theories/PropsPlugin.v
theories/Conc.v
theories/Killable.v
theories/RdbProg.v
theories/RdbAlone.v
theories/RdbConc.v
theories/RdbLive.v
theories/RdbConcInv.v
theories/RdbCalm.v
theories/RdbSerial.v
theories/RdbSched.v
theories/Foot.v
theories/RdbFoot.v
theories/RdbApart.v
theories/PropsConc.v
theories/PropsCli.v
theories/TextUtf8.v
theories/PropsWire.v
theories/PluginProg.v
theories/PropsServer.v
theories/PropsClients.v
theories/Deploy.v
theories/PropsDeploy.v
theories/DeployPlugins.v
theories/PropsDeployPlugins.v
theories/PropsOutage.v
theories/RdbDoom.v
theories/PropsOutageRdb.v
theories/PropsOutageServer.v
theories/UuidV1.v
theories/PropsFresh.v
theories/PropsPaging.v
theories/PropsRepeatRead.v
theories/PropsRepeatWrite.v
theories/JsonGrammar.v
theories/PropsGrammar.v
theories/PropsFaultConc.v
theories/Builders.v
theories/PropsBuilders.v
theories/PropsAlgebra.v
theories/Schema.v
theories/SchemaFacts.v
theories/SchemaMessages.v
theories/Service.v
theories/PropsSchema.v
theories/PropsMeaning.v
theories/Retry.v
theories/PropsRetry.v
theories/RdbCommute.v
theories/SpecFoot.v
theories/MemFoot.v
theories/PropsCommute.v
theories/RdbFault.v
theories/RdbFaultFacts.v
theories/RdbFaultStep.v
theories/PropsFault.v
theories/F64.v
theories/FloatText.v
theories/FloatFacts.v
theories/FloatClose.v
theories/FloatTotal.v
theories/FloatValues.v
theories/FloatAny.v
theories/PropsFloat.v
theories/PropsShort.v
theories/PropsIeee.v
theories/Damage.v
theories/PropsDamage.v
theories/ServerConc.v
theories/PropsServerConc.v
theories/Startup.v
theories/PropsStartup.v
theories/PropsStarted.v
theories/Errors.v
theories/PropsErrors.v
