-Q theories Verif
theories/Model/Alias.v
theories/Model/Any.v
theories/Model/Balancer.v
theories/Model/Base.v
theories/Model/BinaryPkg.v
theories/Model/BitsPkg.v
theories/Model/Chain.v
theories/Model/ClawMod.v
theories/Model/ClawText.v
theories/Model/CliStream.v
theories/Model/Client.v
theories/Model/Compile.v
theories/Model/Compress.v
theories/Model/Creds.v
theories/Model/Dns.v
theories/Model/ErrText.v
theories/Model/Escape.v
theories/Model/Field.v
theories/Model/GitFetch.v
theories/Model/GoNames.v
theories/Model/GoReflect.v
theories/Model/GoReflectList.v
theories/Model/GoTypes.v
theories/Model/Header.v
theories/Model/Health.v
theories/Model/Hedge.v
theories/Model/HttpClient.v
theories/Model/HttpServer.v
theories/Model/Idl.v
theories/Model/Ingest.v
theories/Model/Json.v
theories/Model/JsonRead.v
theories/Model/Keepalive.v
theories/Model/ListHeap.v
theories/Model/Listener.v
theories/Model/Lists.v
theories/Model/MapApi.v
theories/Model/Mapping.v
theories/Model/Maps.v
theories/Model/Metadata.v
theories/Model/Methods.v
theories/Model/OpenCall.v
theories/Model/Otel.v
theories/Model/Pack.v
theories/Model/Packing.v
theories/Model/Patch.v
theories/Model/PatchLists.v
theories/Model/PatchMaps.v
theories/Model/PkgNames.v
theories/Model/Pool.v
theories/Model/PoolReg.v
theories/Model/Raw.v
theories/Model/RecvIter.v
theories/Model/Recycle.v
theories/Model/ReflectDescr.v
theories/Model/Reflection.v
theories/Model/Registry.v
theories/Model/Render.v
theories/Model/Retry.v
theories/Model/Scalar.v
theories/Model/Segment.v
theories/Model/ServerConn.v
theories/Model/ServerConns.v
theories/Model/ServiceConfig.v
theories/Model/SrvLimit.v
theories/Model/SrvSession.v
theories/Model/Stream.v
theories/Model/StreamRun.v
theories/Model/Struct.v
theories/Model/StructsList.v
theories/Model/SubConn.v
theories/Model/SyncClient.v
theories/Model/SyncSystem.v
theories/Model/Target.v
theories/Model/Token.v
theories/Model/TokenStream.v
theories/Model/Transport.v
theories/Model/Utf8.v
theories/Model/Validate.v
theories/Model/Vendor.v
theories/Model/VendorGet.v
theories/Model/Walk.v
theories/Spec/Align.v
theories/Spec/BinaryPkg.v
theories/Spec/ClawHand.v
theories/Spec/ClawMod.v
theories/Spec/ClawText.v
theories/Spec/CliStream.v
theories/Spec/ClientClose.v
theories/Spec/Compile.v
theories/Spec/Delivery.v
theories/Spec/Dns.v
theories/Spec/FMap.v
theories/Spec/GitFetch.v
theories/Spec/GoNames.v
theories/Spec/GoReflect.v
theories/Spec/GoReflectList.v
theories/Spec/GoTypes.v
theories/Spec/Health.v
theories/Spec/History.v
theories/Spec/HttpClient.v
theories/Spec/HttpServer.v
theories/Spec/Idl.v
theories/Spec/IdlText.v
theories/Spec/Ingest.v
theories/Spec/IsSet.v
theories/Spec/JsonGrammar.v
theories/Spec/JsonRead.v
theories/Spec/Keepalive.v
theories/Spec/ListEdits.v
theories/Spec/ListReach.v
theories/Spec/ListRecording.v
theories/Spec/Listener.v
theories/Spec/MapSpec.v
theories/Spec/Mapping.v
theories/Spec/Message.v
theories/Spec/Methods.v
theories/Spec/OnInput.v
theories/Spec/OpenCall.v
theories/Spec/Otel.v
theories/Spec/Packed.v
theories/Spec/Parse.v
theories/Spec/PatchLists.v
theories/Spec/Patches.v
theories/Spec/PkgNames.v
theories/Spec/Query.v
theories/Spec/Raw.v
theories/Spec/Reach.v
theories/Spec/Recording.v
theories/Spec/Recycle.v
theories/Spec/ReflectDescr.v
theories/Spec/Reflection.v
theories/Spec/Render.v
theories/Spec/ServerClose.v
theories/Spec/SrvLimit.v
theories/Spec/SrvSession.v
theories/Spec/Stream.v
theories/Spec/StreamSystem.v
theories/Spec/StructsList.v
theories/Spec/Text.v
theories/Spec/TokenGrammar.v
theories/Spec/Transport.v
theories/Spec/Values.v
theories/Spec/Vendor.v
theories/Spec/VendorFind.v
theories/Spec/Views.v
theories/Proofs/AliasProofs.v
theories/Proofs/BaseLemmas.v
theories/Proofs/BinaryPkg.v
theories/Proofs/BitsPkg.v
theories/Proofs/BuildLemmas.v
theories/Proofs/ClawErr.v
theories/Proofs/ClawHandProofs.v
theories/Proofs/ClawHandValues.v
theories/Proofs/ClawHandWords.v
theories/Proofs/ClawLine.v
theories/Proofs/ClawMod.v
theories/Proofs/ClawModText.v
theories/Proofs/ClawPad.v
theories/Proofs/ClawRound.v
theories/Proofs/ClawTotal.v
theories/Proofs/CliStream.v
theories/Proofs/ClientClose.v
theories/Proofs/ClientDelivery.v
theories/Proofs/ClientEnds.v
theories/Proofs/ClientOpens.v
theories/Proofs/ClientProofs.v
theories/Proofs/Compile.v
theories/Proofs/Demo.v
theories/Proofs/Dns.v
theories/Proofs/FMapLemmas.v
theories/Proofs/GetLemmas.v
theories/Proofs/GitFetch.v
theories/Proofs/GitRepo.v
theories/Proofs/GoNames.v
theories/Proofs/GoReflect.v
theories/Proofs/GoReflectList.v
theories/Proofs/GoTypes.v
theories/Proofs/HeaderLemmas.v
theories/Proofs/HealthProofs.v
theories/Proofs/HttpClient.v
theories/Proofs/HttpClientClose.v
theories/Proofs/HttpClientData.v
theories/Proofs/HttpClientMore.v
theories/Proofs/HttpClientWrite.v
theories/Proofs/HttpServer.v
theories/Proofs/IdlBase.v
theories/Proofs/IdlFinal.v
theories/Proofs/IdlSound.v
theories/Proofs/IdlText.v
theories/Proofs/IdlTextFile.v
theories/Proofs/IdlTextTypes.v
theories/Proofs/IdlTotal.v
theories/Proofs/IngestExt.v
theories/Proofs/IngestProofs.v
theories/Proofs/IngestTotal.v
theories/Proofs/IngestWhole.v
theories/Proofs/IsSetLemmas.v
theories/Proofs/JsonLexer.v
theories/Proofs/JsonLits.v
theories/Proofs/JsonProofs.v
theories/Proofs/JsonReadProofs.v
theories/Proofs/JsonRound.v
theories/Proofs/Keepalive.v
theories/Proofs/Layout.v
theories/Proofs/ListHeapProofs.v
theories/Proofs/ListReplay.v
theories/Proofs/Listener.v
theories/Proofs/ListenerMore.v
theories/Proofs/ListenerServer.v
theories/Proofs/MapCodec.v
theories/Proofs/MapLemmas.v
theories/Proofs/Mapping.v
theories/Proofs/Methods.v
theories/Proofs/NumList.v
theories/Proofs/OnInput.v
theories/Proofs/PackLemmas.v
theories/Proofs/PackWord.v
theories/Proofs/ParseLemmas.v
theories/Proofs/PatchAgree.v
theories/Proofs/PatchApply.v
theories/Proofs/PatchCodec.v
theories/Proofs/PatchDiff.v
theories/Proofs/PatchListDiff.v
theories/Proofs/PatchListFrame.v
theories/Proofs/PatchListItems.v
theories/Proofs/PatchListNums.v
theories/Proofs/PatchListProofs.v
theories/Proofs/PkgNames.v
theories/Proofs/QueryLemmas.v
theories/Proofs/RawProofs.v
theories/Proofs/ReachLemmas.v
theories/Proofs/RecordProofs.v
theories/Proofs/RecvIterProofs.v
theories/Proofs/Recycle.v
theories/Proofs/ReflectDescr.v
theories/Proofs/ReflectionProofs.v
theories/Proofs/RenderPar.v
theories/Proofs/RenderText.v
theories/Proofs/Rendering.v
theories/Proofs/RepLemmas.v
theories/Proofs/ReparseLemmas.v
theories/Proofs/SegmentLemmas.v
theories/Proofs/ServerClose.v
theories/Proofs/ServerConnProofs.v
theories/Proofs/ServerDelivery.v
theories/Proofs/SimLemmas.v
theories/Proofs/SimRun.v
theories/Proofs/SrvClose.v
theories/Proofs/SrvLimit.v
theories/Proofs/SrvSession.v
theories/Proofs/SrvStream.v
theories/Proofs/StreamSystem.v
theories/Proofs/StructsList.v
theories/Proofs/SyncClientProofs.v
theories/Proofs/SyncSystem.v
theories/Proofs/TailLemmas.v
theories/Proofs/TokenVals.v
theories/Proofs/Transport.v
theories/Proofs/TransportEnd.v
theories/Proofs/TransportProgress.v
theories/Proofs/UnpackLemmas.v
theories/Proofs/Utf8Proofs.v
theories/Proofs/ValuesProofs.v
theories/Proofs/Vendor.v
theories/Proofs/VendorFind.v
theories/Proofs/VendorGet.v
theories/Proofs/VendorRead.v
theories/Proofs/ViewProofs.v
theories/Proofs/WalkProofs.v
theories/Proofs/WalkRun.v
theories/Proofs/WireLemmas.v
theories/Properties/Alias.v
theories/Properties/Align.v
theories/Properties/AnyProps.v
theories/Properties/Balancer.v
theories/Properties/BinaryPkg.v
theories/Properties/BitsPkg.v
theories/Properties/Chain.v
theories/Properties/ClawHand.v
theories/Properties/ClawMod.v
theories/Properties/ClawText.v
theories/Properties/CliStream.v
theories/Properties/Client.v
theories/Properties/ClientClose.v
theories/Properties/ClientOpens.v
theories/Properties/Compile.v
theories/Properties/Compress.v
theories/Properties/Creds.v
theories/Properties/Dns.v
theories/Properties/ErrText.v
theories/Properties/Escape.v
theories/Properties/GitFetch.v
theories/Properties/GoNames.v
theories/Properties/GoReflect.v
theories/Properties/GoReflectList.v
theories/Properties/GoTypes.v
theories/Properties/Header.v
theories/Properties/Health.v
theories/Properties/Hedge.v
theories/Properties/HttpClient.v
theories/Properties/HttpServer.v
theories/Properties/Idl.v
theories/Properties/IdlText.v
theories/Properties/Ingest.v
theories/Properties/Json.v
theories/Properties/JsonRead.v
theories/Properties/Keepalive.v
theories/Properties/ListObjects.v
theories/Properties/ListProps.v
theories/Properties/ListRecording.v
theories/Properties/Listener.v
theories/Properties/Mapping.v
theories/Properties/Maps.v
theories/Properties/Metadata.v
theories/Properties/Methods.v
theories/Properties/OnInput.v
theories/Properties/OpenCall.v
theories/Properties/Otel.v
theories/Properties/Pack.v
theories/Properties/Packing.v
theories/Properties/Parse.v
theories/Properties/Patch.v
theories/Properties/PatchLists.v
theories/Properties/PatchMaps.v
theories/Properties/PatchRefuse.v
theories/Properties/PkgNames.v
theories/Properties/Pool.v
theories/Properties/PoolReg.v
theories/Properties/Raw.v
theories/Properties/Recording.v
theories/Properties/RecvIter.v
theories/Properties/Recycle.v
theories/Properties/ReflectDescr.v
theories/Properties/Reflection.v
theories/Properties/Registry.v
theories/Properties/Render.v
theories/Properties/Retry.v
theories/Properties/ServerClose.v
theories/Properties/ServerConn.v
theories/Properties/ServerConns.v
theories/Properties/ServiceConfig.v
theories/Properties/SrvLimit.v
theories/Properties/SrvSession.v
theories/Properties/Stream.v
theories/Properties/StreamRun.v
theories/Properties/StreamSystem.v
theories/Properties/StructProps.v
theories/Properties/StructsList.v
theories/Properties/SubConn.v
theories/Properties/SyncClient.v
theories/Properties/SyncSystem.v
theories/Properties/Target.v
theories/Properties/Tokens.v
theories/Properties/Transport.v
theories/Properties/Validate.v
theories/Properties/Vendor.v
theories/Properties/VendorGet.v
