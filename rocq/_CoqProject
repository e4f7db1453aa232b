-Q theories Verif
theories/Bits.v
theories/Varint.v
theories/VarintSpec.v
theories/VarintProofs.v
theories/VarintFacts.v
theories/VarintMain.v
theories/PropertiesVarint.v
theories/Schema.v
theories/PackedCount.v
theories/Archive.v
theories/Decode.v
theories/DecodeSafe.v
theories/Encode.v
theories/Wire.v
theories/WireFacts.v
theories/DecodeSpec1.v
theories/DecodeSpec2.v
theories/DecodeSpec3.v
theories/DecodeSpec4.v
theories/DecodeLaws.v
theories/DecodeLaws2.v
theories/FieldSpec.v
theories/DecodeOcc.v
theories/WireGrammar.v
theories/GrammarFacts.v
theories/DecodeTerms.v
theories/DecodeMain.v
theories/DepthLaws.v
theories/DepthMain.v
theories/WellTyped.v
theories/DecodeWt.v
theories/DecodeMain2.v
theories/PackedMain.v
theories/StoredTags.v
theories/DecodeMain3.v
theories/ExampleSchema.v
theories/PropertiesDecode.v
theories/PropertiesPacked.v
theories/Utf8Spec.v
theories/Utf8Proofs.v
theories/Utf8Main.v
theories/PropertiesUtf8.v
theories/EncodeSpec.v
theories/EncodeProofs.v
theories/EncodeProofs2.v
theories/RoundTrip.v
theories/RoundTrip2.v
theories/EncodeMain.v
theories/Reencode.v
theories/Presence.v
theories/EncodeMain2.v
theories/ExampleMessage.v
theories/PropertiesEncode.v
theories/FlatMap.v
theories/FlatMapProofs.v
theories/FlatMapSort.v
theories/FlatMapMain.v
theories/PropertiesFlatMap.v
theories/Base64.v
theories/Base64Proofs.v
theories/TextNum.v
theories/Duration.v
theories/DurationProofs.v
theories/Calendar.v
theories/CalendarProofs.v
theories/Timestamp.v
theories/TimestampProofs.v
theories/FieldMask.v
theories/FieldMaskProofs.v
theories/PropertiesJson.v
theories/Dispatch.v
theories/DispatchProofs.v
theories/PropertiesDispatch.v
theories/Arena.v
theories/ArenaProofs.v
theories/ArenaMain.v
theories/ArenaCapture.v
theories/PropertiesArena.v
theories/Optional.v
theories/OptionalProofs.v
theories/PropertiesOptional.v
theories/Merge.v
theories/MergeProofs.v
theories/MergeSpec.v
theories/MergeLaws.v
theories/MergeMain.v
theories/MergeRun.v
theories/PropertiesMerge.v
theories/Kahn.v
theories/KahnSpec.v
theories/KahnProofs.v
theories/Pool.v
theories/PoolSpec.v
theories/PoolProofs.v
theories/PoolProofs2.v
theories/PoolMain.v
theories/PoolAttrs.v
theories/PropertiesPool.v
theories/Output.v
theories/OutputSpec.v
theories/OutputProofs.v
theories/PropertiesOutput.v
theories/CppText.v
theories/CppSpec.v
theories/CppProofs.v
theories/CppNames.v
theories/CppNumbers.v
theories/PropertiesCpp.v
theories/AnyExt.v
theories/AnyExtMain.v
theories/ExampleExt.v
theories/PropertiesAny.v
theories/DynSlots.v
theories/DynSlotsProofs.v
theories/Dyn.v
theories/DynMain.v
theories/DynClone.v
theories/PropertiesDyn.v
theories/SimLaws.v
theories/SimSkip.v
theories/SimValue.v
theories/SimRepeated.v
theories/SimField.v
theories/SimMain.v
theories/Region.v
theories/RegionInv.v
theories/RegionLaws1.v
theories/RegionLaws2.v
theories/RegionLaws3.v
theories/RegionMain.v
theories/ExampleRegion.v
theories/RegionProps.v
theories/PropertiesRegion.v
theories/DynWire.v
theories/DynView.v
theories/DynEncode1.v
theories/DynEncode2.v
theories/DynEncode3.v
theories/DynEncode4.v
theories/DynWireEx.v
theories/DynEncode5.v
theories/PropertiesDynWire.v
theories/DynDecode.v
theories/DynDecode1.v
theories/DynAgree.v
theories/DynDecode2.v
theories/DynDecode3.v
theories/DynDecode4.v
theories/DynRelay.v
theories/DynDecodeEx.v
theories/PropertiesDynDecode.v
theories/Gen.v
theories/GenSpec.v
theories/GenBase.v
theories/GenDeps.v
theories/GenOrder.v
theories/GenLevel.v
theories/GenEmit.v
theories/GenFacts.v
theories/GenLaws.v
theories/GenNames.v
theories/GenCheck.v
theories/GenEx.v
theories/PropertiesGen.v
theories/GenMeta.v
theories/GenMetaSpec.v
theories/GenMetaProofs.v
theories/GenLink.v
theories/GenMetaEx.v
theories/GenMetaRefuted.v
theories/GenEnum.v
theories/Defaults.v
theories/PropertiesMeta.v
theories/DynJson.v
theories/DynJsonSpec.v
theories/DynJson1.v
theories/DynJson2.v
theories/DynJson3.v
theories/DynJson4.v
theories/DynJson5.v
theories/DynJsonTree.v
theories/DynJson6.v
theories/DynJsonSafe.v
theories/DynJson7.v
theories/DynJsonEx.v
theories/DynJsonBad.v
theories/PropertiesDynJson.v
theories/DynConvert.v
theories/DynConvert1.v
theories/DynConvert2.v
theories/DynConvert3.v
theories/DynConvert4.v
theories/DynConvertEx.v
theories/PropertiesDynConvert.v
theories/GenNameCheck.v
theories/GenNameProofs.v
theories/GenNamePaths.v
theories/GenNameEx.v
theories/PropertiesNames.v
theories/GenJson.v
theories/GenJsonSpec.v
theories/GenJson1.v
theories/GenJson2.v
theories/GenJsonSafe.v
theories/GenJsonWrite.v
theories/GenJsonTree.v
theories/GenJson3.v
theories/GenJson4.v
theories/GenJsonEx.v
theories/PropertiesGenJson.v
theories/Indirect.v
theories/IndirectSpec.v
theories/IndirectProof.v
theories/IndirectProof2.v
theories/IndirectProof3.v
theories/IndirectProof4.v
theories/PropertiesIndirect.v
theories/DynRepeated.v
theories/DynRepeatedSpec.v
theories/DynRepeatedProof.v
theories/PropertiesDynRepeated.v
theories/JsonAgreeSpec.v
theories/JsonAgree1.v
theories/JsonAgree2.v
theories/JsonAgree3.v
theories/JsonAgree4.v
theories/JsonAgree5.v
theories/JsonAgreeEx.v
theories/PropertiesJsonAgree.v
theories/PluginOptions.v
theories/PluginOptionsSpec.v
theories/PluginOptionsProof.v
theories/PropertiesPluginOptions.v
theories/DynAny.v
theories/DynAnySpec.v
theories/DynAny1.v
theories/DynAny2.v
theories/DynAnySafe.v
theories/DynAny3.v
theories/DynAnyEx.v
theories/DynAnyEx2.v
theories/PropertiesDynAny.v
theories/GenAny.v
theories/GenAnySpec.v
theories/GenAny1.v
theories/GenAnyEx.v
theories/PropertiesGenAny.v
theories/Grpc.v
theories/GrpcSpec.v
theories/Grpc1.v
theories/Grpc2.v
theories/GrpcEx.v
theories/PropertiesGrpc.v
theories/DynOpt.v
theories/DynOptSpec.v
theories/DynOpt1.v
theories/DynOpt2.v
theories/DynOpt3.v
theories/DynOpt4.v
theories/DynOptEx.v
theories/PropertiesDynOpt.v
theories/GrpcClient.v
theories/GrpcClientSpec.v
theories/GrpcClient1.v
theories/GrpcClient2.v
theories/GrpcClientEx.v
theories/PropertiesGrpcClient.v
theories/GenService.v
theories/GenServiceSpec.v
theories/GenService1.v
theories/PropertiesService.v
theories/GrpcBlocking.v
theories/GrpcBlocking1.v
theories/PropertiesBlocking.v
theories/DynAccess.v
theories/DynAccessSpec.v
theories/DynAccess1.v
theories/DynAccess2.v
theories/DynAccess3.v
theories/PropertiesAccess.v
theories/Factory.v
theories/FactorySpec.v
theories/Factory1.v
theories/Factory2.v
theories/Factory3.v
theories/Factory4.v
theories/FactoryEx.v
theories/PropertiesFactory.v
theories/FactoryJson.v
theories/FactoryJsonSpec.v
theories/Factory5.v
theories/Factory6.v
theories/FactoryJsonEx.v
theories/PropertiesFactoryJson.v
theories/GenDesc.v
theories/GenDescSpec.v
theories/GenDesc1.v
theories/GenDesc2.v
theories/GenDesc3.v
theories/GenDescEx.v
theories/PropertiesGenDesc.v
theories/Factory7.v
theories/FactoryAnyEx.v
theories/PropertiesFactoryAny.v
theories/FactoryAccess.v
theories/FactoryAccessSpec.v
theories/Factory8.v
theories/PropertiesFactoryAccess.v
theories/DynOneof.v
theories/DynOneofSpec.v
theories/DynOneof1.v
theories/DynOneof2.v
theories/PropertiesDynOneof.v
theories/RawPacked.v
theories/RawPackedSpec.v
theories/RawPacked1.v
theories/PropertiesRawPacked.v
theories/RefIter.v
theories/RefIterSpec.v
theories/RefIter1.v
theories/PropertiesRefIter.v
theories/CharArray.v
theories/CharArraySpec.v
theories/CharArray1.v
theories/PropertiesCharArray.v
theories/DynModify.v
theories/DynModifySpec.v
theories/DynModify1.v
theories/PropertiesDynModify.v
