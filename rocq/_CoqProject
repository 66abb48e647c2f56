-Q theories Verif
theories/Base.v
theories/Codec.v
theories/Bits.v
theories/BitsFacts.v
theories/Schema.v
theories/Compiler.v
theories/Access.v
theories/CodecFacts.v
theories/SpecStruct.v
theories/StructFacts.v
theories/StructThms.v
theories/HistoryExact.v
theories/ViewThms.v
theories/ArrayThms.v
theories/NestedThms.v
theories/EnumThms.v
theories/BEThms.v
theories/BEExact.v
theories/LayoutExact.v
theories/Samples.v
theories/StructRefute.v
theories/NestedExact.v
theories/ArrayExact.v
theories/ViewExact.v
theories/Props_Struct.v
theories/SpecComp.v
theories/CompFacts.v
theories/CompThms.v
theories/ScopeThms.v
theories/ImportThms.v
theories/SamplesComp.v
theories/CompRefute.v
theories/Props_Comp.v
theories/Utf8.v
theories/SpecUtf8.v
theories/Utf8Thms.v
theories/Runtime.v
theories/Gen.v
theories/SpecWire.v
theories/MsgFacts.v
theories/WriteThms.v
theories/ReadThms.v
theories/SoundThms.v
theories/TotalThms.v
theories/SpecOffsets.v
theories/OffsetThms.v
theories/OffsetIter.v
theories/ListThms.v
theories/LengthExact.v
theories/ListMore.v
theories/Loader.v
theories/SpecRun.v
theories/LinkThms.v
theories/SpecUnion.v
theories/UnionThms.v
theories/SetDiscThms.v
theories/SpecReadable.v
theories/ReadableThms.v
theories/ItemThms.v
theories/ItemExact.v
theories/SamplesMsg.v
theories/MsgRefute.v
theories/Props_Msg.v
theories/Template.v
theories/SpecTemplate.v
theories/SpecTemplateAny.v
theories/TemplateThms.v
theories/TemplateErrors.v
theories/TemplateExact.v
theories/TemplateAny.v
theories/TemplateRefute.v
theories/Props_Template.v
theories/Driver.v
theories/SpecDriver.v
theories/DriverThms.v
theories/DriverRefute.v
theories/SpecLoader.v
theories/SpecApart.v
theories/LoaderThms.v
theories/LoaderSession.v
theories/Props_Driver.v
theories/Templates.v
theories/GenText.v
theories/SpecGen.v
theories/SpecCode.v
theories/GenThms.v
theories/GenMsgThms.v
theories/GenAllThms.v
theories/ShowThms.v
theories/RunThms.v
theories/GenRefute.v
theories/Props_Gen.v
theories/SpecCase.v
theories/CaseThms.v
theories/StackThms.v
theories/SpecItems.v
theories/ItemsThms.v
theories/ImportExact.v
theories/Props_Items.v
theories/BuildScript.v
theories/SpecBuild.v
theories/BuildThms.v
theories/BuildRefute.v
theories/Props_Build.v
theories/SpecFloats.v
theories/FloatFacts.v
theories/FloatThms.v
theories/FloatView.v
theories/FloatExact.v
theories/FloatDecl.v
theories/FloatMore.v
theories/FloatRefute.v
theories/FloatRange.v
theories/JsonFloat.v
theories/Props_Float.v
theories/Json.v
theories/SpecJson.v
theories/JsonThms.v
theories/JsonMore.v
theories/Props_Json.v
theories/TestJson.v
theories/TestProgram.v
theories/TestReplay.v
theories/CheckThms.v
theories/TestThms.v
theories/Props_Test.v
theories/Swift.v
theories/SpecSwift.v
theories/SwiftFacts.v
theories/SwiftThms.v
theories/SwiftExact.v
theories/SwiftMore.v
theories/SwiftCodec.v
theories/SwiftUnaligned.v
theories/SwiftRefute.v
theories/SwiftCut.v
theories/Props_Swift.v
theories/TestSwift.v
theories/SpecSwiftGen.v
theories/SwiftGenThms.v
theories/SwiftGetThms.v
theories/Props_SwiftGen.v
theories/SpecMode.v
theories/ModeThms.v
theories/Props_Mode.v
theories/SpecEvolve.v
theories/EvolveThms.v
theories/EvolveMore.v
theories/ApartThms.v
theories/ApartRefute.v
theories/SpecStream.v
theories/StreamThms.v
theories/Props_Stream.v
theories/SpecNames.v
theories/HygieneThms.v
theories/NamesThms.v
theories/NamesMore.v
theories/SamplesNames.v
theories/NamesRefute.v
theories/Props_Names.v
theories/SpecExact.v
theories/ExactThms.v
theories/SpecPanic.v
theories/PanicThms.v
theories/SpecAccept.v
theories/AcceptThms.v
theories/WidthExact.v
theories/Props_Accept.v
theories/SpecError.v
theories/ErrorThms.v
theories/Props_Error.v
theories/Props_Panic.v
theories/ReachThms.v
theories/Props_Exact.v
theories/SpecRename.v
theories/RenameThms.v
theories/SamplesRename.v
theories/Props_Rename.v
theories/SpecDecode.v
theories/DecodeThms.v
theories/Props_Decode.v
theories/SpecEncode.v
theories/EncodeThms.v
theories/SpecReencode.v
theories/ReencodeThms.v
theories/Props_Encode.v
theories/SpecIterate.v
theories/IterThms.v
theories/Props_Iterate.v
theories/SmallExact.v
theories/FinalThms.v
theories/OpenThms.v
theories/SpecSwallow.v
theories/SwallowThms.v
theories/SpecWalk.v
theories/WalkThms.v
theories/WalkApart.v
theories/SpecGenuine.v
theories/GenuineThms.v
theories/ReplaceThms.v
theories/SpecReplace.v
theories/ReplaceExact.v
theories/SamplesReplace.v
theories/Props_Evolve.v
theories/Props_Apart.v
theories/SpecPatch.v
theories/PatchThms.v
theories/SamplesPatch.v
theories/Props_Patch.v
theories/SpecGrow.v
theories/GrowThms.v
theories/GrowExact.v
theories/GrowWrite.v
theories/GrowComp.v
theories/GrowRun.v
theories/SamplesGrow.v
theories/Props_Grow.v
theories/SpecOrder.v
theories/OrderThms.v
theories/OrderComp.v
theories/OrderFacts.v
theories/OrderRun.v
theories/SamplesOrder.v
theories/Props_Order.v
theories/SpecLimit.v
theories/LimitComp.v
theories/LimitThms.v
theories/SamplesLimit.v
theories/Props_Limit.v
theories/SpecSteps.v
theories/StepsThms.v
theories/SamplesSteps.v
theories/Props_Steps.v
theories/SpecSplit.v
theories/SplitRun.v
theories/SamplesSplit.v
theories/Props_Split.v
theories/SpecGroup.v
theories/GroupThms.v
theories/GroupComp.v
theories/GroupRun.v
theories/SamplesGroup.v
theories/Props_Group.v
theories/SpecNest.v
theories/NestThms.v
theories/NestRun.v
theories/NestMain.v
theories/SamplesNest.v
theories/Props_Nest.v
theories/SpecUnroll.v
theories/UnrollThms.v
theories/UnrollMain.v
theories/SamplesUnroll.v
theories/Props_Unroll.v
theories/ErrorText.v
theories/SpecErrorText.v
theories/ErrorTextThms.v
theories/SamplesErrorText.v
theories/Props_ErrorText.v
theories/SpecFloatOrder.v
theories/FloatOrder.v
theories/FloatOrderView.v
theories/FloatFalling.v
theories/SamplesFloatOrder.v
theories/Props_FloatOrder.v
theories/SpecKind.v
theories/KindComp.v
theories/KindMsg.v
theories/KindThms.v
theories/KindRun.v
theories/SamplesKind.v
theories/Props_Kind.v
theories/SpecWrap.v
theories/WrapThms.v
theories/WrapRun.v
theories/SamplesWrap.v
theories/Props_Wrap.v
theories/ArrayWrapper.v
theories/SpecTable.v
theories/TableThms.v
theories/SamplesTable.v
theories/Props_Table.v
theories/Place.v
theories/SpecPlace.v
theories/PlaceThms.v
theories/PlacePatch.v
theories/PlaceExact.v
theories/SamplesPlace.v
theories/Props_Place.v
theories/Calls.v
theories/SpecCalls.v
theories/CallsThms.v
theories/SamplesCalls.v
theories/Props_Calls.v
theories/SwiftView.v
theories/SpecSwiftView.v
theories/SwiftViewThms.v
theories/SwiftArray.v
theories/SwiftChain.v
theories/SamplesSwiftView.v
theories/Props_SwiftView.v
