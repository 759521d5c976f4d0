-Q theories Verif
theories/Base.v
theories/BaseFacts.v
theories/Keys.v
theories/Dec.v
theories/SpecDec.v
theories/DecFacts.v
theories/Wire.v
theories/Read.v
theories/Enc.v
theories/EncSize.v
theories/Spec.v
theories/ReadFacts.v
theories/KeysFacts.v
theories/Lookup.v
theories/Buf.v
theories/BufFacts.v
theories/Canon.v
theories/HeapOps.v
theories/HeapFacts.v
theories/Nested.v
theories/NestedFacts.v
theories/IterFacts.v
theories/WireMore.v
theories/Demo.v
theories/PropsWire.v
theories/SpecOps.v
theories/HeapRun.v
theories/HistFacts.v
theories/InjectFacts.v
theories/PropsHeap.v
theories/Store.v
theories/StoreSpec.v
theories/StoreFacts.v
theories/StoreSteps.v
theories/StoreRun.v
theories/PropsStore.v
theories/ValidFacts.v
theories/ValidUse.v
theories/ValidEnc.v
theories/PropsValid.v
theories/Merge.v
theories/MergeFacts.v
theories/MergeEmit.v
theories/MergeTop.v
theories/MakeFacts.v
theories/PropsMerge.v
theories/StrView.v
theories/SpecStr.v
theories/StrViewFacts.v
theories/PropsStr.v
theories/Ordered.v
theories/OrderedFacts.v
theories/HeapStr.v
theories/HeapStrFacts.v
theories/PropsRepr.v
theories/SpecPacket.v
theories/Packet.v
theories/PacketFacts.v
theories/PacketRun.v
theories/PropsPacket.v
theories/SpecCmp.v
theories/Compare.v
theories/CompareFacts.v
theories/CompareBuf.v
theories/CompareGen.v
theories/PropsCompare.v
theories/SpecJson.v
theories/Json.v
theories/JsonFacts.v
theories/JsonLower.v
theories/JsonSame.v
theories/JsonWrite.v
theories/PropsJson.v
theories/SpecPtr.v
theories/Ptr.v
theories/PtrFacts.v
theories/PtrOps.v
theories/PtrSteps.v
theories/PtrEffect.v
theories/PropsPtr.v
theories/Threads.v
theories/PropsThreads.v
theories/SpecConv.v
theories/Float.v
theories/Conv.v
theories/ConvBase.v
theories/ConvRead.v
theories/ConvNum.v
theories/ConvStore.v
theories/ConvEmplace.v
theories/ConvBack.v
theories/ConvSelf.v
theories/ConvExact.v
theories/PropsConv.v
theories/SpecArith.v
theories/Round.v
theories/RoundOps.v
theories/FloatFacts.v
theories/Arith.v
theories/ArithSpec.v
theories/ArithFacts.v
theories/PropsArith.v
theories/Float32.v
theories/PropsRound.v
theories/SpecHas.v
theories/ConvPerm.v
theories/ConvHas.v
theories/PropsSets.v
theories/SpecWrap.v
theories/Wrap.v
theories/WrapFacts.v
theories/WrapTypes.v
theories/WrapRun.v
theories/PropsWrap.v
theories/SpecAbi.v
theories/Abi.v
theories/AbiRun.v
theories/PropsAbi.v
theories/SpecVa.v
theories/Va.v
theories/VaFacts.v
theories/PropsVa.v
theories/SpecIter.v
theories/Iter.v
theories/IterRun.v
theories/IterLoop.v
theories/PropsIter.v
theories/SpecYaml.v
theories/Yaml.v
theories/YamlNum.v
theories/YamlFacts.v
theories/YamlRun.v
theories/PropsYaml.v
theories/Cursor.v
theories/SpecCursor.v
theories/CursorFacts.v
theories/CursorRun.v
theories/PropsCursor.v
theories/Par.v
theories/SpecPar.v
theories/ParLog.v
theories/ParFacts.v
theories/ParWp.v
theories/ParCalls.v
theories/ParRun.v
theories/ParRace.v
theories/PropsPar.v
theories/SpecCost.v
theories/Cost.v
theories/CostFacts.v
theories/Bomb.v
theories/PropsCost.v
theories/Views.v
theories/SpecView.v
theories/ViewFrame.v
theories/ViewRun.v
theories/PropsView.v
theories/SpecBufHold.v
theories/BufHold.v
theories/BufHoldRun.v
theories/PropsBufHold.v
theories/SpecOpt.v
theories/Opt.v
theories/OptRun.v
theories/PropsOpt.v
theories/PropsPipe.v
theories/Depth.v
theories/PropsDepth.v
theories/SpecPackHold.v
theories/PackHold.v
theories/PackHoldFacts.v
theories/PackHoldKeep.v
theories/PackHoldRun.v
theories/PropsPackHold.v
theories/SpecHand.v
theories/Hand.v
theories/HandRun.v
theories/PropsHand.v
theories/SpecKeyed.v
theories/Keyed.v
theories/PropsKeyed.v
theories/SpecTrans.v
theories/Trans.v
theories/TransFacts.v
theories/PropsTrans.v
theories/SpecText.v
theories/Text.v
theories/TextRead.v
theories/TextWrite.v
theories/TextFacts.v
theories/PropsText.v
theories/Sajson.v
theories/PropsSajson.v
theories/SpecTime.v
theories/Time.v
theories/TimeFacts.v
theories/TimeText.v
theories/PropsTime.v
theories/Swap.v
theories/SpecSwap.v
theories/SwapFrame.v
theories/SwapFacts.v
theories/PropsSwap.v
theories/Span.v
theories/SpecSpan.v
theories/PropsSpan.v
theories/Deep.v
theories/SpecDeep.v
theories/DeepFacts.v
theories/DeepStore.v
theories/PropsDeep.v
theories/Order.v
theories/SpecOrder.v
theories/PropsOrder.v
theories/Maybe.v
theories/PropsMaybe.v
theories/Deeper.v
theories/SpecDeeper.v
theories/DeeperFacts.v
theories/PropsDeeper.v
theories/Fail.v
theories/SpecFail.v
theories/FailFacts.v
theories/PropsFail.v
theories/FailAt.v
theories/FailAtFacts.v
theories/PropsFailAt.v
theories/FailPut.v
theories/FailPutFacts.v
theories/PropsFailPut.v
