-Q theories Verif
theories/Base.v
theories/Scalar.v
theories/Value.v
theories/Laws.v
theories/SpecValue.v
theories/ValueProofs.v
theories/PropsValue.v
theories/Types.v
theories/Obj.v
theories/Duration.v
theories/DurationProofs.v
theories/View.v
theories/Reflect.v
theories/Typing.v
theories/Lists.v
theories/BMap.v
theories/ViewFacts.v
theories/ObjFacts.v
theories/FromReflect.v
theories/SpecErase.v
theories/RoundTrip.v
theories/Check.v
theories/Demo.v
theories/PropsErase.v
theories/Copy.v
theories/PropsCopy.v
theories/SpecPatch.v
theories/Plan.v
theories/PatchTyped.v
theories/PatchSpec.v
theories/PatchMap.v
theories/PatchEnum.v
theories/SpecSelf.v
theories/SelfPatch.v
theories/ValuePatch.v
theories/Idem.v
theories/IdemWord.v
theories/PropsPatch.v
theories/Coherent.v
theories/SpecEq.v
theories/EqFacts.v
theories/EqLaws.v
theories/EqValues.v
theories/EqErase.v
theories/EqCheck.v
theories/PropsEq.v
theories/PropsView.v
theories/KeyPath.v
theories/PathFacts.v
theories/SpecPath.v
theories/PathSpec.v
theories/ShowFacts.v
theories/PropsPath.v
theories/Collections.v
theories/SpecColl.v
theories/CollFacts.v
theories/BuildFacts.v
theories/PropsColl.v
theories/TypeGraph.v
theories/TypeInfo.v
theories/SpecType.v
theories/GraphFacts.v
theories/GraphTerm.v
theories/DescribeFacts.v
theories/GraphCheck.v
theories/PropsGraph.v
theories/SpecDefault.v
theories/DefaultFacts.v
theories/DefaultBuild.v
theories/PropsDefault.v
theories/TypePath.v
theories/SpecTypePath.v
theories/TypePathFacts.v
theories/PropsTypePath.v
theories/TryVisit.v
theories/SpecVisit.v
theories/VisitFacts.v
theories/PropsVisit.v
theories/Cache.v
theories/SpecCache.v
theories/CacheFacts.v
theories/PropsCache.v
theories/Names.v
theories/SpecNames.v
theories/NamesFacts.v
theories/NamesParse.v
theories/PropsNames.v
theories/SpecPanic.v
theories/PanicFacts.v
theories/PropsPanic.v
theories/SpecOrdinary.v
theories/Ordinary.v
theories/PropsOrdinary.v
theories/Descriptor.v
theories/DescriptorFacts.v
theories/PropsDescriptor.v
theories/Owned.v
theories/SpecOwned.v
theories/OwnedFacts.v
theories/PropsOwned.v
theories/DefaultAt.v
theories/SpecDefaultAt.v
theories/DefaultAtFacts.v
theories/PropsDefaultAt.v
theories/FieldMut.v
theories/FieldMutFacts.v
theories/PropsFieldMut.v
theories/PrettyPrint.v
theories/SpecPretty.v
theories/PrettyFacts.v
theories/PropsPretty.v
theories/Debug.v
theories/SpecDebug.v
theories/DebugFacts.v
theories/PropsDebug.v
theories/Convert.v
theories/SpecConvert.v
theories/ConvertFacts.v
theories/PropsConvert.v
theories/MacroPath.v
theories/SpecMacro.v
theories/MacroFacts.v
theories/PropsMacro.v
theories/Capture.v
theories/SpecCapture.v
theories/CaptureFacts.v
theories/PropsCapture.v
theories/Attrs.v
theories/SpecAttrs.v
theories/AttrsFacts.v
theories/PropsAttrs.v
theories/Wire.v
theories/SpecWire.v
theories/WireFacts.v
theories/WireRead.v
theories/WireBytes.v
theories/WireBuild.v
theories/PropsWire.v
theories/SpecCompose.v
theories/Compose.v
theories/ComposeLaws.v
theories/PropsCompose.v
theories/SpecRead.v
theories/ReadSpec.v
theories/PropsRead.v
theories/SpecAgree.v
theories/PatchAgree.v
theories/PropsAgree.v
theories/Edit.v
theories/SpecEdit.v
theories/EditFacts.v
theories/PropsEdit.v
theories/SpecEvolve.v
theories/EvolveFacts.v
theories/EvolveSound.v
theories/EvolveExact.v
theories/EvolveCheck.v
theories/EvolveTrans.v
theories/EvoDemo.v
theories/PropsEvolve.v
theories/SpecSame.v
theories/SameFacts.v
theories/PathApi.v
theories/SpecPathApi.v
theories/PathApiFacts.v
theories/SameDemo.v
theories/PropsSame.v
theories/PropsPathApi.v
theories/Unwind.v
theories/SpecUnwind.v
theories/UnwindFacts.v
theories/UnwindStop.v
theories/UnwindExact.v
theories/UnwindRun.v
theories/PropsUnwind.v
theories/SpecFits.v
theories/FitsFacts.v
theories/FitsCheck.v
theories/PropsFits.v
theories/Shipped.v
theories/SpecShipped.v
theories/ShippedFacts.v
theories/ShippedDemo.v
theories/PropsShipped.v
theories/DescHash.v
theories/SpecKey.v
theories/KeyFacts.v
theories/DescHashFacts.v
theories/SameDesc.v
theories/PropsKey.v
theories/TestEnv.v
theories/RepoTests.v
theories/RepoTests2.v
theories/SpecOrder.v
theories/OrderFacts.v
theories/FloatFacts.v
theories/SpecDuration.v
theories/DurationFacts.v
theories/DurationExact.v
theories/PropsDuration.v
theories/SpecRemote.v
theories/RemoteFacts.v
theories/RemoteMaps.v
theories/RemoteHop.v
theories/RemotePath.v
theories/RemoteEdit.v
theories/RemoteReplace.v
theories/RemoteRun.v
theories/PropsRemote.v
theories/Serde.v
theories/SpecSerde.v
theories/SerdeFacts.v
theories/SerdeMore.v
theories/SerdeDesc.v
theories/SerdeOrder.v
theories/SerdeReorder.v
theories/SerdeJson.v
theories/PropsSerde.v
theories/MacroLit.v
theories/SpecIntact.v
theories/IntactFacts.v
theories/IntactDefault.v
theories/IntactPrint.v
theories/PropsIntact.v
theories/SpecDocument.v
theories/DocumentFacts.v
theories/DocumentSorted.v
theories/PropsDocument.v
theories/SpecOpen.v
theories/OpenFacts.v
theories/PropsOpen.v
theories/OpenDesc.v
theories/SpecOverlay.v
theories/OverlayFacts.v
theories/OverlayRun.v
theories/PropsOverlay.v
theories/SpecClient.v
theories/ClientFacts.v
theories/ClientRun.v
theories/ClientBuilt.v
theories/PropsClient.v
theories/SpecMirror.v
theories/MirrorFacts.v
theories/PropsMirror.v
theories/SpecFill.v
theories/FillFacts.v
theories/PropsFill.v
theories/SpecServe.v
theories/ServeFacts.v
theories/ServeBuilt.v
theories/ServeCheck.v
theories/PropsServe.v
theories/SpecImage.v
theories/ImageFacts.v
theories/PropsImage.v
theories/SpecReach.v
theories/ReachFacts.v
theories/ReachDemo.v
theories/PropsReach.v
theories/SpecAttain.v
theories/AttainFacts.v
theories/PropsAttain.v
theories/SpecFuse.v
theories/FuseFacts.v
theories/PropsFuse.v
theories/SpecUndo.v
theories/UndoFacts.v
theories/PropsUndo.v
theories/SpecDiff.v
theories/DiffFacts.v
theories/PropsDiff.v
theories/MergeFacts.v
theories/PropsMerge.v
theories/SpecFocus.v
theories/FocusFacts.v
theories/PropsFocus.v
theories/TotalFacts.v
theories/SpecSend.v
theories/PropsSend.v
