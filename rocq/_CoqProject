-Q theories Verif
theories/Machine.v
theories/Io.v
theories/Types.v
theories/Build.v
theories/Read.v
theories/Write.v
theories/Check.v
theories/Compare.v
theories/Print.v
theories/Search.v
theories/Iff.v
theories/Main.v
theories/LineSpec.v
theories/MainProofs.v
theories/Spec.v
theories/Lemmas.v
theories/IoProofs.v
theories/RegProofs.v
theories/WriteProofs.v
theories/EncodeProofs.v
theories/Grammar.v
theories/ReadProofs.v
theories/DetProofs.v
theories/SoundProofs.v
theories/RoundProofs.v
theories/ApiProofs.v
theories/PrimProofs.v
theories/Examples.v
theories/PropIo.v
theories/IdProofs.v
theories/TestExt.v
theories/PropId.v
theories/PropRegistry.v
theories/TermProofs.v
theories/FileProofs.v
theories/PropRead.v
theories/CanonProofs.v
theories/LoudProofs.v
theories/PropWrite.v
theories/CheckProofs.v
theories/CompareProofs.v
theories/ConfProofs.v
theories/BuiltProofs.v
theories/PropCheck.v
theories/PropCompare.v
theories/UpdateProofs.v
theories/PropSearch.v
theories/PropBuild.v
theories/PropCreate.v
theories/PrintProofs.v
theories/PropPrint.v
theories/HostProofs.v
theories/PropHost.v
theories/PropTools.v
theories/PropMain.v
theories/PropFields.v
theories/StrictProofs.v
theories/PropStrict.v
theories/Heap.v
theories/HeapSpec.v
theories/HeapProofs.v
theories/HeapBuildProofs.v
theories/HeapReadProofs.v
theories/HeapAddProofs.v
theories/HeapReachProofs.v
theories/HeapPathProofs.v
theories/HeapSearch.v
theories/HeapUpdateProofs.v
theories/HeapLookupProofs.v
theories/HeapFormsProofs.v
theories/HeapPass.v
theories/HeapPassProofs.v
theories/HeapPureProofs.v
theories/HeapTools.v
theories/HeapToolsProofs.v
theories/PropHeap.v
theories/PropHeapTools.v
theories/PropHeapSearch.v
theories/HeapClient.v
theories/HeapClientProofs.v
theories/PropHeapClient.v
theories/MemoryProofs.v
theories/PropMemory.v
theories/Suite.v
theories/Stack.v
theories/StackProofs.v
theories/PropStack.v
theories/UseSpec.v
theories/UseProofs.v
theories/PropUse.v
theories/AllocSpec.v
theories/AllocProofs.v
theories/HeapAllocProofs.v
theories/PropAlloc.v
theories/Ext.v
theories/ExtSpec.v
theories/ExtReadProofs.v
theories/ExtProofs.v
theories/ExtFields.v
theories/ExtFieldsProofs.v
theories/ExtRegProofs.v
theories/ExtAgree.v
theories/ExtSafeProofs.v
theories/ExtUseProofs.v
theories/PropExt.v
theories/PropExtSafe.v
theories/HeapExt.v
theories/HeapExtSpec.v
theories/HeapExtApps.v
theories/HeapExtPass.v
theories/HeapExtProofs.v
theories/HeapExtReadProofs.v
theories/HeapExtAppsProofs.v
theories/PropHeapExt.v
theories/HeapExtPassProofs.v
theories/HeapExtPassAppsProofs.v
theories/PropHeapExtPass.v
theories/HeapViewSpec.v
theories/HeapViewProofs.v
theories/HeapViewReadProofs.v
theories/HeapViewPassProofs.v
theories/HeapViewApps.v
theories/HeapViewAppsProofs.v
theories/PropHeapView.v
theories/DiagSpec.v
theories/DiagProofs.v
theories/PropDiag.v
theories/CutProofs.v
theories/PropCut.v
theories/PartSpec.v
theories/PartProofs.v
theories/PropPart.v
theories/PipeSpec.v
theories/PipeProofs.v
theories/PropPipe.v
theories/Process.v
theories/PropProcess.v
theories/LayoutSpec.v
theories/LayoutProofs.v
theories/PropLayout.v
theories/ZeroSpec.v
theories/ZeroProofs.v
theories/PropZero.v
theories/TextSpec.v
theories/PropText.v
theories/SessionSpec.v
theories/HeapFreeProofs.v
theories/SessionSearchProofs.v
theories/SessionProofs.v
theories/PropSession.v
theories/PropPlaces.v
theories/ThreadSpec.v
theories/ThreadProofs.v
theories/ThreadStepProofs.v
theories/ThreadReadProofs.v
theories/ThreadSessionProofs.v
theories/PropThreads.v
theories/PropReaders.v
theories/TimeSpec.v
theories/TimeProofs.v
theories/TimePassProofs.v
theories/PropTime.v
theories/TimeSearchProofs.v
theories/PropTimeSearch.v
theories/TimeUpdateProofs.v
theories/TimeLookupProofs.v
theories/PropTimeUpdate.v
theories/TidySpec.v
theories/PropTidy.v
theories/PropJoined.v
theories/PropTimeRun.v
theories/EditSpec.v
theories/EditProofs.v
theories/PropEdit.v
theories/PropParts.v
theories/StderrSpec.v
theories/StderrStepProofs.v
theories/StderrProofs.v
theories/PropStderr.v
theories/PropSave.v
theories/TextSizeSpec.v
theories/TextSizeProofs.v
theories/PropTextSize.v
theories/PropSeries.v
theories/DamageSpec.v
theories/DamageProofs.v
theories/PropDamage.v
theories/PropTestApp.v
theories/AskedSpec.v
theories/AskedProofs.v
theories/PropAsked.v
theories/TimeAddProofs.v
theories/PropTimeAdd.v
theories/PropPartsExt.v
theories/AskedHeapProofs.v
theories/PropAskedHeap.v
theories/OpaqueSpec.v
theories/PropOpaque.v
