-Q theories Verif
theories/Base.v
theories/ListFacts.v
theories/RangeSet.v
theories/RangeSetFacts.v
theories/Storage.v
theories/StorageFacts.v
theories/System.v
theories/Spec.v
theories/StepTac.v
theories/InvSync.v
theories/InvTrace.v
theories/InvCore.v
theories/InvFront.v
theories/Exec.v
theories/ReadFacts.v
theories/LifeFacts.v
theories/DoneFacts.v
theories/Alive.v
theories/Progress.v
theories/RequestFacts.v
theories/CallFacts.v
theories/MoreFacts.v
theories/LifeMore.v
theories/PropReads.v
theories/PropLife.v
theories/BoundedFacts.v
theories/StoreSpec.v
theories/StoreFacts.v
theories/PropStore.v
theories/BoundedInv.v
theories/BoundedWake.v
theories/BoundedContent.v
theories/BoundedMore.v
theories/PropBounded.v
theories/ArcFacts.v
theories/ForwardSpec.v
theories/BoundedForward.v
theories/PropForward.v
theories/Config.v
theories/ConfigSpec.v
theories/PropConfig.v
theories/PropMore.v
theories/Http.v
theories/HttpSpec.v
theories/HttpFacts.v
theories/PropHttp.v
theories/Registry.v
theories/RegistrySpec.v
theories/RegistryFacts.v
theories/PropRegistry.v
theories/Process.v
theories/ProcessSpec.v
theories/ProcessFacts.v
theories/PropProcess.v
theories/Opendal.v
theories/OpendalSpec.v
theories/PropOpendal.v
theories/OnceFacts.v
theories/PropOnce.v
theories/Source.v
theories/SourceSpec.v
theories/SourceFacts.v
theories/SourceImpl.v
theories/PropSource.v
theories/Tso.v
theories/TsoFacts.v
theories/PropTso.v
theories/BoundedProgress.v
theories/PropFault.v
theories/PropReturn.v
theories/Machine.v
theories/PropMachine.v
theories/PropQuit.v
theories/HttpRaw.v
theories/HttpRawSpec.v
theories/PropHttpRaw.v
theories/BoundedFault.v
theories/PropStoreFault.v
theories/Pipes.v
theories/PipesSpec.v
theories/PipesFacts.v
theories/PropPipes.v
theories/PropSourceLive.v
theories/PropSourceLoop.v
theories/PropJump.v
theories/RangingWake.v
theories/PropRanging.v
theories/PropRangingSource.v
theories/Abort.v
theories/PropAbort.v
theories/Torn.v
theories/PropTorn.v
theories/Announced.v
theories/PropAnnounced.v
theories/PropSilence.v
theories/PropVersion.v
theories/Utf8.v
theories/Stderr.v
theories/StderrSpec.v
theories/PropStderr.v
theories/Pipeline.v
theories/PipelineSpec.v
theories/PipelineFacts.v
theories/PropPipeline.v
theories/ContentTypeSpec.v
theories/ContentType.v
theories/PropContentType.v
theories/Calls.v
theories/CallsSpec.v
theories/PropCalls.v
theories/Custom.v
theories/CustomFacts.v
theories/PropCustom.v
theories/Files.v
theories/FilesSpec.v
theories/FilesFacts.v
theories/PropFiles.v
theories/Waits.v
theories/Adaptors.v
theories/AdaptorFacts.v
theories/PropAdaptors.v
theories/WaitsFacts.v
theories/PropWaits.v
theories/PropRoam.v
theories/Word.v
theories/WordFacts.v
theories/PropWord.v
