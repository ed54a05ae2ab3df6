-Q theories Verif
theories/Base.v
theories/Spec.v
theories/SpecText.v
theories/Extent.v
theories/Chunk.v
theories/Dataset.v
theories/Slicer.v
theories/SpecApi.v
theories/Radix.v
theories/Safe.v
theories/SlicerProofs.v
theories/SlicerStep.v
theories/ChunkProofs.v
theories/DatasetProofs.v
theories/SlicerMain.v
theories/ExtentProofs.v
theories/SlicerTheorems.v
theories/SafeWrap.v
theories/SlicerWrap.v
theories/Filters.v
theories/SpecFilter.v
theories/FilterProofs.v
theories/FilterProps.v
theories/IndexProofs.v
theories/ApiLemmas.v
theories/SafeProofs.v
theories/Termination.v
theories/GroupProofs.v
theories/SliceProps.v
theories/SlicerExact.v
theories/SlicerExact2.v
theories/SlicerExact3.v
theories/Reader.v
theories/SpecReader.v
theories/Writes.v
theories/CacheProofs.v
theories/DirectProofs.v
theories/ParProofs.v
theories/ReadProofs.v
theories/ReaderProps.v
theories/StreamProofs.v
theories/ExamplesReader.v
theories/Examples.v
theories/Properties1.v
theories/Properties2.v
theories/Properties3.v
theories/Properties4.v
theories/Properties5.v
theories/S3.v
theories/SpecS3.v
theories/S3Group.v
theories/S3Proofs.v
theories/S3Errors.v
theories/Properties6.v
theories/IndexTree.v
theories/Serde.v
theories/SpecSerde.v
theories/SpecTree.v
theories/SerdeProofs.v
theories/SerdeTyped.v
theories/TreeProofs.v
theories/Properties7.v
theories/Python.v
theories/SpecPython.v
theories/PythonProofs.v
theories/Properties8.v
theories/Properties9.v
theories/ExactReads.v
theories/Properties10.v
theories/Tools.v
theories/Properties11.v
theories/Xarray.v
theories/Properties12.v
theories/SpecEnd.v
theories/Properties13.v
theories/PlaneProofs.v
theories/Properties14.v
theories/Properties15.v
theories/Properties16.v
theories/Properties17.v
theories/Trace.v
theories/Properties18.v
theories/Conformance.v
theories/Properties19.v
theories/Properties20.v
theories/S3Async.v
theories/Properties21.v
theories/SlicerRelease.v
theories/SlicerRelease2.v
theories/SpaceProofs.v
theories/Properties22.v
theories/ExactFamily.v
theories/Properties23.v
theories/Open.v
theories/Properties24.v
theories/Properties25.v
theories/Properties26.v
theories/Properties27.v
theories/Properties28.v
theories/H5Types.v
theories/Properties29.v
theories/Properties30.v
theories/Properties31.v
theories/SlicerFill.v
theories/Properties32.v
theories/Properties33.v
theories/XarrayOpen.v
theories/Properties34.v
theories/SeriesProofs.v
theories/Properties35.v
theories/Properties36.v
theories/Unstable.v
theories/Properties37.v
theories/Listing.v
theories/Properties38.v
theories/StreamPoll.v
theories/Properties39.v
theories/Properties40.v
theories/Handle.v
theories/Properties41.v
theories/SlicerRuns.v
theories/SegLists.v
theories/Properties42.v
theories/Properties43.v
theories/Properties44.v
theories/Properties45.v
theories/SlicerEnds.v
theories/SlicerEnds3.v
theories/Properties46.v
theories/Properties47.v
theories/Properties48.v
theories/SlicerKill.v
theories/SlicerWrap2.v
theories/SlicerWrap3.v
theories/SlicerWrap4.v
theories/WrapProps.v
theories/Properties49.v
theories/ExactFamily2.v
theories/Properties50.v
theories/SpecAlike.v
theories/AlikeProofs.v
theories/Properties51.v
theories/Properties52.v
theories/Properties53.v
theories/Properties54.v
theories/Properties55.v
theories/Properties56.v
theories/XarrayStore.v
theories/Properties57.v
theories/Properties58.v
theories/Output.v
theories/Properties59.v
theories/Properties60.v
theories/Properties61.v
theories/Properties62.v
theories/Routes.v
theories/Properties63.v
theories/XarrayGroup.v
theories/Properties64.v
theories/Syscalls.v
theories/Properties65.v
theories/ParSys.v
theories/Properties66.v
theories/Faults.v
theories/Properties67.v
theories/Changing.v
theories/Properties68.v
theories/StreamLive.v
theories/Properties69.v
theories/Properties70.v
theories/Properties71.v
theories/Properties72.v
theories/LinkGraph.v
theories/Properties73.v
theories/SeqSys.v
theories/Properties74.v
theories/Runtime.v
theories/Properties75.v
theories/StreamSys.v
theories/Properties76.v
theories/Properties77.v
theories/Properties78.v
