-Q theories Verif
theories/RangeCoderModel.v
theories/RangeCoderProofs.v
theories/RangeCoderTrace.v
theories/RangeCoderSpec.v
theories/RangeCoderSpecProofs.v
theories/PropRangeCoder.v
theories/Arr.v
theories/QsModel.v
theories/QsModelProofs.v
theories/QsSpecProofs.v
theories/PropQsModel.v
theories/CodecModel.v
theories/CodecProofs.v
theories/PropCodec.v
theories/BitsModel.v
theories/BitsProofs.v
theories/BaseProofs.v
theories/ObjectModel.v
theories/ObjectProofs.v
theories/PropBits.v
theories/AabModel.v
theories/AabProofs.v
theories/LodModel.v
theories/LodProofs.v
theories/PropAab.v
theories/PropQuantLod.v
theories/QuantModel.v
theories/QuantProofs.v
theories/JoinModel.v
theories/JoinProofs.v
theories/OctreeModel.v
theories/OctreeProofs.v
theories/PropOctree.v
theories/BatchModel.v
theories/BatchProofs.v
theories/PropBatch.v
theories/PropJoin.v
theories/PropSegDist.v
theories/PropTriInt.v
theories/SegDistModel.v
theories/SegDistProofs.v
theories/SegGpuModel.v
theories/SegGpuProofs.v
theories/TriFlatProofs.v
theories/TriIntModel.v
theories/TriIntProofs.v
theories/TriSetProofs.v
theories/PropRot.v
theories/PropToken.v
theories/RotModel.v
theories/RotProofs.v
theories/TokenModel.v
theories/TokenProofs.v
theories/PropRTree.v
theories/RTreeIterProofs.v
theories/RTreeModel.v
theories/RTreeProofs.v
theories/PropTile.v
theories/PropVoxel.v
theories/TileModel.v
theories/TileProofs.v
theories/VoxelModel.v
theories/VoxelProofs.v
theories/CompressModel.v
theories/CompressProofs.v
theories/PropCompress.v
theories/PropSample.v
theories/PropSp.v
theories/SampleModel.v
theories/SampleProofs.v
theories/SpModel.v
theories/SpProofs.v
theories/QsPace.v
theories/RangeCoderLen.v
theories/PpmcCheck.v
theories/PpmcDec.v
theories/PpmcEnc.v
theories/PpmcModel.v
theories/PpmcOps.v
theories/PpmcRound.v
theories/PpmcStar.v
theories/PpmcTopo.v
theories/PpmcTrav.v
theories/PropPpmc.v
theories/FloatQuantModel.v
theories/FloatQuantProofs.v
theories/PpmcGrid.v
theories/PpmcLevels.v
theories/PpmcLevelsProofs.v
theories/PpmcObject.v
theories/PpmcRen.v
theories/PpmcSyms.v
theories/PpmcTot.v
theories/PropFloatQuant.v
theories/PropPpmcLevels.v
theories/DeviceModel.v
theories/DeviceProofs.v
theories/PropDevice.v
theories/JoinerModel.v
theories/JoinerProofs.v
theories/NnExactProofs.v
theories/PropJoiner.v
theories/PropTreeDist.v
theories/TreeDistModel.v
theories/TreeDistProofs.v
theories/GenModel.v
theories/GenProofs.v
theories/PropGen.v
theories/ConvexModel.v
theories/ConvexProofs.v
theories/ConvexRing.v
theories/PropConvex.v
theories/FixerModel.v
theories/FixerProofs.v
theories/PropFixer.v
theories/RTreeOneProofs.v
theories/EndModel.v
theories/EndProofs.v
theories/PropEnd.v
theories/EndDistModel.v
theories/EndDistProofs.v
theories/PropEndDist.v
theories/PropShape.v
theories/PropText.v
theories/ShapeModel.v
theories/ShapeProofs.v
theories/TextModel.v
theories/TextProofs.v
theories/TextSpec.v
theories/EndNnModel.v
theories/EndNnProofs.v
theories/PropEndNn.v
theories/PipeModel.v
theories/PropLevel.v
theories/PropLevelJoin.v
theories/PropPipe.v
theories/OpenModel.v
theories/ProgModel.v
theories/PropOpen.v
theories/PropPart.v
theories/PropProg.v
theories/GpuAllModel.v
theories/PropGpuAll.v
theories/PropHeader.v
theories/FloatLink.v
theories/PropFloatLink.v
theories/PropFixerMore.v
theories/PropOctEnds.v
theories/PropOctSplit.v
theories/PropRSplit.v
theories/PropHeaderAt.v
theories/PropRotFrame.v
theories/PropSampleLock.v
theories/PropSmall.v
theories/JoinMainModel.v
theories/PropJoinMain.v
theories/BufferModel.v
theories/PropBuffer.v
theories/PropRemovable.v
theories/PropTriDist.v
theories/TriDistMain.v
theories/TriDistModel.v
theories/TriDistProofs.v
theories/TriDistSlide.v
theories/FloatBoxModel.v
theories/FloatBoxProofs.v
theories/PropFloatBox.v
theories/PropSegSym.v
theories/PropTreeCache.v
theories/TreeCacheModel.v
theories/TreeCacheProofs.v
theories/PropTime.v
theories/TimeModel.v
theories/H5Model.v
theories/PropH5.v
theories/PropSkel.v
theories/PropSurf.v
theories/SkelModel.v
theories/SurfModel.v
theories/SurfProofs.v
theories/PropPlanar.v
theories/PropTriThin.v
theories/OffReadModel.v
theories/PropOffRead.v
theories/PropOffText.v
theories/PropOctTouch.v
theories/PropRRound.v
theories/PropRSingle.v
theories/PropRTreeCopy.v
theories/PropRTreeMem.v
theories/RTreeMemModel.v
theories/LogModel.v
theories/PropLog.v
theories/PropNames.v
theories/PropSurfScale.v
theories/OffFileModel.v
theories/PropOffFile.v
theories/NormalModel.v
theories/PropNormal.v
theories/GenTextModel.v
theories/PropGenText.v
theories/ArraysModel.v
theories/PropArrays.v
theories/FrameModel.v
theories/PropFrame.v
theories/BoundsModel.v
theories/PropRBounds.v
theories/PropRSphere.v
theories/SphereModel.v
theories/CpuModel.v
theories/PropCpu.v
theories/PropRedundant.v
theories/RedundantModel.v
theories/PropOffReal.v
theories/FixerTextModel.v
theories/PropFixerText.v
theories/PropTileMem.v
theories/TileMemModel.v
theories/FillKindModel.v
theories/PropFillKind.v
theories/JoinMemModel.v
theories/PropJoinMem.v
theories/CompressMemModel.v
theories/PropCompressMem.v
theories/PropZlibStat.v
theories/ZlibStatModel.v
theories/GenMemModel.v
theories/PropGenMem.v
theories/PartMemModel.v
theories/PropPartMem.v
theories/FixMemModel.v
theories/PropFixMem.v
theories/BaryModel.v
theories/PropBary.v
theories/BoxMemModel.v
theories/PropBoxMem.v
theories/PropSize.v
theories/SizeModel.v
theories/PointDistModel.v
theories/PropPointDist.v
theories/BoxFileModel.v
theories/PropBoxFile.v
