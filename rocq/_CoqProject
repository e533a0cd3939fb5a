-Q theories Verif
theories/Machine.v
theories/MStorage.v
theories/MTraits.v
theories/MVectorBase.v
theories/MBitVector.v
theories/MIntVector.v
theories/MBitSlice.v
theories/MRank.v
theories/MSelect.v
theories/MBroadword.v
theories/MStream.v
theories/MCoding.v
theories/SpecBits.v
theories/SpecCfg.v
theories/SpecLaws.v
theories/PBase.v
theories/PStorage.v
theories/PBits.v
theories/PBlocks.v
theories/PDefaults.v
theories/Properties1.v
theories/Properties2.v
theories/PVectorBase.v
theories/PVectorBase2.v
theories/PVectorBase3.v
theories/PBitVector.v
theories/PLong.v
theories/PIter.v
theories/SpecOps.v
theories/PRun.v
theories/Properties3.v
theories/PIntVector.v
theories/PIntRun.v
theories/Properties4.v
theories/PSlice.v
theories/Properties5.v
theories/SpecRank.v
theories/PRank.v
theories/PRank9.v
theories/PSelect.v
theories/Properties6.v
theories/PBroadword.v
theories/PBroadword2.v
theories/Properties7.v
theories/SpecStream.v
theories/PStream.v
theories/PCoding.v
theories/PCoding2.v
theories/PCoding3.v
theories/PCoding4.v
theories/PAccept.v
theories/SpecBuffer.v
theories/PBuffer.v
theories/Properties8.v
theories/Properties9.v
theories/MCapacity.v
theories/PCapacity.v
theories/Properties10.v
theories/MIO.v
theories/MSpace.v
theories/SpecSpace.v
theories/PIO.v
theories/PSpace.v
theories/Properties11.v
theories/MSigned.v
theories/SpecSigned.v
theories/PSigned.v
theories/Properties12.v
theories/Properties13.v
theories/MDerive.v
theories/SpecDerive.v
theories/PDerive.v
theories/Properties14.v
theories/Properties15.v
theories/Properties16.v
theories/PRankSlice.v
theories/Properties17.v
theories/Properties18.v
theories/Properties19.v
theories/Properties20.v
theories/Properties21.v
theories/Properties22.v
theories/SpecBase.v
theories/PBaseRun.v
theories/Properties23.v
theories/Properties24.v
theories/Properties25.v
theories/PBroadword3.v
theories/PBroadword4.v
theories/Properties26.v
theories/UnitTests.v
theories/MQuickCheck.v
theories/Properties27.v
theories/MSearchGen.v
theories/Properties28.v
theories/Properties29.v
theories/Properties30.v
theories/Properties31.v
theories/Properties32.v
theories/SpecAgree.v
theories/PAgree.v
theories/Properties33.v
theories/Properties34.v
theories/MPanic.v
theories/SpecPanic.v
theories/PPanic.v
theories/PPanic2.v
theories/Properties35.v
theories/Properties36.v
theories/MDerive2.v
theories/Properties37.v
theories/MMinimal.v
theories/SpecMinimal.v
theories/Properties38.v
theories/PRankPad.v
theories/Properties39.v
theories/SpecSame.v
theories/Properties40.v
theories/Properties41.v
theories/Properties42.v
theories/MAdapter.v
theories/SpecTower.v
theories/Properties43.v
theories/Properties44.v
theories/Properties45.v
theories/MDevice.v
theories/SpecDevice.v
theories/Properties46.v
theories/MSave.v
theories/Properties47.v
theories/Properties48.v
theories/MArchive.v
theories/Properties49.v
theories/Properties50.v
theories/Properties51.v
theories/SpecParse.v
theories/Properties52.v
theories/Properties53.v
theories/Properties54.v
theories/Properties55.v
theories/MSparse.v
theories/Properties56.v
theories/MWavelet.v
theories/Properties57.v
theories/MBlockwise.v
theories/Properties58.v
theories/MEliasFano.v
theories/Properties59.v
theories/Properties60.v
theories/MParens.v
theories/Properties61.v
theories/Properties62.v
theories/Properties63.v
theories/MAdaptors.v
theories/Properties64.v
theories/Properties65.v
theories/MLouds.v
theories/Properties66.v
theories/Properties67.v
theories/MRice.v
theories/Properties68.v
theories/MPosting.v
theories/Properties69.v
theories/MSieve.v
theories/Properties70.v
theories/MFmIndex.v
theories/Properties71.v
theories/MFmLocate.v
theories/Properties72.v
theories/MDac.v
theories/Properties73.v
theories/MRuns.v
theories/Properties74.v
theories/MLz.v
theories/Properties75.v
