-Q theories Verif
theories/Base.v
theories/StateModel.v
theories/StateProofs.v
theories/LookupModel.v
theories/LookupProofs.v
theories/PropState.v
theories/CacheModel.v
theories/CacheProofs.v
theories/PropCache.v
theories/QDModel.v
theories/QDProofs.v
theories/PropQD.v
theories/SqliteModel.v
theories/SqliteProofs.v
theories/PropSqlite.v
theories/Racah.v
theories/MEModel.v
theories/MESpec.v
theories/MEProofs.v
theories/MEReal.v
theories/PropME.v
theories/Matrix.v
theories/SystemModel.v
theories/RangeModel.v
theories/RangeProofs.v
theories/BasisProofs.v
theories/PropBasis.v
theories/SystemProofs.v
theories/SystemExact.v
theories/SystemInv.v
theories/AddProofs.v
theories/InitProofs.v
theories/SystemDemo.v
theories/PropSystem.v
theories/HamProofs.v
theories/HamProofs2.v
theories/PropHam.v
theories/FieldModel.v
theories/FieldProofs.v
theories/FieldSpec.v
theories/FieldProofs2.v
theories/PropField.v
theories/EntryProofs.v
theories/PropEntry.v
theories/OverlapModel.v
theories/OverlapProofs.v
theories/ConnProofs.v
theories/OverlapProofs2.v
theories/PropOverlap.v
theories/GreenModel.v
theories/GreenSpec.v
theories/GreenProofs.v
theories/PropGreen.v
theories/TwoModel.v
theories/TwoSpec.v
theories/TwoProofs.v
theories/TwoProofs2.v
theories/TwoProofs3.v
theories/TwoProofs4.v
theories/PropTwo.v
theories/ReflSpec.v
theories/ReflProofs.v
theories/ReflProofs2.v
theories/PropRefl.v
theories/SerModel.v
theories/SerProofs.v
theories/SparseModel.v
theories/SparseProofs.v
theories/SparseProofs2.v
theories/PropSer.v
theories/ConfModel.v
theories/ConfProofs.v
theories/ConfDemo.v
theories/NumModel.v
theories/NumProofs.v
theories/NumProofs2.v
theories/FileCacheModel.v
theories/FileCacheProofs.v
theories/FileCacheProofs2.v
theories/FileCacheProofs3.v
theories/PropFile.v
theories/BasisnamesModel.v
theories/BasisnamesProofs.v
theories/PropNames.v
theories/WaveModel.v
theories/WaveProofs.v
theories/WaveProofs2.v
theories/RoundProofs.v
theories/PropWave.v
theories/PerturbModel.v
theories/PerturbSpec.v
theories/PerturbProofs.v
theories/PerturbAngle.v
theories/PerturbProofs2.v
theories/PerturbProofs3.v
theories/PerturbProofs4.v
theories/PerturbProofs5.v
theories/PropPerturb.v
theories/PairModel.v
theories/PairSpec.v
theories/PairProofs.v
theories/PairProofs2.v
theories/PairProofs3.v
theories/PairProofs4.v
theories/PairProofs5.v
theories/PairProofs6.v
theories/PairDemo.v
theories/PropPair.v
theories/ArchiveModel.v
theories/ArchiveProofs.v
theories/PickleModel.v
theories/PickleProofs.v
theories/PickleDemo.v
theories/PropPickle.v
theories/WignerPoly.v
theories/WignerModel.v
theories/WignerSpec.v
theories/WignerProofs.v
theories/WignerProofs2.v
theories/WignerProofs3.v
theories/RotTable.v
theories/WignerRot.v
theories/WignerRot2.v
theories/WignerRot3.v
theories/WignerVec.v
theories/PropWigner.v
theories/SchriefferModel.v
theories/SchriefferSpec.v
theories/SchriefferProofs.v
theories/SchriefferProofs2.v
theories/SchriefferProofs3.v
theories/SchriefferProofs4.v
theories/SchriefferProofs5.v
theories/SchriefferDemo.v
theories/PropSchrieffer.v
theories/CombineModel.v
theories/CombineSpec.v
theories/CombineProofs.v
theories/CombineProofs2.v
theories/CombineProofs3.v
theories/CombineProofs4.v
theories/CombineProofs5.v
theories/PropCombine.v
theories/CombineDemo.v
theories/PropCombine2.v
theories/NecessaryModel.v
theories/NecessarySpec.v
theories/NecessaryProofs.v
theories/NecessaryProofs2.v
theories/NecessaryProofs3.v
theories/PropNecessary.v
theories/PropRestrict.v
theories/InteractModel.v
theories/InteractSpec.v
theories/InteractProofs.v
theories/InteractProofs2.v
theories/InteractProofs3.v
theories/PropInteract.v
theories/OneFieldModel.v
theories/OneFieldSpec.v
theories/OneFieldProofs.v
theories/OneFieldProofs2.v
theories/PropOneField.v
theories/MatCacheModel.v
theories/MatCacheSpec.v
theories/MatCacheProofs.v
theories/MatCacheProofs2.v
theories/MatCacheProofs3.v
theories/MatCacheProofs4.v
theories/MatCacheProofs5.v
theories/PropMatCache.v
theories/ElementProofs.v
theories/SymmetrySpec.v
theories/PropElements.v
theories/SymmetryProofs.v
theories/SymmetryProofs2.v
theories/PropSymmetry.v
theories/NumpyModel.v
theories/NumpySpec.v
theories/NumpyProofs.v
theories/NumpyProofs2.v
theories/PropNumpy.v
theories/TwoMatModel.v
theories/TwoSymSpec.v
theories/TwoSymProofs.v
theories/TwoSymProofs2.v
theories/TwoSymProofs3.v
theories/TwoMatProofs.v
theories/TwoSecProofs.v
theories/TwoSymDemo.v
theories/TwoSymDemo2.v
theories/PropTwoSym.v
theories/LeRoyModel.v
theories/LeRoySpec.v
theories/LeRoyProofs.v
theories/PropLeRoy.v
theories/DipoleModel.v
theories/DipoleSpec.v
theories/DipoleProofs.v
theories/DipoleProofs2.v
theories/DipoleProofs3.v
theories/PropDipole.v
theories/UserSpec.v
theories/PairProofs7.v
theories/PairProofs8.v
theories/PairProofs9.v
theories/PropUser.v
theories/BoundsSpec.v
theories/BoundsModel.v
theories/BoundsProofs.v
theories/PropBounds.v
theories/MainModel.v
theories/PropMain.v
theories/KeySpec.v
theories/KeyModel.v
theories/KeyProofs.v
theories/PropKey.v
theories/ScanModel.v
theories/PropScan.v
theories/DiagModel.v
theories/PropDiag.v
theories/SettingsModel.v
theories/IncorporateModel.v
theories/PropSettings.v
theories/PropIncorporate.v
theories/LockModel.v
theories/PropLock.v
theories/RadialModel.v
theories/RadialProofs.v
theories/NumerovProofs.v
theories/PropRadial.v
