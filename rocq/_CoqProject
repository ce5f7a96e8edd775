-Q theories Verif
theories/AppModel.v
theories/Base.v
theories/BcModel.v
theories/BcProofs.v
theories/BcSpec.v
theories/BchProofs.v
theories/BlockModel.v
theories/BlockProofs.v
theories/BlockProofs2.v
theories/BvhModel.v
theories/CgProofs.v
theories/CgSpd.v
theories/ContactModel.v
theories/ContactParModel.v
theories/ContactProofs.v
theories/ContactProofs2.v
theories/ContactProofs3.v
theories/ContactProofs4.v
theories/ContactProofs5.v
theories/ContactProofs6.v
theories/ContactProofs7.v
theories/ContactProofs8.v
theories/ContactSetupModel.v
theories/ContactSetupProofs.v
theories/ContactSetupProofs2.v
theories/ContactSetupSpec.v
theories/ContactSpec.v
theories/CosProofs.v
theories/CrsProofs.v
theories/DataModel.v
theories/DataProofs.v
theories/DataSpec.v
theories/DenseProofs.v
theories/EigenProofs.v
theories/EigenProofs2.v
theories/ElemDataModel.v
theories/ElemDataModel2.v
theories/ElemDataProofs.v
theories/ElemDataProofs2.v
theories/ElemDataProofs3.v
theories/ElemDataProofs4.v
theories/ElemDataProofs5.v
theories/ElemDataProofs6.v
theories/ElemDataProofs7.v
theories/ElemDataProofs8.v
theories/ElemDataSpec.v
theories/ElementModel.v
theories/ElementProofs.v
theories/ElementProofs2.v
theories/ElementProofs3.v
theories/ElementProofs4.v
theories/ElementProofs5.v
theories/ElementProofs6.v
theories/ElementProofs7.v
theories/ElementSpec.v
theories/ExprModel.v
theories/ExprProofs.v
theories/ExprProofs2.v
theories/ExprProofs3.v
theories/ExprProofs4.v
theories/ExprProofs5.v
theories/ExprProofs6.v
theories/ExprSpec.v
theories/InputModel.v
theories/InputProofs.v
theories/InputProofs2.v
theories/InputProofs3.v
theories/InputProofs4.v
theories/InputSpec.v
theories/IntegratorModel.v
theories/IntegratorProofs.v
theories/IntegratorProofs2.v
theories/IntegratorProofs3.v
theories/IntegratorSpec.v
theories/KokkosModel.v
theories/KokkosOutModel.v
theories/KokkosOutProofs1.v
theories/KokkosOutProofs10.v
theories/KokkosOutProofs11.v
theories/KokkosOutProofs2.v
theories/KokkosOutProofs3.v
theories/KokkosOutProofs4.v
theories/KokkosOutProofs5.v
theories/KokkosOutProofs6.v
theories/KokkosOutProofs7.v
theories/KokkosOutProofs8.v
theories/KokkosOutProofs9.v
theories/KokkosOutSpec.v
theories/KokkosProofs.v
theories/KokkosProofs10.v
theories/KokkosProofs11.v
theories/KokkosProofs12.v
theories/KokkosProofs13.v
theories/KokkosProofs14.v
theories/KokkosProofs15.v
theories/KokkosProofs16.v
theories/KokkosProofs17.v
theories/KokkosProofs18.v
theories/KokkosProofs19.v
theories/KokkosProofs2.v
theories/KokkosProofs20.v
theories/KokkosProofs3.v
theories/KokkosProofs4.v
theories/KokkosProofs5.v
theories/KokkosProofs6.v
theories/KokkosProofs7.v
theories/KokkosProofs8.v
theories/KokkosProofs9.v
theories/KokkosSpec.v
theories/KokkosSpec2.v
theories/KokkosSpec3.v
theories/LinModel.v
theories/LinSpec.v
theories/ListLemmas.v
theories/Loops.v
theories/LuProofs.v
theories/MaterialModel.v
theories/MaterialProofs.v
theories/MaterialSpec.v
theories/MeshTextModel.v
theories/MeshTextProofs.v
theories/MeshTextProofs2.v
theories/MeshTextSpec.v
theories/MpiCliqueProofs.v
theories/MpiFinal.v
theories/MpiModel.v
theories/MpiRunProofs.v
theories/MpiSetupProofs.v
theories/MpiSpec.v
theories/MpiUtils.v
theories/MpiUtilsProofs.v
theories/OutTextModel.v
theories/OutTextProofs.v
theories/OutTextSpec.v
theories/ParModel.v
theories/ParRunModel.v
theories/PatternProofs.v
theories/PolarProofs.v
theories/PropApp.v
theories/PropBc.v
theories/PropBvh.v
theories/PropContact.v
theories/PropContactSetup.v
theories/PropData.v
theories/PropDeck.v
theories/PropElemData.v
theories/PropElemOutput.v
theories/PropElement.v
theories/PropExpr.v
theories/PropHandle.v
theories/PropInput.v
theories/PropIntegrator.v
theories/PropKokkos.v
theories/PropKokkosOut.v
theories/PropLinear.v
theories/PropMaterial.v
theories/PropMesh.v
theories/PropMeshQuery.v
theories/PropMpi.v
theories/PropOutText.v
theories/PropPar.v
theories/PropParRun.v
theories/PropQuasi.v
theories/PropSerial.v
theories/PropSkin.v
theories/PropStopwatch.v
theories/PropSubmodel.v
theories/PropTensor.v
theories/PropTimer.v
theories/PropTpetra.v
theories/PropUq.v
theories/PropView.v
theories/PropWire.v
theories/QuasiModel.v
theories/QuasiProofs.v
theories/QuasiProofs2.v
theories/QuasiProofs3.v
theories/QuasiProofs4.v
theories/QuasiProofs5.v
theories/QuasiProofs6.v
theories/QuasiSpec.v
theories/RingProofs.v
theories/RingProofs2.v
theories/RotProofs.v
theories/SerialModel.v
theories/SerialProofs.v
theories/SkinModel.v
theories/SkinProofs.v
theories/SkinSpec.v
theories/StopwatchModel.v
theories/StopwatchProofs.v
theories/StopwatchSpec.v
theories/Strings.v
theories/SubmodelModel.v
theories/SubmodelProofs.v
theories/SubmodelProofs2.v
theories/SubmodelProofs3.v
theories/SubmodelSpec.v
theories/TensorModel.v
theories/TensorProofs.v
theories/TensorSpec.v
theories/TimerModel.v
theories/TimerSpec.v
theories/TpetraModel.v
theories/TpetraProofs.v
theories/TpetraProofs2.v
theories/TpetraProofs3.v
theories/TpetraSpec.v
theories/UqModel.v
theories/UqProofs.v
theories/UqProofs2.v
theories/UqProofs3.v
theories/UqProofs4.v
theories/UqProofs5.v
theories/UqSpec.v
theories/ViewModel.v
theories/WireModel.v
theories/WireSpec.v
