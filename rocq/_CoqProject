-Q theories Verif
theories/Base.v
theories/BaseFacts.v
theories/QuatModel.v
theories/QuatSpec.v
theories/QuatProofs.v
theories/QuatProps.v
theories/RotsModel.v
theories/RotsProps.v
theories/LaueModel.v
theories/LaueSpec.v
theories/LaueSym.v
theories/LaueGroup.v
theories/LaueGeom.v
theories/LaueFZ.v
theories/LaueClosed.v
theories/LaueDisori.v
theories/LaueProofs.v
theories/LaueProps.v
theories/SymModel.v
theories/SymSpec.v
theories/SymProofs.v
theories/SymProps.v
theories/KnnModel.v
theories/KnnSpec.v
theories/KnnProofs.v
theories/KnnQuant.v
theories/KnnProps.v
theories/PcaModel.v
theories/PcaSpec.v
theories/PcaProofs.v
theories/PcaProps.v
theories/FactorModel.v
theories/FactorSpec.v
theories/FactorProofs.v
theories/FactorProps.v
theories/ProgressModel.v
theories/ProgressProps.v
theories/OriModel.v
theories/OriSpec.v
theories/OriProofs.v
theories/OriAxProofs.v
theories/OriEulerProofs.v
theories/OriProps.v
theories/CuboModel.v
theories/CuboSpec.v
theories/CuboProofs.v
theories/CuboLift.v
theories/CuboAx.v
theories/CuboVol.v
theories/CuboProps.v
theories/SphereModel.v
theories/SphereSpec.v
theories/SphereProofs.v
theories/SphereArea.v
theories/SphereProps.v
theories/SampModel.v
theories/SampSpec.v
theories/SampProofs.v
theories/SampGrid.v
theories/SampProps.v
theories/S2Model.v
theories/S2Spec.v
theories/S2Proofs.v
theories/S2Cubic.v
theories/S2Exist.v
theories/S2Final.v
theories/S2Props.v
theories/Se3Model.v
theories/Se3Spec.v
theories/Se3Proofs.v
theories/Se3Exp.v
theories/Se3Props.v
theories/GeomModel.v
theories/GeomSpec.v
theories/GeomProofs.v
theories/GeomProps.v
theories/ExpModel.v
theories/ExpSpec.v
theories/ExpProofs.v
theories/ExpProps.v
theories/MpModel.v
theories/MpSpec.v
theories/MpProofs.v
theories/MpProps.v
theories/HrProofs.v
theories/HrProps.v
theories/ClaheModel.v
theories/ClaheSpec.v
theories/ClaheProofs.v
theories/ClaheMore.v
theories/ClaheProps.v
theories/NlparModel.v
theories/NlparSpec.v
theories/NlparProofs.v
theories/NlparMore.v
theories/NlparProps.v
theories/BlurModel.v
theories/BlurSpec.v
theories/BlurProofs.v
theories/BlurProps.v
theories/IndexModel.v
theories/IndexSpec.v
theories/IndexProofs.v
theories/IndexProps.v
theories/RefineModel.v
theories/RefineSpec.v
theories/RefineProofs.v
theories/RefineScan.v
theories/RefineGrad.v
theories/RefineProps.v
theories/FitModel.v
theories/FitSpec.v
theories/FitProofs.v
theories/FitExample.v
theories/FitMain.v
theories/FitProps.v
theories/MonteModel.v
theories/MonteSpec.v
theories/MonteProofs.v
theories/MonteLoop.v
theories/MonteTools.v
theories/MonteInterp.v
theories/MonteWitness.v
theories/MonteProps.v
theories/SgModel.v
theories/SgSpec.v
theories/SgCheck.v
theories/SgProofs.v
theories/SgGen.v
theories/SgProps.v
theories/CellModel.v
theories/CellSpec.v
theories/CellProofs.v
theories/CellMore.v
theories/CellFrame.v
theories/CellWitness.v
theories/CellProps.v
theories/TrigModel.v
theories/TrigSpec.v
theories/TrigProofs.v
theories/TrigProps.v
theories/KvModel.v
theories/KvSpec.v
theories/KvTest.v
theories/KvCheck.v
theories/KvProofs.v
theories/KvMore.v
theories/KvProps.v
theories/DiffModel.v
theories/DiffSpec.v
theories/DiffProofs.v
theories/DiffPsd.v
theories/DiffMore.v
theories/DiffWit.v
theories/DiffProps.v
theories/MiModel.v
theories/MiSpec.v
theories/MiProofs.v
theories/MiMore.v
theories/MiNmi.v
theories/MiCmif.v
theories/MiFacts.v
theories/MiWit.v
theories/MiWit2.v
theories/MiProps.v
theories/WigModel.v
theories/WigSpec.v
theories/WigIdx.v
theories/WigAlg.v
theories/WigTab.v
theories/WigSym.v
theories/WigProps.v
theories/ShtModel.v
theories/ShtSpec.v
theories/ShtLadder.v
theories/ShtQuad.v
theories/ShtWeights.v
theories/ShtDlt.v
theories/ShtFft.v
theories/ShtTrans.v
theories/ShtXf.v
theories/ShtReal.v
theories/ShtProps.v
theories/CcModel.v
theories/CcSpec.v
theories/CcProofs.v
theories/CcFast.v
theories/CcBound.v
theories/CcProps.v
theories/SfTables.v
theories/SfModel.v
theories/SfPoly.v
theories/SfCalc.v
theories/SfFix.v
theories/SfSpec.v
theories/SfSpec2.v
theories/SfEi.v
theories/SfExp1.v
theories/SfExpi.v
theories/SfExpi2.v
theories/SfExpi3.v
theories/SfSimpson.v
theories/SfReal.v
theories/SfPhonon.v
theories/SfBatch.v
theories/SfImag.v
theories/SfMisc.v
theories/SfTop.v
theories/SfProps.v
theories/XnumModel.v
theories/XnumSpec.v
theories/XnumTab.v
theories/XnumProofs.v
theories/XnumTable.v
theories/XnumMore.v
theories/XnumWit.v
theories/XnumProps.v
theories/RfzModel.v
theories/RfzSpec.v
theories/RfzProofs.v
theories/RfzProps.v
theories/ColModel.v
theories/ColSpec.v
theories/ColProofs.v
theories/ColProps.v
theories/HoCalc.v
theories/HoPoly.v
theories/HoFits.v
theories/HoModel.v
theories/HoSpec.v
theories/HoProofs.v
theories/HoConv.v
theories/HoNewton.v
theories/HoIter.v
theories/HoProps.v
theories/SimModel.v
theories/SimSpec.v
theories/SimMirror.v
theories/SimScale.v
theories/SimProofs.v
theories/SimResample.v
theories/SimProps.v
theories/CleanModel.v
theories/CleanSpec.v
theories/CleanProofs.v
theories/CleanDown.v
theories/CleanWit.v
theories/CleanProps.v
theories/FpModel.v
theories/FpSpec.v
theories/FpProofs.v
theories/FpRound.v
theories/FpWit.v
theories/FpDis.v
theories/FpKnn.v
theories/FpProps.v
theories/UnitModel.v
theories/UnitProofs.v
theories/UnitRange.v
theories/UnitProps.v
theories/DirModel.v
theories/DirProofs.v
theories/DirProps.v
theories/RotModel.v
theories/RotSpec.v
theories/RotProofs.v
theories/RotProps.v
theories/BunModel.v
theories/BunProofs.v
theories/BunProps.v
