-Q theories Verif
theories/CStr.v
theories/CStrFacts.v
theories/ParModel.v
theories/ParSpec.v
theories/ParDbProofs.v
theories/ParSafety.v
theories/ParParse.v
theories/ParFile.v
theories/ParIO.v
theories/ParProps.v
theories/ArrModel.v
theories/ArrProps.v
theories/FnameModel.v
theories/FnameProps.v
theories/LogModel.v
theories/LogProps.v
theories/BatonModel.v
theories/BatonProps.v
theories/SigModel.v
theories/SigProps.v
theories/OutModel.v
theories/OutProps.v
theories/DtModel.v
theories/DtProps.v
theories/MeshModel.v
theories/MeshProps.v
theories/PosModel.v
theories/PosProps.v
theories/Loop.v
theories/BvalsModel.v
theories/BvalsSpec.v
theories/BvalsProofs.v
theories/BvalsProps.v
theories/BvalsMsg.v
theories/BvalsParModel.v
theories/BvalsParProps.v
theories/BvalsLenProps.v
theories/GasModel.v
theories/GasSpec.v
theories/ConvProps.v
theories/FluxModel.v
theories/FluxProps.v
theories/FluxProps2.v
theories/FluxUpwind.v
theories/FluxUpwind2.v
theories/FluxUpwind3.v
theories/FluxUpwind4.v
theories/RoeAlgebra.v
theories/RoeLin.v
theories/RoeProps.v
theories/ReconModel.v
theories/ReconSpec.v
theories/ReconProps.v
theories/EsysPrimModel.v
theories/EsysPrimProps.v
theories/EsysPrimProps2.v
theories/ReconCtu.v
theories/IntegModel.v
theories/SchemeModel.v
theories/Ctu1Model.v
theories/Vl1Model.v
theories/IntegSpec.v
theories/IntegFacts.v
theories/SchemeNearby.v
theories/Integ1Spec.v
theories/Integ1Local.v
theories/Integ1Props.v
theories/Ctu2Model.v
theories/Vl2Model.v
theories/Integ2Spec.v
theories/Integ2Local.v
theories/Integ2Props.v
theories/Ctu3Model.v
theories/Vl3Model.v
theories/Integ3Spec.v
theories/Integ3Local.v
theories/Integ3Props.v
theories/Integ3Run.v
theories/UtilModel.v
theories/UtilProps.v
theories/UtilProps2.v
theories/UtilProps3.v
theories/UtilProps4.v
theories/LuModel.v
theories/LuProps.v
theories/PartModel.v
theories/PartSort.v
theories/PartProps.v
theories/PartDrag.v
theories/ReconThird.v
theories/SmrModel.v
theories/SmrOverlap.v
theories/SmrFacts.v
theories/SmrProps.v
theories/SmrApply.v
theories/SmrPaired.v
theories/SmrRestrict.v
theories/SmrPlane.v
theories/SmrTheorems.v
theories/SmrField.v
theories/SmrCT.v
theories/SmrMore.v
theories/SmrBufModel.v
theories/SmrBufProps.v
theories/ProModel.v
theories/ProKernel.v
theories/ProPass.v
theories/ProFill.v
theories/ProAll.v
theories/ProMsg.v
theories/ProProps.v
theories/ProTheorems.v
theories/ProMore.v
theories/ResModel.v
theories/ResSpec.v
theories/ResFacts.v
theories/ResWrite.v
theories/ResRead.v
theories/ResBack.v
theories/ResAll.v
theories/ResFile.v
theories/ResCut.v
theories/ResProps.v
theories/ResMore.v
theories/CondModel.v
theories/DiffSpec.v
theories/CondProps.v
theories/CondHeat.v
theories/CondMax.v
theories/CondRate.v
theories/ViscModel.v
theories/ViscProps.v
theories/ViscFlow.v
theories/ViscHeat.v
theories/OhmModel.v
theories/OhmSpec.v
theories/OhmProps.v
theories/OhmLocal.v
theories/OhmCons.v
theories/OhmUniform.v
theories/Lattice.v
theories/OhmHeat.v
theories/OhmExact.v
theories/StsModel.v
theories/StsProps.v
theories/StsHall.v
theories/PbcModel.v
theories/PbcFacts.v
theories/PbcList.v
theories/PbcPerm.v
theories/PbcSpec.v
theories/PbcMove.v
theories/PbcOne.v
theories/PbcProps.v
theories/HistModel.v
theories/HistSpec.v
theories/SumFacts.v
theories/HistFacts.v
theories/HistMain.v
theories/HistProps.v
theories/SliceModel.v
theories/SliceSpec.v
theories/SliceProps.v
theories/PdfModel.v
theories/PdfSpec.v
theories/PdfProps.v
theories/VtkModel.v
theories/VtkSpec.v
theories/VtkSort.v
theories/VtkRead.v
theories/VtkFacts.v
theories/VtkProps.v
theories/ShearModel.v
theories/ShearSpec.v
theories/ShearFacts.v
theories/ShearProps.v
theories/ShearFlux.v
theories/FargoModel.v
theories/FargoProps.v
theories/GravModel.v
theories/GravSpec.v
theories/GravFacts.v
theories/GravProps.v
theories/SelfgModel.v
theories/SelfgSpec.v
theories/SelfgFacts.v
theories/Selfg1Props.v
theories/Selfg2Props.v
theories/Selfg3Props.v
theories/Selfg3Total.v
theories/SelfgExists.v
theories/SelfgExamples.v
theories/DumpModel.v
theories/DumpSpec.v
theories/DumpProps.v
theories/BinProps.v
theories/ImageModel.v
theories/ImageSpec.v
theories/ImageProps.v
theories/PhiModel.v
theories/PhiSpec.v
theories/PhiProps.v
theories/PhiProps2.v
theories/PhiProps3.v
theories/ObcModel.v
theories/ObcProps.v
theories/DiskModel.v
theories/DiskSpec.v
theories/DiskFacts.v
theories/DiskProps.v
theories/ExchModel.v
theories/ExchSpec.v
theories/ExchSum.v
theories/ExchRow.v
theories/ExchStep.v
theories/ExchAll.v
theories/ExchProps.v
theories/ExactModel.v
theories/ExactSpec.v
theories/ExactFacts.v
theories/ExactRoot.v
theories/ExactSample.v
theories/ExactProps.v
theories/MgModel.v
theories/MgSpec.v
theories/MgFacts.v
theories/MgConv.v
theories/MgProps.v
theories/CoolModel.v
theories/CoolSpec.v
theories/CoolProps.v
theories/RanModel.v
theories/RanSpec.v
theories/RanProps.v
theories/L1Model.v
theories/L1Spec.v
theories/L1Props.v
theories/OdeModel.v
theories/OdeSpec.v
theories/OdeProps.v
theories/VtkOneModel.v
theories/VtkOneSpec.v
theories/VtkOneProps.v
theories/PBinModel.v
theories/PBinSpec.v
theories/PBinProps.v
theories/PHistModel.v
theories/PHistSpec.v
theories/PHistProps.v
theories/TabOneModel.v
theories/TabOneSpec.v
theories/TabOneProps.v
theories/TabMeshModel.v
theories/TabMeshProps.v
