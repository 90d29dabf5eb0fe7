-Q theories Verif
theories/Base.v
theories/VectorModel.v
theories/MatrixModel.v
theories/InPlaceModel.v
theories/LinSpec.v
theories/MatProofs.v
theories/MatProofs2.v
theories/MatProofs3.v
theories/Gauss.v
theories/LinProofs.v
theories/LinSpec2.v
theories/LinProps.v
theories/SpecialProps.v
theories/ThmLin.v
theories/ThmSpecial.v
theories/BlockProofs.v
theories/HPSModel.v
theories/HPSSpec.v
theories/HPSProofs.v
theories/HPSProofs2.v
theories/HPSProofs3.v
theories/HPSProofs4.v
theories/HPSTree.v
theories/HPSTree2.v
theories/HPSCert.v
theories/HPSProps.v
theories/ThmHPS.v
theories/StageSpec.v
theories/HPSSizes.v
theories/HPSHistory.v
theories/HPSRebuild.v
theories/HPSStage.v
theories/HPSStage2.v
theories/StageProps.v
theories/ThmStage.v
theories/FVModel.v
theories/FVSpec.v
theories/FVProofs.v
theories/FVProofs2.v
theories/FVProofs3.v
theories/FVMax.v
theories/GlobalSpec.v
theories/FVJoin.v
theories/FVGlobal.v
theories/FVFish.v
theories/FVRect.v
theories/FVEnd.v
theories/FVProps.v
theories/ThmFV.v
theories/TreeModel.v
theories/TreeSpec.v
theories/TreeProofs.v
theories/TreeTile.v
theories/TreeCtor.v
theories/TreeOrder.v
theories/TreeMap.v
theories/TreeOrder2.v
theories/TreeProps.v
theories/ThmTree.v
theories/ObjModel.v
theories/ObjSpec.v
theories/ObjProofs.v
theories/ObjProps.v
theories/ThmObj.v
theories/ParModel.v
theories/ParSpec.v
theories/ParProofs.v
theories/ParRun.v
theories/ParSearch.v
theories/ParCtor.v
theories/ParStages.v
theories/ParProps.v
theories/ThmPar.v
theories/MeshModel.v
theories/MeshSpec.v
theories/MeshProofs.v
theories/MeshRefine.v
theories/MeshProps.v
theories/ThmMesh.v
theories/XmlModel.v
theories/XmlSpec.v
theories/XmlProofs.v
theories/VtkProofs.v
theories/XmlProps.v
theories/ThmXml.v
theories/OptModel.v
theories/OptSpec.v
theories/OptProofs.v
theories/OptProofs2.v
theories/OptProps.v
theories/ThmOpt.v
theories/InterpModel.v
theories/InterpSpec.v
theories/InterpProofs.v
theories/InterpProps.v
theories/ThmInterp.v
theories/WireModel.v
theories/WireSpec.v
theories/WireProofs.v
theories/WireProps.v
theories/ThmWire.v
theories/TimerModel.v
theories/TimerSpec.v
theories/TimerProps.v
theories/ThmTimer.v
theories/PMatModel.v
theories/PMatSpec.v
theories/PMatProps.v
theories/ThmPMat.v
theories/AdaptSpec.v
theories/AdaptProofs.v
theories/AdaptPlane.v
theories/AdaptEnd.v
theories/AdaptCert.v
theories/AdaptProps.v
theories/ThmAdapt.v
theories/NormSpec.v
theories/NormProps.v
theories/ThmNorm.v
theories/CompareSpec.v
theories/FVCompare.v
theories/CompareProps.v
theories/ThmCompare.v
theories/ConvSpec.v
theories/ConvProofs.v
theories/ConvProps.v
theories/ThmConv.v
theories/FVMixed.v
theories/MixSpec.v
theories/MixProps.v
theories/ThmMix.v
theories/VecSpec.v
theories/VecProps.v
theories/ThmVec.v
theories/SymSpec.v
theories/SymProofs.v
theories/SymProps.v
theories/ThmSym.v
theories/DtnModel.v
theories/DtnSpec.v
theories/DtnProofs.v
theories/DtnProps.v
theories/ThmDtn.v
theories/ThermalModel.v
theories/ThermalSpec.v
theories/ThermalProofs.v
theories/HeatProofs.v
theories/ModCert.v
theories/BoundaryCert.v
theories/ThermalAdapt.v
theories/ThermalProps.v
theories/ThmThermal.v
theories/ReportModel.v
theories/ReportSpec.v
theories/ReportProofs.v
theories/ReportProps.v
theories/ThmReport.v
theories/FloatModel.v
theories/FloatSpec.v
theories/FloatProofs.v
theories/FloatProofs2.v
theories/FloatProofs3.v
theories/FloatProofs4.v
theories/FloatProps.v
theories/ThmFloat.v
theories/FNormModel.v
theories/FNormSpec.v
theories/FNormProofs.v
theories/FNormProps.v
theories/ThmFNorm.v
theories/AliasModel.v
theories/AliasSpec.v
theories/AliasProps.v
theories/ThmAlias.v
theories/ResModel.v
theories/ResSpec.v
theories/ResProofs.v
theories/ResProps.v
theories/ThmRes.v
theories/SingSpec.v
theories/SingProofs.v
theories/SingProps.v
theories/ThmSing.v
theories/MemModel.v
theories/MemSpec.v
theories/MemProofs.v
theories/MemProps.v
theories/ThmMem.v
theories/LifeModel.v
theories/LifeSpec.v
theories/LifeProps.v
theories/ThmLife.v
theories/SmallProps.v
theories/ThmSmall.v
theories/GatherModel.v
theories/GatherSpec.v
theories/GatherProofs.v
theories/GatherProps.v
theories/ThmGather.v
theories/DVecModel.v
theories/DVecSpec.v
theories/DVecProofs.v
theories/DVecProps.v
theories/ThmDVec.v
theories/FProdModel.v
theories/FProdSpec.v
theories/FProdProofs.v
theories/FProdProofs2.v
theories/FProdProofs3.v
theories/FProdProofs4.v
theories/FProdProofs5.v
theories/FProdProofs6.v
theories/FProdProofs7.v
theories/FProdProofs8.v
theories/FProdProofs9.v
theories/FProdProps.v
theories/ThmFProd.v
theories/RealSpec.v
theories/RealProofs.v
theories/RealProofs2.v
theories/RealProps.v
theories/ThmReal.v
theories/WorldModel.v
theories/WorldSpec.v
theories/WorldProofs.v
theories/WorldProofs2.v
theories/WorldProofs3.v
theories/WorldProps.v
theories/ThmWorld.v
theories/MisuseSpec.v
theories/MisuseProofs.v
theories/MisuseProps.v
theories/ThmMisuse.v
theories/ScaleSpec.v
theories/ScaleProofs.v
theories/ScaleProps.v
theories/ThmScale.v
theories/MirrorSpec.v
theories/MirrorProofs.v
theories/MirrorProps.v
theories/ThmMirror.v
theories/ThermParModel.v
theories/ThermParSpec.v
theories/ThermParProofs.v
theories/ThermParMesh.v
theories/ThermParProps.v
theories/ThmThermPar.v
