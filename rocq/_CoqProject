-Q theories Verif
theories/Num.v
theories/Arr.v
theories/Families.v
theories/Data.v
theories/Reg.v
theories/Irls.v
theories/FitM.v
theories/Model.v
theories/F64.v
theories/SpecIrls.v
theories/IrlsFacts.v
theories/IrlsProofs.v
theories/F64Facts.v
theories/RInst.v
theories/Lin.v
theories/SpecGlm.v
theories/FamFacts.v
theories/FamCalc.v
theories/LoopReal.v
theories/F64Flocq.v
theories/NanFit.v
theories/Wit.v
theories/WitLoop.v
theories/WitReal.v
theories/LoopProps.v
theories/PropsLoop.v
theories/FamProps.v
theories/PropsFam.v
theories/SpecData.v
theories/DataReal.v
theories/BuildReal.v
theories/SpecBuild.v
theories/BuildGen.v
theories/BuildProps.v
theories/PropsBuild.v
theories/SpecFit.v
theories/FitFacts.v
theories/WitFit.v
theories/RegFacts.v
theories/AdmmProps.v
theories/GlmCalc.v
theories/GlmProps.v
theories/ScoreProps.v
theories/GlmWit.v
theories/PropsReg.v
theories/PropsGlm.v
theories/DataProps.v
theories/PropsData.v
theories/SpecStat.v
theories/StatFacts.v
theories/HatProps.v
theories/LinProps.v
theories/LooProps.v
theories/TestProps.v
theories/StatWit.v
theories/PropsStat.v
theories/SpecWeights.v
theories/WeightFacts.v
theories/RowFacts.v
theories/WeightProps.v
theories/StdProps.v
theories/WeightStmt.v
theories/WeightWit.v
theories/PropsWeights.v
theories/SpecMisc.v
theories/InitProps.v
theories/PvalProps.v
theories/DropProps.v
theories/MiscWit.v
theories/PropsMisc.v
theories/Cache.v
theories/SpecCache.v
theories/CacheProps.v
theories/CacheWit.v
theories/PropsCache.v
theories/Quantile.v
theories/SpecQuant.v
theories/QuantProps.v
theories/QuantIeee.v
theories/QuantWit.v
theories/PropsQuant.v
theories/SpecSame.v
theories/FamSame.v
theories/SameWit.v
theories/PropsSame.v
theories/SpecPerm.v
theories/PermFacts.v
theories/PermStat.v
theories/PermProps.v
theories/PermWit.v
theories/PropsPerm.v
theories/ResidProps.v
theories/CritProps.v
theories/ResidWit.v
theories/PropsResid.v
theories/SpecLinear.v
theories/LinearFit.v
theories/SpdSolver.v
theories/LinearWit.v
theories/PropsLinear.v
theories/SpecGap.v
theories/OptGap.v
theories/GapWit.v
theories/PropsGap.v
theories/AdmmLin.v
theories/Stall.v
theories/StallF64.v
theories/StallReal.v
theories/AdmmWit.v
theories/PropsAdmm.v
theories/SpecMirror.v
theories/Mirror.v
theories/MirrorData.v
theories/UnitsProps.v
theories/ClassProps.v
theories/MirrorWit.v
theories/UnitsWit.v
theories/PropsMirror.v
theories/Cluster.v
theories/SpecOpt.v
theories/OptExist.v
theories/OptFit.v
theories/StartWit.v
theories/OptWit.v
theories/PropsOpt.v
theories/SpecMirrorStat.v
theories/ClassReg.v
theories/ClassStat.v
theories/PropsClass.v
theories/SpecUnits.v
theories/UnitsStat.v
theories/UnitsExact.v
theories/UnitsFit.v
theories/UnitsStatWit.v
theories/UnitsExactWit.v
theories/PropsUnits.v
theories/CustomLink.v
theories/SpecCustom.v
theories/CustomProps.v
theories/CustomFit.v
theories/CustomHand.v
theories/CustomWit.v
theories/F64Bin.v
theories/PropsCustom.v
theories/OscReal.v
theories/OscFit.v
theories/LocalReal.v
theories/SpecLocal.v
theories/LocalFit.v
theories/LocalProps.v
theories/LocalWit.v
theories/PropsConverge.v
theories/SpecRecode.v
theories/RecodeCore.v
theories/RecodeProps.v
theories/RecodeWit.v
theories/PropsRecode.v
theories/SpecSided.v
theories/SidedFit.v
theories/SidedProps.v
theories/SidedWit.v
theories/PropsSided.v
theories/SpecRound.v
theories/RoundDev.v
theories/RoundProps.v
theories/RoundWit.v
theories/PropsRound.v
theories/SpecResponse.v
theories/ResponseFit.v
theories/ResponseStat.v
theories/ResponseProps.v
theories/ResponseWit.v
theories/PropsResponse.v
theories/SpecProportion.v
theories/ProportionFit.v
theories/ProportionData.v
theories/ProportionStat.v
theories/ProportionWit.v
theories/PropsProportion.v
theories/SpecAbort.v
theories/AbortProps.v
theories/AbortWit.v
theories/PropsAbort.v
theories/SpecPath.v
theories/PathProps.v
theories/PathWit.v
theories/PropsPath.v
theories/SpecCollinear.v
theories/CollinearProps.v
theories/CollinearWit.v
theories/PropsCollinear.v
theories/SpecOffset.v
theories/OffsetFit.v
theories/OffsetProps.v
theories/OffsetWit.v
theories/PropsOffset.v
theories/SpecExposure.v
theories/ExposureFit.v
theories/ExposureStat.v
theories/ExposureProps.v
theories/ExposureWit.v
theories/PropsExposure.v
theories/SpecGroup.v
theories/GroupProps.v
theories/GroupWit.v
theories/PropsGroup.v
theories/SpecNan.v
theories/NanWin.v
theories/PropsNan.v
theories/SpecPredict.v
theories/PredictIeee.v
theories/PredictF.v
theories/PredictProps.v
theories/PredictWit.v
theories/PredictWitR.v
theories/PropsPredict.v
theories/SpecUnit.v
theories/UnitFit.v
theories/UnitProps.v
theories/UnitWit.v
theories/UnitWitR.v
theories/PropsUnit.v
theories/FittedF.v
theories/SpecColumns.v
theories/Columns.v
theories/ColumnsProps.v
theories/ColumnsBuild.v
theories/ColumnsStat.v
theories/ColumnsWit.v
theories/PropsColumns.v
theories/ColumnsExact.v
theories/ColumnsExactWit.v
