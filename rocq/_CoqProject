-Q theories Verif
theories/Num.v
theories/Task.v
theories/TaskSpec.v
theories/TaskProofs.v
theories/TaskProofs2.v
theories/PropertiesTask.v
theories/Prog.v
theories/Wp.v
theories/GetBest.v
theories/Run.v
theories/RunSpec.v
theories/RunProofs.v
theories/AlgoLib.v
theories/Fops.v
theories/Indiv.v
theories/AlgDE.v
theories/IndivLib.v
theories/DESpec.v
theories/AlgDEProofs.v
theories/AlgAging.v
theories/RunProofs2.v
theories/PropertiesRun.v
theories/PropertiesDE.v
theories/Repair.v
theories/PropertiesRepair.v
theories/Infra.v
theories/PropertiesInfra.v
theories/AlgTac.v
theories/AlgPSO.v
theories/AlgPSOProofs.v
theories/B64.v
theories/B64Spec.v
theories/ExLib.v
theories/PropertiesPSO.v
theories/StepSpec.v
theories/StepLib.v
theories/AlgBat.v
theories/AlgSwarm.v
theories/AlgBatProofs.v
theories/PropertiesBat.v
theories/PopLib.v
theories/AlgSwarmProofs.v
theories/PropertiesSwarm.v
theories/Reach.v
theories/SortLib.v
theories/AlgBasic.v
theories/AlgBasicProofs.v
theories/ExLib2.v
theories/PropertiesBasic.v
theories/AlgEvo.v
theories/AlgEvoProofs.v
theories/PropertiesEvo.v
theories/PropertiesDE2.v
theories/AlgFwa.v
theories/AlgFwaProofs.v
theories/PropertiesFwa.v
theories/AlgOther.v
theories/B64Div.v
theories/AlgOtherProofs.v
theories/PropertiesOther.v
theories/Progress.v
theories/Endless.v
theories/PropertiesProgress.v
theories/Bench.v
theories/BenchLib.v
theories/PropertiesFormula.v
theories/PropertiesMinima.v
theories/Det.v
theories/AlgBasic2.v
theories/B64Int.v
theories/AlgBasic2Proofs.v
theories/PropertiesBasic2.v
theories/AlgMod.v
theories/AlgModProofs.v
theories/PropertiesMod.v
theories/PropertiesProgress2.v
theories/AlgBasic3.v
theories/AlgBasic3Proofs.v
theories/PropertiesBasic3.v
theories/PropertiesProgress3.v
theories/Guard.v
theories/B64Mag.v
theories/AlgShade.v
theories/AlgShadeProofs.v
theories/PropertiesShade.v
theories/PropertiesShade2.v
theories/PropertiesProgress4.v
theories/KeepLib.v
theories/AlgMts.v
theories/AlgMtsProofs.v
theories/PropertiesMts.v
theories/AlgHde.v
theories/AlgHdeProofs.v
theories/PropertiesHde.v
theories/CondLib.v
theories/ThreadLib.v
theories/AlgCa.v
theories/AlgCaProofs.v
theories/PropertiesCa.v
theories/AlgKh.v
theories/AlgKhProofs.v
theories/PropertiesKh.v
theories/Late.v
theories/AlgMshoa.v
theories/AlgMshoaProofs.v
theories/PropertiesMshoa.v
theories/AlgAso.v
theories/AlgAsoProofs.v
theories/PropertiesAso.v
theories/AlgCro.v
theories/AlgCroProofs.v
theories/PropertiesCro.v
theories/AlgLoa.v
theories/AlgLoaProofs.v
theories/PropertiesLoa.v
theories/PropertiesMts2.v
theories/Pycall.v
theories/ParamTable.v
theories/PycallProofs.v
theories/ParamForms.v
theories/ParamRows.v
theories/ParamRounds.v
theories/PropertiesParams.v
theories/PropertiesTight.v
theories/PropertiesDist.v
theories/PropertiesPSO2.v
theories/PropertiesFwa2.v
theories/PropertiesSca.v
theories/PropertiesFormula2.v
theories/PropertiesSchwefel.v
theories/PropertiesGa.v
