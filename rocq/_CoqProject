-Q theories Verif
theories/Alg.v
theories/QScalars.v
theories/ModelMPS.v
theories/SpecMPS.v
theories/ProofMPS.v
theories/ProofMPS2.v
theories/Examples.v
theories/PropMPS.v
theories/ModelOrth.v
theories/SpecOrth.v
theories/ProofOrth.v
theories/ProofOrth2.v
theories/ProofOrth3.v
theories/ProofMeas.v
theories/Oracle.v
theories/ModelCanon.v
theories/ProofOrth4.v
theories/ExOrth.v
theories/PropOrth.v
theories/SpecCanon.v
theories/ProofCanon.v
theories/ProofCanon2.v
theories/ProofGauge.v
theories/ProofRank.v
theories/ProofBack.v
theories/ProofBack2.v
theories/ProofCanon3.v
theories/ProofCanon4.v
theories/Oracle2.v
theories/ExCanon.v
theories/PropCanon.v
theories/ModelStruct.v
theories/SpecStruct.v
theories/ProofStruct.v
theories/ModelPad.v
theories/ProofPad.v
theories/ExStruct.v
theories/PropStruct.v
theories/SpecHist.v
theories/ProofHist.v
theories/ExMeas.v
theories/PropMeas.v
theories/ModelTwo.v
theories/SpecTwo.v
theories/ProofTwo.v
theories/ProofTwo2.v
theories/ProofTwo3.v
theories/ExTwo.v
theories/PropTwo.v
theories/ModelState.v
theories/SpecState.v
theories/ProofState.v
theories/PropState.v
theories/ModelTraj.v
theories/SpecTraj.v
theories/ProofTraj.v
theories/ProofRK.v
theories/ModelMisc.v
theories/ProofMisc.v
theories/ExTraj.v
theories/PropTraj.v
theories/PropMisc.v
theories/ProofAttr.v
theories/PropAttr.v
theories/ModelNcon.v
theories/SpecNcon.v
theories/ProofNcon.v
theories/ProofNcon2.v
theories/ProofNcon3.v
theories/ProofNcon4.v
theories/PropNcon.v
theories/ModelEk.v
theories/SpecEk.v
theories/ProofEk.v
theories/ProofEk2.v
theories/ProofEk3.v
theories/ProofEk4.v
theories/ProofEk5.v
theories/ProofEk6.v
theories/ProofEk7.v
theories/ExEk.v
theories/PropEk.v
theories/ModelEnergy.v
theories/SpecEnergy.v
theories/ProofEnergy.v
theories/ExEnergy.v
theories/PropEnergy.v
theories/ModelTensor.v
theories/SpecTensor.v
theories/ProofTensor.v
theories/ProofTrace.v
theories/ProofTrace2.v
theories/PropTensor.v
theories/ModelDecomp.v
theories/SpecDecomp.v
theories/ProofDecomp.v
theories/ProofDecomp2.v
theories/ProofDecomp3.v
theories/ExDecomp.v
theories/PropDecomp.v
theories/ModelSpin.v
theories/SpecSpin.v
theories/ProofSpin.v
theories/ProofSpin2.v
theories/ProofSpin3.v
theories/ProofSpin4.v
theories/ModelLie.v
theories/SpecLie.v
theories/ProofLie.v
theories/ProofLie2.v
theories/ProofLie3.v
theories/ProofLie4.v
theories/ProofLie5.v
theories/ExReal.v
theories/PropSpin.v
theories/PropLie.v
theories/ModelExp.v
theories/SpecExp.v
theories/ProofExp.v
theories/ProofExp2.v
theories/ProofExp3.v
theories/ExExp.v
theories/PropExp.v
theories/ModelNp.v
theories/SpecNp.v
theories/ProofNp.v
theories/PropNp.v
theories/ModelPeps.v
theories/SpecPeps.v
theories/ProofPeps.v
theories/ProofPeps2.v
theories/ProofPeps3.v
theories/ProofPeps4.v
theories/ProofPeps5.v
theories/ProofPeps6.v
theories/ProofPeps7.v
theories/ProofPeps8.v
theories/ProofPeps9.v
theories/ProofPeps10.v
theories/ProofPeps11.v
theories/ProofPeps12.v
theories/ProofPeps13.v
theories/ProofPeps14.v
theories/ProofPeps15.v
theories/ExPeps.v
theories/PropPeps.v
theories/ModelImps.v
theories/SpecImps.v
theories/ProofImps.v
theories/ProofFm.v
theories/ProofImps2.v
theories/ProofImps3.v
theories/ProofImps4.v
theories/ProofImps5.v
theories/ProofImps6.v
theories/ProofImps7.v
theories/ProofImps8.v
theories/ProofImps9.v
theories/ProofImps10.v
theories/ExImps.v
theories/PropImps.v
theories/SpecHam.v
theories/ModelHam.v
theories/ProofHam.v
theories/ProofHam2.v
theories/ProofHam3.v
theories/ProofHam4.v
theories/PropHam.v
theories/ModelTests.v
theories/SpecTests.v
theories/ProofTests.v
theories/PropTests.v
theories/ModelTFD.v
theories/SpecTFD.v
theories/ProofTFD.v
theories/PropTFD.v
theories/ModelTan.v
theories/SpecTan.v
theories/ProofTan.v
theories/ProofTan2.v
theories/ProofTan3.v
theories/ExTan.v
theories/PropTan.v
theories/ModelTdvp.v
theories/SpecTdvp.v
theories/ProofTdvp.v
theories/ProofTdvp2.v
theories/ProofTdvp3.v
theories/ProofTdvp4.v
theories/ProofTdvp5.v
theories/ProofTdvp6.v
theories/ProofTdvp7.v
theories/ProofTdvp8.v
theories/ProofTdvp9.v
theories/ProofTdvp10.v
theories/ExTdvp.v
theories/PropTdvp.v
theories/ProofImps11.v
theories/PropImpsFix.v
theories/ModelJac.v
theories/SpecJac.v
theories/ProofJac.v
theories/ProofJac2.v
theories/ProofJac3.v
theories/ProofJac4.v
theories/ProofJac5.v
theories/ExJac.v
theories/PropJac.v
theories/ModelChrist.v
theories/SpecChrist.v
theories/ProofChrist.v
theories/ProofChrist2.v
theories/ProofChrist3.v
theories/ProofChrist4.v
theories/ExChrist.v
theories/PropChrist.v
theories/SpecImpsA.v
theories/ProofImps12.v
theories/PropImpsA.v
theories/ProofNbody.v
theories/PropNbody.v
theories/ModelApprox.v
theories/SpecApprox.v
theories/ProofMpoMps.v
theories/ProofProd.v
theories/ProofApprox.v
theories/ExApprox.v
theories/PropProd.v
theories/ModelGauge.v
theories/SpecGauge.v
theories/ProofMatch.v
theories/ProofMatch2.v
theories/ExGauge.v
theories/PropGauge.v
theories/ModelFull.v
theories/SpecFull.v
theories/ProofFull.v
theories/ProofFull2.v
theories/ProofFull3.v
theories/ProofFull4.v
theories/ProofFull5.v
theories/ProofFull6.v
theories/ExFull.v
theories/PropFull.v
theories/ModelEd.v
theories/SpecEd.v
theories/ProofEd.v
theories/ProofEd2.v
theories/ProofEd3.v
theories/ProofEd4.v
theories/ExEd.v
theories/PropEd.v
theories/ModelQmb.v
theories/SpecQmb.v
theories/ProofQmb.v
theories/ProofQmb2.v
theories/ProofQmb3.v
theories/PropQmb.v
theories/ModelExam.v
theories/SpecExam.v
theories/ProofExam.v
theories/ProofExam2.v
theories/PropExam.v
theories/ModelDouble.v
theories/SpecDouble.v
theories/ProofDouble.v
theories/ProofDouble2.v
theories/PropDouble.v
theories/ModelRest.v
theories/SpecRest.v
theories/ProofRest.v
theories/ProofRest2.v
theories/ProofRest3.v
theories/PropRest.v
theories/ModelOtoc.v
theories/SpecOtoc.v
theories/ProofOtoc.v
theories/PropOtoc.v
theories/ModelItraj.v
theories/SpecItraj.v
theories/ProofItraj.v
theories/ProofItraj2.v
theories/ExItraj.v
theories/PropItraj.v
theories/ModelDis.v
theories/SpecDis.v
theories/ProofDis.v
theories/ProofDis2.v
theories/PropDis.v
theories/ModelGround.v
theories/SpecGround.v
theories/ProofGround.v
theories/PropGround.v
theories/ModelEns.v
theories/SpecEns.v
theories/ProofEns.v
theories/ExEns.v
theories/PropEns.v
theories/ModelEffh.v
theories/SpecEffh.v
theories/ProofEffh.v
theories/ProofEffh2.v
theories/ProofEffh3.v
theories/ExEffh.v
theories/PropEffh.v
theories/ModelTrunc.v
theories/SpecTrunc.v
theories/ProofTrunc.v
theories/ProofTrunc2.v
theories/ProofTrunc3.v
theories/ExTrunc.v
theories/PropTrunc.v
theories/ModelMpo.v
theories/ProofMpo.v
theories/PropMpo.v
