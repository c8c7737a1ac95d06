-Q theories Verif
theories/Base.v
theories/Num.v
theories/ModelTerm.v
theories/ModelCollide.v
theories/ModelFactories.v
theories/SpecPhys.v
theories/ProofCollide.v
theories/SpecTerm.v
theories/ProofTerm.v
theories/ProofInelastic.v
theories/SpecFactories.v
theories/ProofFactories.v
theories/ProofF64.v
theories/ProofReact.v
theories/ProofTop1.v
theories/Properties1.v
theories/ModelXsec.v
theories/SpecXsec.v
theories/ProofXsec.v
theories/ProofData.v
theories/Properties2.v
theories/ModelSet.v
theories/SpecSet.v
theories/ProofSet.v
theories/ProofThr.v
theories/ProofFloat.v
theories/ProofSelect.v
theories/ProofDriver.v
theories/ProofDriver2.v
theories/ProofDriver3.v
theories/ProofDriver4.v
theories/ProofDriver5.v
theories/ProofTop3.v
theories/Properties3.v
theories/ModelEq.v
theories/SpecEq.v
theories/ProofOrder.v
theories/ProofEq.v
theories/ProofEq2.v
theories/ProofEq3.v
theories/ProofTop4.v
theories/Properties4.v
theories/ModelFilter.v
theories/ModelDB.v
theories/SpecFilter.v
theories/SpecDB.v
theories/ProofFilter.v
theories/ProofFilter2.v
theories/ProofFilter3.v
theories/ProofFilter4.v
theories/ProofText.v
theories/ProofLoad.v
theories/Properties5.v
theories/ProofDB.v
theories/ProofDB2.v
theories/ProofDB3.v
theories/Properties6.v
theories/ModelMisc.v
theories/SpecMisc.v
theories/ProofMisc.v
theories/ProofGauss.v
theories/ProofThermal.v
theories/Properties7.v
theories/ModelMore.v
theories/SpecMore.v
theories/ProofMean.v
theories/ProofMean2.v
theories/ProofReach.v
theories/ProofTail.v
theories/ProofMore.v
theories/Properties8.v
theories/SpecRun.v
theories/ProofRun.v
theories/ProofRun2.v
theories/ProofRun3.v
theories/Properties9.v
theories/ModelOps.v
theories/SpecOps.v
theories/ProofOps.v
theories/ProofOps2.v
theories/Properties10.v
theories/SpecInit.v
theories/ProofInit.v
theories/ProofInit2.v
theories/Properties11.v
theories/ProofBig.v
theories/Properties12.v
theories/SpecLoad.v
theories/ProofLoad2.v
theories/Properties13.v
theories/ModelCalc.v
theories/SpecCalc.v
theories/ProofCalc.v
theories/Properties14.v
theories/ModelUnits.v
theories/SpecUnits.v
theories/ProofUnits.v
theories/Properties15.v
theories/ModelShippedTables.v
theories/ModelShipped.v
theories/SpecShipped.v
theories/SpecLoadable.v
theories/ProofLoadable.v
theories/ProofShipped.v
theories/ProofShipped2.v
theories/ProofNever.v
theories/ProofShipped3.v
theories/ProofShipped4.v
theories/Properties16.v
theories/SpecRate.v
theories/ProofRate.v
theories/ProofRate2.v
theories/ProofRate3.v
theories/ProofRate4.v
theories/ProofRate5.v
theories/ProofRate6.v
theories/Properties17.v
theories/Properties18.v
theories/SpecRound.v
theories/ProofRound.v
theories/ProofRound2.v
theories/ProofRound3.v
theories/ProofRound4.v
theories/ProofRound5.v
theories/ProofRound6.v
theories/ProofRound7.v
theories/Properties19.v
theories/ProofRound8.v
theories/ProofRound9.v
theories/ProofRound10.v
theories/ProofRound11.v
theories/ProofRound12.v
theories/ProofRound13.v
theories/ProofRound14.v
theories/Properties20.v
theories/Properties21.v
theories/ProofRound15.v
theories/SpecGas.v
theories/ProofGas.v
theories/Properties22.v
theories/SpecDouble.v
theories/ProofDouble.v
theories/ProofDouble2.v
theories/ProofDouble3.v
theories/ProofDouble4.v
theories/Properties23.v
theories/ProofTests.v
theories/Properties24.v
theories/ModelSim.v
theories/SpecSim.v
theories/ProofSim.v
theories/ProofSim2.v
theories/ProofSim3.v
theories/Properties25.v
theories/SpecOut.v
theories/ProofOut.v
theories/Properties26.v
theories/ProofSim4.v
theories/SpecFrame.v
theories/ProofFrame.v
theories/ProofFrame2.v
theories/Properties27.v
theories/SpecDraws.v
theories/ProofDraws.v
theories/ProofDraws2.v
theories/Properties28.v
theories/SpecMean3.v
theories/ProofMean3.v
theories/Properties29.v
theories/SpecNan.v
theories/ProofNan.v
theories/Properties30.v
theories/SpecMean4.v
theories/ProofMean4.v
theories/Properties31.v
theories/SpecNan2.v
theories/ProofNan2.v
theories/Properties32.v
theories/SpecIdle.v
theories/ProofIdle.v
theories/Properties33.v
theories/SpecIdle2.v
theories/ProofIdle2.v
theories/Properties34.v
