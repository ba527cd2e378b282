-Q theories Verif
theories/Num.v
theories/Monad.v
theories/Spin.v
theories/Config.v
theories/Chain.v
theories/Langevin.v
theories/NumR.v
theories/NumF64.v
theories/SpecVec.v
theories/ProofsSpin.v
theories/ProofsF64.v
theories/SpecMC.v
theories/ProofsMC.v
theories/PropSpin.v
theories/SpecChain.v
theories/Samples.v
theories/ProofsChain.v
theories/ProofsEnergy.v
theories/ProofsDrive.v
theories/ProofsNew.v
theories/ProofsDyn.v
theories/ProofsDynR.v
theories/ProofsDyn2.v
theories/ProofsDyn3.v
theories/ProofsDyn4.v
theories/PropDyn.v
theories/PropEnergy.v
theories/PropNew.v
theories/ProofsMCR.v
theories/ProofsMCR2.v
theories/ProofsMCR3.v
theories/ProofsMCR4.v
theories/ProofsMCR5.v
theories/ProofsMCR6.v
theories/ProofsMCR7.v
theories/ProofsMCR8.v
theories/ProofsMCF64.v
theories/ProofsMCR9.v
theories/PropMC.v
theories/SpecLang.v
theories/ProofsLang.v
theories/ProofsLangR.v
theories/ProofsLangE.v
theories/PropLang.v
theories/SpecFFT.v
theories/ProofsFFT.v
theories/PropFFT.v
theories/ProofsFlocq.v
theories/SpecTotal.v
theories/ProofsTotal.v
theories/PropTotal.v
theories/SpecRound.v
theories/ProofsRound.v
theories/ProofsRound2.v
theories/PropRound.v
theories/Fit.v
theories/SpecFit.v
theories/ProofsFit.v
theories/ProofsFitR.v
theories/PropFit.v
theories/Files.v
theories/Toml.v
theories/Writers.v
theories/Average.v
theories/Runs.v
theories/Main.v
theories/SpecWriters.v
theories/ProofsWriters.v
theories/ProofsProfile.v
theories/PropWriters.v
theories/SpecAverage.v
theories/ProofsAverage.v
theories/ProofsDir.v
theories/PropAverage.v
theories/SpecToml.v
theories/ProofsToml.v
theories/ProofsNames.v
theories/SpecRuns.v
theories/ProofsFrame.v
theories/SpecMain.v
theories/ProofsMain.v
theories/ProofsHistory.v
theories/ProofsLoop.v
theories/ProofsSim.v
theories/ProofsStrobe.v
theories/ProofsTraj.v
theories/ProofsCheckpoints.v
theories/ProofsZeroRow.v
theories/ProofsRunSamples.v
theories/PropRuns.v
theories/ProofsProgram.v
theories/ProofsTomlSamples.v
theories/PropToml.v
theories/ProofsFlow.v
theories/ProofsPass.v
theories/ProofsRunTotal.v
theories/SpecReady.v
theories/ProofsReady.v
theories/ProofsReadySamples.v
theories/PropMain.v
theories/ProofsWipe.v
theories/ProofsSchedule.v
theories/ProofsHistorySamples.v
theories/PropHistory.v
theories/SpecColumns.v
theories/ProofsColumns.v
theories/PropColumns.v
theories/SpecResponse.v
theories/ProofsResponse.v
theories/ProofsResponse2.v
theories/PropResponse.v
theories/SpecSampling.v
theories/ProofsSampling.v
theories/PropSampling.v
theories/SpecPeriods.v
theories/ProofsPeriods.v
theories/PropPeriods.v
theories/SpecHist.v
theories/ProofsHist.v
theories/ProofsHist2.v
theories/ProofsHist3.v
theories/ProofsHistSamples.v
theories/PropHist.v
theories/SpecMagnus.v
theories/ProofsMagnus.v
theories/ProofsMagnus2.v
theories/PropMagnus.v
theories/SpecOrder.v
theories/ProofsJet.v
theories/ProofsOrder.v
theories/ProofsOrder2.v
theories/ProofsOrder3.v
theories/ProofsOrderSamples.v
theories/PropOrder.v
theories/SpecBath.v
theories/ProofsFirst.v
theories/ProofsBath.v
theories/ProofsBath2.v
theories/ProofsBathSamples.v
theories/PropBath.v
theories/SpecFrame.v
theories/ProofsExist.v
theories/ProofsExist2.v
theories/PropExist.v
theories/ProofsFrame2.v
theories/ProofsFrameSamples.v
theories/PropFrame.v
theories/SpecReport.v
theories/ProofsReport.v
theories/ProofsReport2.v
theories/PropReport.v
theories/SpecLive.v
theories/ProofsLive.v
theories/PropLive.v
theories/SpecMean.v
theories/ProofsMean.v
theories/ProofsMean2.v
theories/ProofsMean3.v
theories/ProofsMean4.v
theories/ProofsMean5.v
theories/ProofsMean6.v
theories/ProofsMean7.v
theories/ProofsMean8.v
theories/PropMean.v
theories/SpecNewMean.v
theories/ProofsNewMean.v
theories/ProofsNewMean2.v
theories/ProofsNewMean3.v
theories/ProofsNewMean4.v
theories/ProofsNewMean5.v
theories/PropNewMean.v
theories/Cli.v
theories/SpecCli.v
theories/ProofsCli.v
theories/ProofsCli2.v
theories/ProofsCli3.v
theories/ProofsCliSamples.v
theories/PropCli.v
theories/SpecFalls.v
theories/ProofsFalls.v
theories/ProofsFalls2.v
theories/ProofsFalls3.v
theories/ProofsFalls4.v
theories/ProofsFalls5.v
theories/ProofsFalls6.v
theories/ProofsFalls7.v
theories/ProofsFallsSamples.v
theories/PropFalls.v
theories/SpecLangRun.v
theories/ProofsLangRun.v
theories/PropLangRun.v
theories/SpecClose.v
theories/ProofsTurn.v
theories/ProofsPi.v
theories/ProofsClose.v
theories/ProofsClose2.v
theories/ProofsClose3.v
theories/ProofsClose4.v
theories/ProofsClose5.v
theories/ProofsClose6.v
theories/ProofsCloseSamples.v
theories/ProofsClose7.v
theories/PropClose.v
theories/SpecKeep.v
theories/ProofsTiny.v
theories/ProofsKeep.v
theories/ProofsKeep2.v
theories/ProofsKeep3.v
theories/ProofsKeep4.v
theories/ProofsKeep5.v
theories/PropKeep.v
theories/SpecOptions.v
theories/ProofsOptions.v
theories/ProofsOptionsSamples.v
theories/PropOptions.v
theories/SpecSession.v
theories/ProofsSession.v
theories/ProofsSession2.v
theories/ProofsSession3.v
theories/ProofsSession4.v
theories/ProofsSession5.v
theories/ProofsSessionSamples.v
theories/PropSession.v
theories/SpecMade.v
theories/ProofsMade.v
theories/ProofsMade2.v
theories/ProofsMade3.v
theories/ProofsMadeSamples.v
theories/PropMade.v
theories/ProofsSized.v
theories/SpecNoisy.v
theories/ProofsNoisy.v
theories/ProofsNoisySamples.v
theories/PropNoisy.v
theories/SpecPage.v
theories/ProofsPage.v
theories/ProofsPageSamples.v
theories/PropPage.v
theories/SpecWarm.v
theories/ProofsWarm.v
theories/ProofsWarmSamples.v
theories/PropWarm.v
theories/SpecLeaf.v
theories/ProofsLeaf.v
theories/ProofsLeafSamples.v
theories/PropLeaf.v
theories/SpecTally.v
theories/ProofsTally.v
theories/ProofsTallySamples.v
theories/PropTally.v
theories/SpecPool.v
theories/ProofsPool.v
theories/ProofsPool2.v
theories/ProofsPoolSamples.v
theories/PropPool.v
theories/SpecClock.v
theories/ProofsClock.v
theories/ProofsClock2.v
theories/ProofsClockSamples.v
theories/PropClock.v
theories/ProofsOrigin.v
theories/ProofsOriginSamples.v
theories/PropOrigin.v
theories/SpecPair.v
theories/ProofsPair.v
theories/ProofsPairSamples.v
theories/PropPair.v
theories/SpecWords.v
theories/ProofsWords.v
theories/PropWords.v
theories/SpecCrop.v
theories/ProofsCrop.v
theories/ProofsCropSamples.v
theories/PropCrop.v
