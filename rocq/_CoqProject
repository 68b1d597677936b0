-Q theories Verif
theories/Base.v
theories/BaseFacts.v
theories/Nodes.v
theories/NodesFacts.v
theories/Circuit.v
theories/CircuitFacts.v
theories/PropsCircuit.v
theories/Rsum.v
theories/Mna.v
theories/MnaSpec.v
theories/MnaFacts.v
theories/DynFacts.v
theories/PropsMna.v
theories/DcSolve.v
theories/DcSolveFacts.v
theories/Newton.v
theories/NewtonFacts.v
theories/Sweep.v
theories/SweepFacts.v
theories/PropsDc.v
theories/PropsSweep.v
theories/Df.v
theories/Lagrange.v
theories/PropsDf.v
theories/Tran.v
theories/TranFacts.v
theories/PropsTran.v
theories/Combos.v
theories/Memo.v
theories/PropsUtil.v
theories/Str.v
theories/Units.v
theories/Lines.v
theories/PropsParse.v
theories/Subckt.v
theories/PropsSubckt.v
theories/TimeFun.v
theories/PropsTime.v
theories/Ics.v
theories/PropsIcs.v
theories/Csv.v
theories/PropsCsv.v
theories/Results.v
theories/PropsResults.v
theories/OpReport.v
theories/Postproc.v
theories/PropsPostproc.v
theories/Four.v
theories/PropsFour.v
theories/PropsOpReport.v
theories/DevReport.v
theories/PropsDevReport.v
theories/Diode.v
theories/PropsDiode.v
theories/Switch.v
theories/PropsSwitch.v
theories/Stamp.v
theories/PropsStamp.v
theories/Mosq.v
theories/Deriv.v
theories/PropsMosq.v
theories/Tunnel.v
theories/Ekv.v
theories/PropsTunnel.v
theories/PropsEkv.v
theories/Directive.v
theories/PropsDirective.v
theories/Fourier.v
theories/PropsFourier.v
theories/Ground.v
theories/PropsGround.v
theories/Guess.v
theories/PropsGuess.v
theories/Reader.v
theories/PropsReader.v
theories/PropsAnalyses.v
theories/Pss.v
theories/PropsPss.v
theories/Pz.v
theories/PropsPz.v
theories/Symb.v
theories/SymbFacts.v
theories/PropsSymb.v
theories/SymbSol.v
theories/PropsSymbSol.v
theories/Session.v
theories/PropsSession.v
theories/PropsSetup.v
theories/Simulate.v
theories/PropsSimulate.v
theories/Netlist.v
theories/NetlistFacts.v
theories/PropsNetlist.v
theories/RunQueue.v
theories/PropsRunQueue.v
theories/PropsEdit.v
theories/Ac.v
theories/AcFacts.v
theories/PropsAc.v
theories/SimulateAc.v
theories/PropsSimulateAc.v
theories/SimulateDc.v
theories/PropsSimulateDc.v
theories/PropsSimulateOp.v
theories/SimulateTran.v
theories/PropsSimulateTran.v
theories/SimulateNl.v
theories/SimulateAcNl.v
theories/PropsSimulateNl.v
theories/PropsSimulateAcNl.v
theories/PropsSimulateDcNl.v
theories/Waves.v
theories/PropsWaves.v
theories/SimulatePss.v
theories/PropsSimulatePss.v
theories/PropsSimulatePssNl.v
theories/SimulatePz.v
theories/PropsSimulatePz.v
theories/SimulateSub.v
theories/PropsSimulateSub.v
theories/PropsSimulateHier.v
theories/PropsSimulateSubLaws.v
theories/PropsSimulateCycle.v
theories/PropsSimulateIc.v
theories/PropsSimulateMainOp.v
theories/PropsSimulateMainEq.v
theories/PropsSimulateMainRel.v
theories/PropsSimulateMainSup.v
theories/PropsSimulateMainFnd.v
theories/PropsSimulateMainRec.v
theories/PropsSimulateMainMax.v
theories/SimulateIc.v
theories/PropsSimulateIcOp.v
theories/PropsSimulateMainNl.v
theories/SimulateMainPz.v
theories/PropsSimulateMainPz.v
theories/SimulateMainPss.v
theories/PropsSimulateMainPss.v
theories/SimulateMainAc.v
theories/PropsSimulateMainAc.v
theories/SimulateMain.v
theories/PropsSimulateMain.v
theories/MosModel.v
theories/PropsMosModel.v
theories/ModelLines.v
theories/PropsModelLines.v
