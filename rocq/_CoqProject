-Q theories Verif
theories/Words.v
theories/WordsFacts.v
theories/Constants.v
theories/Share.v
theories/Proc.v
theories/ProcFacts.v
theories/Net.v
theories/SpecNet.v
theories/NetFacts.v
theories/NetMsg.v
theories/P_Net.v
theories/Cong.v
theories/SpecShare.v
theories/ShareFacts.v
theories/RelFacts.v
theories/OT.v
theories/OTFacts.v
theories/Correlated.v
theories/SpecStore.v
theories/CorrelatedFacts.v
theories/MpcFacts.v
theories/P_Share.v
theories/P_OT.v
theories/P_Correlated.v
theories/Poly.v
theories/SpecPoly.v
theories/FieldFacts.v
theories/PolyFacts.v
theories/FftFacts.v
theories/TreeFacts.v
theories/PolyProps.v
theories/PolyExamples.v
theories/P_Poly.v
theories/Circuit.v
theories/SpecCircuit.v
theories/CircuitFacts.v
theories/P_Circuit.v
theories/Snip.v
theories/SpecSnip.v
theories/SnipFacts.v
theories/SnipBatch.v
theories/Exec.v
theories/P_Snip.v
theories/ServerOps.v
theories/SpecServer.v
theories/TableFacts.v
theories/ServerFacts.v
theories/ServerProps.v
theories/ServerCor.v
theories/P_Server.v
theories/ClientOps.v
theories/SpecClient.v
theories/ClientFacts.v
theories/ClientProps.v
theories/P_Client.v
theories/SnipSums.v
theories/SpecStat.v
theories/StatReads.v
theories/StatProps.v
theories/StatClient.v
theories/StatSound.v
theories/P_Stat.v
theories/SpecFreq.v
theories/FreqFacts.v
theories/FreqProps.v
theories/ExecBuf.v
theories/P_Freq.v
theories/MaxRepeats.v
theories/P_Order.v
theories/Main.v
theories/SpecMain.v
theories/MainFacts.v
theories/P_Main.v
theories/LinSolve.v
theories/SpecLinReg.v
theories/LinSolveFacts.v
theories/LinRegFacts.v
theories/P_LinReg.v
theories/Variance.v
theories/SpecVariance.v
theories/VarianceFacts.v
theories/P_Variance.v
theories/SpecHide.v
theories/HideFacts.v
theories/P_Hide.v
theories/SpecSecret.v
theories/SecretFacts.v
theories/SecretProof.v
theories/P_Secret.v
theories/SpecPrivacy.v
theories/ViewFacts.v
theories/PrivacyFacts.v
theories/PrivacyProof.v
theories/PrivacyExact.v
theories/P_Privacy.v
theories/ClientMain.v
theories/SpecSession.v
theories/SessionFacts.v
theories/SessionFreq.v
theories/P_Session.v
theories/StatView.v
theories/SpecStatPrivacy.v
theories/StatPrivacy.v
theories/StatOps.v
theories/P_StatPrivacy.v
theories/FreqView.v
theories/SpecFreqPrivacy.v
theories/FreqPrivacy.v
theories/FreqHide.v
theories/P_FreqPrivacy.v
theories/HeTriples.v
theories/SpecHe.v
theories/HeFacts.v
theories/P_He.v
theories/DebugOps.v
theories/SpecDebug.v
theories/DebugFacts.v
theories/DebugProps.v
theories/P_Debug.v
theories/SpecAvail.v
theories/AvailFacts.v
theories/P_Avail.v
theories/SpecRobust.v
theories/RobustFacts.v
theories/P_Robust.v
theories/SpecExact.v
theories/ExactFacts.v
theories/ExactMax.v
theories/ExactServer.v
theories/P_Exact.v
theories/Alone.v
theories/AloneFacts.v
theories/P_Alone.v
theories/SpecStatExact.v
theories/StatExact.v
theories/StatPair.v
theories/StatPairs.v
theories/StatDraws.v
theories/StatExactOps.v
theories/P_StatExact.v
theories/DabitOps.v
theories/SpecDabit.v
theories/DabitFacts.v
theories/DabitRun.v
theories/P_Dabit.v
theories/NoFork.v
theories/SpecNoFork.v
theories/NoForkFacts.v
theories/NoForkRun.v
theories/NoForkProps.v
theories/P_NoFork.v
theories/SpecCount.v
theories/CountFacts.v
theories/CountProps.v
theories/P_Count.v
theories/SpecAccept.v
theories/AcceptFacts.v
theories/AcceptProps.v
theories/P_Accept.v
theories/DebugStat.v
theories/SpecDebugStat.v
theories/DebugStatFacts.v
theories/DebugStatProps.v
theories/DebugStatRows.v
theories/DebugStatLin.v
theories/P_DebugStat.v
theories/SpecPeer.v
theories/PeerFacts.v
theories/PeerProps.v
theories/PeerStat.v
theories/PeerLin.v
theories/PeerFreq.v
theories/PeerSingle.v
theories/P_Peer.v
theories/P_Single.v
theories/SpecRogue.v
theories/RogueFacts.v
theories/RogueProps.v
theories/Rogue0.v
theories/RogueAttack.v
theories/P_Rogue.v
theories/SpecRogueStat.v
theories/RogueStat.v
theories/RogueBend.v
theories/P_RogueStat.v
theories/SpecForsaken.v
theories/ForsakenFacts.v
theories/P_Forsaken.v
theories/FreqForsaken.v
theories/P_FreqForsaken.v
