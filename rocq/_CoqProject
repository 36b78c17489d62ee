-Q theories Verif
theories/Base.v
theories/Types.v
theories/Spec.v
theories/Hypergraph.v
theories/ListLemmas.v
theories/HgBasics.v
theories/HgOps.v
theories/HgCuts.v
theories/HgMove.v
theories/HgMore.v
theories/HgDup.v
theories/HgHist.v
theories/HgMoves.v
theories/Examples.v
theories/FinalHypergraph.v
theories/PropsHypergraph.v
theories/Gain.v
theories/Klfm.v
theories/BucketProof.v
theories/GainProof.v
theories/GainMove.v
theories/GainInit.v
theories/KlfmProof.v
theories/FinalKlfm.v
theories/Float.v
theories/LabelProp.v
theories/SpecMulti.v
theories/FloatProof.v
theories/LabelPropProof.v
theories/InitialProof.v
theories/SampleProof.v
theories/Coarsen.v
theories/CoarsenProof.v
theories/CoarsenLoop.v
theories/UncoarsenProof.v
theories/FinalLabel.v
theories/FinalCoarsen.v
theories/PropsCoarsen.v
theories/PropsLabel.v
theories/PropsKlfm.v
theories/SpecPar.v
theories/Par.v
theories/ParBase.v
theories/ParProof.v
theories/ParRemove.v
theories/ParCut.v
theories/FinalPar.v
theories/PropsPar.v
theories/SpecBalance.v
theories/SpecBisect.v
theories/Bisect.v
theories/BisectProof.v
theories/FinalBisect.v
theories/PropsBisect.v
theories/BisectPar.v
theories/UparFree.v
theories/UparProof.v
theories/SpecBpar.v
theories/GatherProof.v
theories/MparProof.v
theories/Recursive.v
theories/ReorderProof.v
theories/LimitProof.v
theories/LimitRoom.v
theories/LimitCalm.v
theories/CutNetProof.v
theories/RecProof.v
theories/RecRoom.v
theories/FinalRec.v
theories/PropsRec.v
theories/SpecReader.v
theories/Reader.v
theories/ReaderText.v
theories/ReaderProof.v
theories/ReaderPar.v
theories/ReaderBad.v
theories/FinalReader.v
theories/PropsReader.v
theories/SpecWriter.v
theories/Writer.v
theories/WriterProof.v
theories/RandomProof.v
theories/FinalWriter.v
theories/PropsWriter.v
theories/KlfmPar.v
theories/SpecKpar.v
theories/KparReject.v
theories/KparMove.v
theories/KparCount.v
theories/KparUpdate.v
theories/KparInit.v
theories/KparHist.v
theories/FinalKpar.v
theories/PropsKpar.v
theories/KparGain.v
theories/KparGains.v
theories/KparLoop.v
theories/KparFind.v
theories/KparUndo.v
theories/KparTake.v
theories/KparSync.v
theories/KparPropose.v
theories/KparRound.v
theories/KparPass.v
theories/FinalKlfmPar.v
theories/PropsKlfmPar.v
theories/Redistribute.v
theories/SpecRed.v
theories/RedSend.v
theories/RedRing.v
theories/RedRecv.v
theories/RedProof.v
theories/FinalRed.v
theories/PropsRed.v
theories/CoarsenPar.v
theories/SpecCpar.v
theories/CparMatch.v
theories/CparAccept.v
theories/CparPhase.v
theories/CparInfo.v
theories/CparContract.v
theories/CparLocal.v
theories/CparTold.v
theories/CparProof.v
theories/CparWhole.v
theories/CparGlobal.v
theories/CparResult.v
theories/FinalCoarsenPar.v
theories/PropsCoarsenPar.v
theories/Collective.v
theories/SpecColl.v
theories/CollProof.v
theories/CollCount.v
theories/CollResult.v
theories/CollDef.v
theories/FinalColl.v
theories/PropsColl.v
theories/FinalBisectPar.v
theories/PropsBisectPar.v
theories/RecursivePar.v
theories/RecParFloat.v
theories/SpecRpar.v
theories/RecParBase.v
theories/RecParProof.v
theories/FinalRecPar.v
theories/PropsRecPar.v
theories/Program.v
theories/SpecProgram.v
theories/ProgramProof.v
theories/FinalProgram.v
theories/PropsProgram.v
theories/FinalBalance.v
theories/PropsBalance.v
theories/CutNetPar.v
theories/RecursiveCut.v
theories/SpecCut.v
theories/CutParProof.v
theories/CutAdd.v
theories/CutShed.v
theories/CutRecProof.v
theories/FinalCutPar.v
theories/PropsCutPar.v
theories/FinalEmpty.v
theories/PropsEmpty.v
theories/Checks.v
theories/SpecChecks.v
theories/FinalChecks.v
theories/PropsChecks.v
theories/ResultName.v
theories/SpecName.v
theories/FinalName.v
theories/PropsName.v
theories/FinalRoomPar.v
theories/PropsRoomPar.v
theories/SpecVote.v
theories/VoteProof.v
theories/FinalVote.v
theories/PropsVote.v
theories/SpecMatch.v
theories/MatchProof.v
theories/FinalMatch.v
theories/PropsMatch.v
theories/FloatPos.v
theories/FloatBig.v
theories/FloatShare.v
theories/SpecSeqMatch.v
theories/SeqMatchProof.v
theories/FinalSeqMatch.v
theories/PropsSeqMatch.v
theories/ProgressProof.v
theories/RoundProof.v
theories/FinalProgress.v
theories/PropsProgress.v
