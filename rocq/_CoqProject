-Q theories Verif
theories/Base.v
theories/BaseFacts.v
theories/Spec.v
theories/SpecFacts.v
theories/Zp.v
theories/ZpFacts.v
theories/ZZp.v
theories/ZZpFacts.v
theories/ZZpFloat.v
theories/PropField.v
theories/Mat.v
theories/MatFacts.v
theories/Dispatch.v
theories/TransposeProofs.v
theories/CompressProofs.v
theories/RowList.v
theories/MatProofs.v
theories/VecProofs.v
theories/Checks.v
theories/Reach.v
theories/ReachProofs.v
theories/TriProofs.v
theories/Solve.v
theories/SolveProofs.v
theories/PropReach.v
theories/Par.v
theories/ParProofs.v
theories/ParRun.v
theories/ParRows.v
theories/Schur.v
theories/SchurProofs.v
theories/LinAlg.v
theories/Rref.v
theories/RrefProofs.v
theories/KernelProofs.v
theories/ParTasks.v
theories/PropSchur.v
theories/Sched.v
theories/SchedProofs.v
theories/Pivots.v
theories/SpecElim.v
theories/PivotsProofs.v
theories/GreedyProofs.v
theories/ReorderProofs.v
theories/ElimFacts.v
theories/Extract.v
theories/ExtractProofs.v
theories/PropPivots.v
theories/Gesv.v
theories/GesvProofs.v
theories/GesvNarrow.v
theories/PropSolve.v
theories/EchInv.v
theories/Gplu.v
theories/GpluProofs.v
theories/Append.v
theories/AppendProofs.v
theories/Dense.v
theories/DenseSpec.v
theories/DenseProofs.v
theories/SpecCompress.v
theories/Zeroes.v
theories/PropMat.v
theories/DenseProofs2.v
theories/DenseProofs3.v
theories/DenseProofs4.v
theories/Echelonize.v
theories/EchProofs.v
theories/EchProofs2.v
theories/DenseRef.v
theories/SpecRank.v
theories/Rank.v
theories/EchFinal.v
theories/EchExamples.v
theories/Detect.v
theories/PropEchelon.v
theories/SpecMatch.v
theories/Matching.v
theories/Counting.v
theories/MatchProofs.v
theories/MatchPerm.v
theories/SpecScc.v
theories/Scc.v
theories/SccProofs.v
theories/SpecDm.v
theories/Dm.v
theories/DmBfs.v
theories/DmMarks.v
theories/DmProofs.v
theories/DmMain.v
theories/SpecSha.v
theories/Sha.v
theories/ShaProofs.v
theories/ShaHash.v
theories/ShaCtx.v
theories/SpecPrng.v
theories/Prng.v
theories/PrngProofs.v
theories/PropHash.v
theories/Cert.v
theories/PrngDraw.v
theories/CertProofs.v
theories/CertCreate.v
theories/SpecCert.v
theories/CertSound.v
theories/CertFact.v
theories/PropCert.v
theories/SpecText.v
theories/SpecAccept.v
theories/SpecTools.v
theories/SpecParts.v
theories/SpecReport.v
theories/PartsProofs.v
theories/PropGraph.v
theories/Stdio.v
theories/IO.v
theories/TextProofs.v
theories/IOProofs.v
theories/IOHash.v
theories/IOSave.v
theories/IOTrunc.v
theories/IOAccept.v
theories/IOCut.v
theories/TextChecks.v
theories/PropIO.v
theories/CertIO.v
theories/CertIOProofs.v
theories/Datatype.v
theories/DatatypeProofs.v
theories/PropCertIO.v
theories/PropDatatype.v
theories/Tools.v
theories/ToolsProofs.v
theories/PropTools.v
theories/RankT.v
theories/ToolsElim.v
theories/ToolsElimProofs.v
theories/DmTool.v
theories/PropToolsElim.v
theories/Options.v
theories/SpecOptions.v
theories/OptionsProofs.v
theories/OptTools.v
theories/PropOptions.v
theories/SpecPnm.v
theories/Pnm.v
theories/PnmProofs.v
theories/PnmTools.v
theories/PropPnm.v
theories/ToolOptions.v
theories/SpecToolOptions.v
theories/ToolOptionsProofs.v
theories/ToolMains.v
theories/PropToolOptions.v
theories/SpecHuman.v
theories/Human.v
theories/HumanProofs.v
theories/PropHuman.v
theories/ImageSize.v
theories/ImageSizeProofs.v
theories/ImageTools.v
theories/PropImage.v
theories/SpecFfpack.v
theories/Ffpack.v
theories/FfpackProofs.v
theories/FfpackRef.v
theories/PropFfpack.v
theories/Null.v
theories/NullProofs.v
theories/PropNull.v
theories/Wide.v
theories/WideProofs.v
theories/RrefWideProofs.v
theories/PropWide.v
theories/Sizes.v
theories/SizesProofs.v
theories/PropSizes.v
theories/Lifetime.v
theories/LifetimeSpec.v
theories/LifetimeBase.v
theories/LifetimeElim.v
theories/LifetimeProofs.v
theories/PropLifetime.v
theories/IOSafe.v
theories/Header.v
theories/SpecHeader.v
theories/HeaderProofs.v
theories/PropHeader.v
theories/AnyInput.v
theories/SpecAny.v
theories/AnyProofs.v
theories/PropAny.v
theories/CancelProofs.v
theories/PropCancel.v
theories/SpecAnyElim.v
theories/AnyElim.v
theories/AnyElimProofs.v
theories/PropAnyElim.v
theories/AnySolve.v
theories/AnySolveProofs.v
theories/PropAnySolve.v
theories/SpecAnyCert.v
theories/AnyCert.v
theories/AnyCertProofs.v
theories/PropAnyCert.v
theories/SpecAnyImage.v
theories/AnyImage.v
theories/AnyImageProofs.v
theories/PropAnyImage.v
