-Q theories Verif
theories/Base.v
theories/EoMatrix.v
theories/Pwq.v
theories/Scaling.v
theories/GenoPheno.v
theories/Par.v
theories/GpPar.v
theories/SpecBounds.v
theories/SpecGeno.v
theories/EoMatrixProofs.v
theories/PwqProofs.v
theories/GenoPhenoProofs.v
theories/ScalingProofs.v
theories/ParProofs.v
theories/GpParProofs.v
theories/BoundsExtra.v
theories/PropsBounds.v
theories/Params.v
theories/SpecParams.v
theories/Config.v
theories/SpecConfig.v
theories/ParamsProofs.v
theories/AdaptProofs.v
theories/ConfigProofs.v
theories/PropsParams.v
theories/Dbl.v
theories/DblProofs.v
theories/Search.v
theories/SpecSearch.v
theories/SortProofs.v
theories/SearchInv.v
theories/CounterProofs.v
theories/HistProofs.v
theories/SpecStop.v
theories/StopProofs.v
theories/SpecSafe.v
theories/SafeProofs.v
theories/RunProofs.v
theories/ElitProofs.v
theories/SpecInvar.v
theories/RankProofs.v
theories/EvalPar.v
theories/EvalParProofs.v
theories/ReachProofs.v
theories/SpecUh.v
theories/UhProofs.v
theories/UhLevel.v
theories/SearchThms.v
theories/LogProofs.v
theories/SearchThms2.v
theories/Demo.v
theories/DemoProofs.v
theories/PropsSearch.v
theories/PropsUh.v
theories/Vec.v
theories/Update.v
theories/VecProofs.v
theories/NumInv.v
theories/SpecUpdate.v
theories/UpdateProofs.v
theories/ParamSound.v
theories/Corr.v
theories/UpdateProofs2.v
theories/CorrProofs.v
theories/TpaProofs.v
theories/FixedProofs.v
theories/DemoNum.v
theories/DemoNumProofs.v
theories/LargeLambda.v
theories/NumThms.v
theories/PropsUpdate.v
theories/PhaseInv.v
theories/ActiveProofs.v
theories/ActiveThms.v
theories/PropsActive.v
theories/SpecMorph.v
theories/MorphProofs.v
theories/SpecAffine.v
theories/AffineProofs.v
theories/AffineThms.v
theories/PropsMorph.v
theories/SpecGrad.v
theories/GradProofs.v
theories/GradThms.v
theories/PropsGrad.v
theories/SpecCrit.v
theories/CritProofs.v
theories/CritThms.v
theories/PropsCrit.v
theories/Restart.v
theories/SpecRestart.v
theories/FrameProofs.v
theories/RestartProofs.v
theories/BipopProofs.v
theories/RestartThms.v
theories/RestartDemo.v
theories/PropsRestart.v
theories/Errstats.v
theories/SpecErr.v
theories/ErrVec.v
theories/ErrVpk.v
theories/ErrPli.v
theories/ErrSafe.v
theories/ErrTerm.v
theories/ErrOnce.v
theories/ErrDemo.v
theories/ErrDemoProofs.v
theories/ErrContour.v
theories/ErrThms.v
theories/PropsErr.v
theories/Surr.v
theories/SpecSurr.v
theories/SurrInv.v
theories/SurrProofs.v
theories/SurrThms.v
theories/SurrThms2.v
theories/SurrThms3.v
theories/SurrThms4.v
theories/SurrDemo.v
theories/SurrDemoProofs.v
theories/PropsSurr.v
theories/Rng.v
theories/SpecRng.v
theories/RngProofs.v
theories/RngDemo.v
theories/RngDemoProofs.v
theories/PropsRng.v
theories/Rsvm.v
theories/SpecRsvm.v
theories/RsvmProofs.v
theories/RsvmDual.v
theories/Binary64.v
theories/RsvmDemo.v
theories/PropsRsvm.v
theories/Pwq64.v
theories/SpecPwq64.v
theories/Pwq64Real.v
theories/Pwq64Proofs.v
theories/Pwq64Vec.v
theories/PropsFloat.v
theories/SpecWindow.v
theories/WindowProofs.v
theories/SafeAllProofs.v
theories/PropsWindow.v
theories/SpecWarm.v
theories/WarmProofs.v
theories/WarmNumProofs.v
theories/WarmThms.v
theories/WarmThms2.v
theories/PropsWarm.v
theories/Dispatch.v
theories/SpecDispatch.v
theories/DispatchProofs.v
theories/PropsDispatch.v
theories/Start.v
theories/SpecStart.v
theories/StartProofs.v
theories/StartThms.v
theories/StartDemo.v
theories/PropsStart.v
theories/SpecSample.v
theories/SampleProofs.v
theories/SampleThms.v
theories/SampleDraws.v
theories/PropsSample.v
theories/SpecTpa.v
theories/TpaPoints.v
theories/TpaThms.v
theories/PropsTpa.v
theories/SpecRate.v
theories/SigmaRate.v
theories/PropsRate.v
theories/SpecAlgo.v
theories/AlgoProofs.v
theories/AlgoThms.v
theories/AlgoDemo.v
theories/PropsAlgo.v
theories/SpecRot.v
theories/RotProofs.v
theories/RotThms.v
theories/RotDemo.v
theories/PropsRot.v
theories/Report.v
theories/LipProofs.v
theories/SpecReport.v
theories/ReportProofs.v
theories/ReportThms.v
theories/PropsReport.v
theories/Plot.v
theories/SpecPlot.v
theories/PlotProofs.v
theories/PlotThms.v
theories/PropsPlot.v
theories/VecSigma.v
theories/SpecVecSigma.v
theories/VecSigmaProofs.v
theories/PropsVecSigma.v
theories/SpecElitRestart.v
theories/ElitRestartProofs.v
theories/ElitRestartDemo.v
theories/ElitRestartThms.v
theories/PropsElitRestart.v
theories/Kernel.v
theories/SpecKernel.v
theories/KernelProofs.v
theories/PropsKernel.v
theories/SpecVd.v
theories/VdProofs.v
theories/VdProofs2.v
theories/VdThms.v
theories/VdDeriv.v
theories/VdDemo.v
theories/PropsVd.v
theories/HistCrit.v
theories/SpecEdm.v
theories/EdmProofs.v
theories/EdmThms.v
theories/PropsEdm.v
theories/SpecGradPt.v
theories/GradPtProofs.v
theories/GradPtThms.v
theories/PropsGradPt.v
theories/SpecReev.v
theories/ReevProofs.v
theories/ReevThms.v
theories/PropsReev.v
theories/MaxGradThms.v
theories/PropsMaxGrad.v
theories/VdCritThms.v
theories/PropsVdCrit.v
theories/NoEff64.v
theories/SpecNoEff.v
theories/NoEffProofs.v
theories/NoEffThms.v
theories/PropsNoEff.v
theories/RestartMoreThms.v
theories/PropsRestartMore.v
theories/SpecPerm.v
theories/PermProofs.v
theories/PermThms.v
theories/PropsPerm.v
theories/TolxSignThms.v
theories/PropsTolxSign.v
