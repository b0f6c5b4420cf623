-Q theories Verif
theories/Num.v
theories/PyList.v
theories/Mat.v
theories/Poly.v
theories/Roots.v
theories/Colloc.v
theories/Ocp.v
theories/Transcribe.v
theories/Objects.v
theories/Assign.v
theories/Solve.v
theories/Spec.v
theories/NumR.v
theories/ListR.v
theories/PolyR.v
theories/CollocR.v
theories/CompR.v
theories/GaussR.v
theories/CacheR.v
theories/CacheName.v
theories/CacheNew.v
theories/JacobiR.v
theories/CollocThm.v
theories/Properties_Colloc.v
theories/SpecOcp.v
theories/MeshR.v
theories/BlockR.v
theories/DiscR.v
theories/NlpR.v
theories/OcpR.v
theories/NlpThm.v
theories/GuessR.v
theories/CostR.v
theories/ScaleR.v
theories/ExOcp.v
theories/NlpMain.v
theories/ObjectsR.v
theories/ExNlp.v
theories/Properties_Nlp.v
theories/SpecSolve.v
theories/SolveR.v
theories/HsolveR.v
theories/SpecHist.v
theories/HistR.v
theories/ExSolve.v
theories/Properties_Solve.v
theories/Hadapt.v
theories/SpecHadapt.v
theories/MergeR.v
theories/AreaR.v
theories/SlopeR.v
theories/ClampR.v
theories/HadaptR.v
theories/ExHadapt.v
theories/Properties_Hadapt.v
theories/Resid.v
theories/SpecResid.v
theories/GridR.v
theories/ResidR.v
theories/ResidThm.v
theories/GridThm.v
theories/ResidMain.v
theories/Refine.v
theories/RefineR.v
theories/RefineThm.v
theories/SlopeThm.v
theories/TotalR.v
theories/SpecLoop.v
theories/LoopR.v
theories/ExLoop.v
theories/Properties_Loop.v
theories/ExResid.v
theories/ResidOne.v
theories/Properties_Resid.v
theories/Adaptive.v
theories/SpecAdapt.v
theories/AdaptR.v
theories/AdaptPh.v
theories/AdaptThm.v
theories/AdaptMain.v
theories/ExAdapt.v
theories/Properties_Adapt.v
theories/Post.v
theories/SpecPost.v
theories/PostR.v
theories/PostThm.v
theories/PostGrid.v
theories/PostMain.v
theories/PostTotal.v
theories/AdResid.v
theories/ExAdResid.v
theories/Properties_AdResid.v
theories/ExPost.v
theories/Properties_Post.v
theories/Ph.v
theories/SpecPh.v
theories/PhR.v
theories/ExPh.v
theories/PhRough.v
theories/Properties_Ph.v
theories/Top.v
theories/SpecTop.v
theories/TopR.v
theories/ExTop.v
theories/Properties_Top.v
theories/Plot.v
theories/SpecPlot.v
theories/PlotR.v
theories/PlotMain.v
theories/PlotThm.v
theories/PlotResid.v
theories/PlotEvol.v
theories/ExPlot.v
theories/PlotDefault.v
theories/PlotGiven.v
theories/Properties_Plot.v
theories/CertR.v
theories/ExCert.v
theories/SpecBalance.v
theories/BalanceR.v
theories/SpecExact.v
theories/ExactR.v
theories/ExLander.v
theories/Properties_Cert.v
theories/Properties_Exact.v
theories/SpecConvex.v
theories/WeightR.v
theories/ChebR.v
theories/ConvexR.v
theories/SpecDual.v
theories/DualR.v
theories/ExGlide.v
theories/ExDual.v
theories/Properties_Convex.v
theories/SpecSmooth.v
theories/TaylorR.v
theories/SmoothR.v
theories/ExSmooth.v
theories/Properties_Smooth.v
theories/SpecAssign.v
theories/AssignR.v
theories/ExAssign.v
theories/Properties_Assign.v
theories/SpecTrans.v
theories/TransR.v
theories/ExTrans.v
theories/Properties_Trans.v
theories/SpecMayer.v
theories/FillR.v
theories/MayerR.v
theories/ExMayer.v
theories/Properties_Mayer.v
theories/SpecCut.v
theories/CutR.v
theories/ExCut.v
theories/Properties_Cut.v
theories/SpecTrack.v
theories/TrackR.v
theories/ExTrack.v
theories/Properties_Track.v
theories/SpecCoord.v
theories/CoordR.v
theories/ExCoord.v
theories/Properties_Coord.v
theories/SpecExist.v
theories/ExistR.v
theories/ExExist.v
theories/Properties_Exist.v
theories/SpecUnique.v
theories/UniqueR.v
theories/ExUnique.v
theories/Properties_Unique.v
theories/SpecValue.v
theories/ValueR.v
theories/ExValue.v
theories/Properties_Value.v
theories/SpecSlack.v
theories/SlackR.v
theories/ExSlack.v
theories/Properties_Slack.v
theories/SpecPathBnd.v
theories/PathBndR.v
theories/ExPathBnd.v
theories/Properties_PathBnd.v
theories/SpecLinear.v
theories/LinearR.v
theories/ExLinear.v
theories/Properties_Linear.v
theories/SpecUnit.v
theories/UnitR.v
theories/ExUnit.v
theories/Properties_Unit.v
theories/SpecReal.v
theories/RealR.v
theories/ExReal.v
theories/Properties_Real.v
theories/PicardR.v
theories/SpecFlow.v
theories/FlowR.v
theories/ExFlow.v
theories/Properties_Flow.v
theories/SpecRenum.v
theories/PhaseR.v
theories/RenumR.v
theories/ExRenum.v
theories/Properties_Renum.v
theories/SpecTail.v
theories/TailR.v
theories/ExTail.v
theories/Properties_Tail.v
theories/SpecLaw.v
theories/LawR.v
theories/ExLaw.v
theories/Properties_Law.v
theories/SpecReverse.v
theories/NodesR.v
theories/ReverseR.v
theories/ExReverse.v
theories/Properties_Reverse.v
theories/SpecBeside.v
theories/BesideR.v
theories/ExBeside.v
theories/Properties_Beside.v
theories/SpecLocal.v
theories/LocalR.v
theories/ExLocal.v
theories/Properties_Local.v
theories/DetermR.v
theories/ExDeterm.v
theories/Properties_Determ.v
theories/SpecSteer.v
theories/SteerR.v
theories/ExSteer.v
theories/Properties_Steer.v
theories/SpecScore.v
theories/ScoreR.v
theories/ExScore.v
theories/Properties_Score.v
theories/SpecFix.v
theories/FixR.v
theories/ExFix.v
theories/Properties_Fix.v
theories/SpecStable.v
theories/StableR.v
theories/ExStable.v
theories/Properties_Stable.v
theories/SpecShow.v
theories/ShowR.v
theories/SpecSparse.v
theories/SparseR.v
theories/ExSparse.v
theories/Properties_Sparse.v
theories/SpecContract.v
theories/ContractR.v
theories/ExContract.v
theories/Properties_Contract.v
theories/SpecDamp.v
theories/DampR.v
theories/ExDamp.v
theories/Properties_Damp.v
theories/SpecEuler.v
theories/EulerR.v
theories/ExEuler.v
theories/Properties_Euler.v
theories/SpecForget.v
theories/ForgetR.v
theories/ExForget.v
theories/Properties_Forget.v
theories/SpecSpread.v
theories/SpreadR.v
theories/Properties_Spread.v
