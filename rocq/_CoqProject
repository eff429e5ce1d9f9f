-Q theories Verif
theories/Num.v
theories/Defs.v
theories/State.v
theories/Binomial.v
theories/Coag.v
theories/Nucl.v
theories/Growth.v
theories/Oxid.v
theories/Tar.v
theories/SootModel.v
theories/Mono.v
theories/Logn.v
theories/Qmom.v
theories/Sect.v
theories/Momic.v
theories/Hmom.v
theories/Calls.v
theories/Catch.v
theories/Objects.v
theories/CInterface.v
theories/Fortran.v
theories/SpecFortran.v
theories/FortranProofs.v
theories/Prop_Fortran.v
theories/Interp.v
theories/XR.v
theories/F64.v
theories/XRLemmas.v
theories/NumLaws.v
theories/SpecState.v
theories/SpecChem.v
theories/StateProofs.v
theories/StateXR.v
theories/Prop_State.v
theories/SpecBinomial.v
theories/BinomialProofs.v
theories/Prop_Binomial.v
theories/SpecCoag.v
theories/CoagProofs.v
theories/Prop_Coag.v
theories/SpecGas.v
theories/GasProofs.v
theories/Prop_Gas.v
theories/SpecConfig.v
theories/ConfigProofs.v
theories/Prop_Config.v
theories/SpecInterp.v
theories/InterpProofs.v
theories/Prop_Interp.v
theories/SpecValid.v
theories/ValidProofs.v
theories/SpecTar.v
theories/SpecRates.v
theories/SpecObjects.v
theories/ObjectProofs.v
theories/RateProofs.v
theories/ObjectXR.v
theories/Prop_Objects.v
theories/MiscProofs.v
theories/Prop_Misc.v
theories/Prop_Rates.v
theories/SpecPah.v
theories/SpecPsd.v
theories/PsdProofs.v
theories/PahProofs.v
theories/MonoProofs.v
theories/MonoTar.v
theories/MonoMain.v
theories/PahMain.v
theories/MonoCases.v
theories/Prop_Mono.v
theories/Prop_Pah.v
theories/SpecSect.v
theories/SectProofs.v
theories/ChemAll.v
theories/SectRun.v
theories/SectMain.v
theories/SectCases.v
theories/SectBins.v
theories/SectFinal.v
theories/Prop_Sect.v
theories/SpecQmom.v
theories/QmomProofs.v
theories/QmomRun.v
theories/QmomMain.v
theories/GaussProofs.v
theories/GaussMain.v
theories/QmomFinal.v
theories/QmomCases.v
theories/QmomSame.v
theories/Prop_Qmom.v
theories/SpecLogn.v
theories/LognProofs.v
theories/LognMain.v
theories/PahRaw.v
theories/LognFinal.v
theories/LognCases.v
theories/Prop_Logn.v
theories/SpecMomic.v
theories/MomicProofs.v
theories/MomicMain.v
theories/MomicRun.v
theories/MomicFinal.v
theories/MomicCases.v
theories/SpecSafe.v
theories/SafeProofs.v
theories/HmomProofs.v
theories/SafeMain.v
theories/ShortMain.v
theories/SpecBio.v
theories/BioMain.v
theories/Prop_Bio.v
theories/SpecFinite.v
theories/FiniteMomic.v
theories/FiniteMain.v
theories/Prop_Finite.v
theories/SpecPairs.v
theories/PairsMain.v
theories/Prop_Pairs.v
theories/SpecScale.v
theories/SpecSigns.v
theories/SignsProofs.v
theories/ScaleMain.v
theories/Prop_Scale.v
theories/SignsMain.v
theories/Prop_Signs.v
theories/SpecNeeds.v
theories/NeedsProofs.v
theories/NeedsMain.v
theories/Prop_Needs.v
theories/Flame.v
theories/SpecFlame.v
theories/FlameProofs.v
theories/FlameMain.v
theories/FlameFin.v
theories/FlameFinal.v
theories/FlameWrong.v
theories/Prop_Flame.v
theories/SurfProofs.v
theories/HistProofs.v
theories/HistMain.v
theories/SpecBalance.v
theories/BalanceMain.v
theories/SpecFrame.v
theories/FrameMain.v
theories/Prop_Frame.v
theories/Prop_Balance.v
theories/SpecCarbon.v
theories/CarbonMain.v
theories/CarbonCases.v
theories/Prop_Carbon.v
theories/SpecRich.v
theories/RichProofs.v
theories/RichMain.v
theories/RichCases.v
theories/Prop_Rich.v
theories/NoPahMain.v
theories/NoPahCases.v
theories/Prop_NoPah.v
theories/NoneMain.v
theories/NoneXR.v
theories/Prop_None.v
theories/Prop_Safe.v
theories/SpecCalls.v
theories/CallsProofs.v
theories/Prop_Calls.v
theories/Prop_History.v
theories/Prop_Momic.v
theories/SpecRound.v
theories/SpecIeee.v
theories/RoundProofs.v
theories/RoundExpr.v
theories/RoundRates.v
theories/RoundMain.v
theories/RoundMono.v
theories/RoundCases.v
theories/RoundFinal.v
theories/Prop_Round.v
theories/IeeeProofs.v
theories/IeeeMain.v
theories/IeeeMono.v
theories/IeeeFinal.v
theories/Prop_Ieee.v
theories/SpecStep.v
theories/StepProofs.v
theories/Prop_Step.v
theories/Prop_Simple.v
theories/SpecModels.v
theories/ModelsProofs.v
theories/Prop_Models.v
theories/SpecHist.v
theories/PahHist.v
theories/Prop_PahHist.v
theories/ShareProofs.v
theories/ShareCases.v
theories/Prop_Share.v
theories/SpecHeat.v
theories/HeatProofs.v
theories/HeatCases.v
theories/Prop_Heat.v
theories/SpecSections.v
theories/SectionsProofs.v
theories/SectionsMain.v
theories/SectionsLog.v
theories/SectionsCases.v
theories/SectionsTwo.v
theories/Prop_Sections.v
theories/SpecSites.v
theories/SitesProofs.v
theories/Prop_Sites.v
theories/SpecCont.v
theories/ContProofs.v
theories/ContMain.v
theories/ContCases.v
theories/ContLogn.v
theories/ContSect.v
theories/Prop_Cont.v
theories/SpecDocs.v
theories/DocsProofs.v
theories/Prop_Docs.v
theories/SpecDrift.v
theories/DriftProofs.v
theories/Prop_Drift.v
theories/Simple.v
theories/SimpleProofs.v
theories/SimpleMain.v
theories/CatchProofs.v
theories/CatchCases.v
theories/Prop_Catch.v
theories/SpecClosure.v
theories/ClosureProofs.v
theories/Prop_Closure.v
theories/SpecVessel.v
theories/VesselProofs.v
theories/Prop_Vessel.v
theories/SpecMirror.v
theories/MirrorProofs.v
theories/Prop_Mirror.v
theories/SpecNan.v
theories/NanProofs.v
theories/NanCases.v
theories/Prop_Nan.v
theories/Console.v
theories/SpecConsole.v
theories/ConsoleProofs.v
theories/Prop_Console.v
theories/CrackProofs.v
theories/CrackMain.v
theories/CrackCases.v
theories/Prop_Crack.v
theories/SpecMarch.v
theories/MarchProofs.v
theories/MarchMain.v
theories/MarchSect.v
theories/MarchCases.v
theories/Prop_March.v
theories/SpecBurn.v
theories/BurnProofs.v
theories/BurnMain.v
theories/BurnCases.v
theories/Prop_Burn.v
theories/SpecGrow.v
theories/GrowMain.v
theories/GrowCases.v
theories/Prop_Grow.v
theories/SpecGrowLL.v
theories/GrowLL.v
theories/Prop_GrowLL.v
theories/SpecSign.v
theories/SignMain.v
theories/TarHistMain.v
theories/Prop_Sign.v
theories/Prop_TarHist.v
theories/SpecNuclLoop.v
theories/NuclLoopMain.v
theories/Prop_NuclLoop.v
theories/SpecNumLoop.v
theories/NumLoopMain.v
theories/FuchsLim.v
theories/NumCont.v
theories/Prop_NumLoop.v
theories/SpecTarLoop.v
theories/TarLoopMain.v
theories/Prop_TarLoop.v
theories/SpecEquil.v
theories/EquilLL.v
theories/EquilSurf.v
theories/Prop_Equil.v
