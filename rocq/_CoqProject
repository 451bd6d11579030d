-Q theories Verif
theories/Py.v
theories/MTools.v
theories/MEigen.v
theories/MFields.v
theories/MRaster.v
theories/MSolution.v
theories/SSlab.v
theories/PSlab.v
theories/PCog.v
theories/SAdm.v
theories/PLam.v
theories/SWedge.v
theories/PWedge.v
theories/PSetup.v
theories/PSetup2.v
theories/PropSlab.v
theories/SBeam.v
theories/PBeam.v
theories/PBeam2.v
theories/PropBeam.v
theories/SBvp.v
theories/PBvp.v
theories/PBvp2.v
theories/PBvp3.v
theories/PBvp4.v
theories/PBvp5.v
theories/PBalance.v
theories/SEig.v
theories/PLinAlg.v
theories/PWell.v
theories/PIndep.v
theories/PWell2.v
theories/PWell3.v
theories/PBvp6.v
theories/PropBvp.v
theories/SContact.v
theories/SLoad.v
theories/PSub.v
theories/PTouch.v
theories/PContact.v
theories/PContact2.v
theories/PContact3.v
theories/MClass.v
theories/PClass.v
theories/PropContact.v
theories/SRaster.v
theories/PRaster.v
theories/PRaster2.v
theories/MAnalysis.v
theories/SEnergy.v
theories/PEnergy.v
theories/PEnergy2.v
theories/SStress.v
theories/PStress.v
theories/PStress2.v
theories/SOutput.v
theories/POutput.v
theories/PropRaster.v
theories/PropEnergy.v
theories/PropStress.v
theories/PPotential.v
theories/PropOutput.v
theories/SMirror.v
theories/PMirror.v
theories/PropMirror.v
theories/MSession.v
theories/SState.v
theories/PState.v
theories/PropState.v
theories/MEnvelope.v
theories/MCriterion.v
theories/SEnvelope.v
theories/PEnvelope.v
theories/PropEnvelope.v
theories/SSegment.v
theories/PSegment.v
theories/PCreate.v
theories/PropSegment.v
theories/PForce.v
theories/PropForce.v
theories/PCreate2.v
theories/PCoupled.v
theories/PropCoupled.v
theories/MPlot.v
theories/SPlot.v
theories/PPlot.v
theories/PPlot2.v
theories/PProfile.v
theories/PropPlot.v
theories/PRoots.v
theories/PropRoots.v
theories/SExact.v
theories/PExact.v
theories/PExact2.v
theories/PExact3.v
theories/PropExact.v
theories/MTouchdown.v
theories/PTouchdown.v
theories/PropTouchdown.v
theories/SSzz.v
theories/PSzz.v
theories/PComplete.v
theories/PropComplete.v
theories/PropSzz.v
theories/PMoment.v
theories/PMoment2.v
theories/PropMoment.v
theories/MFigure.v
theories/SFigure.v
theories/PFigure.v
theories/PFigure2.v
theories/PFigure3.v
theories/PFigure4.v
theories/PropFigure.v
theories/SSelf.v
theories/PSelf.v
theories/PropSelf.v
theories/SCurve.v
theories/PCurve.v
theories/PropCurve.v
theories/SSplit.v
theories/PSplit.v
theories/PDepend.v
theories/PDepend2.v
theories/PLimit.v
theories/PGrowth.v
theories/PropDepend.v
theories/SCoupled.v
theories/PCoupled2.v
theories/PropCollapse.v
theories/SWork.v
theories/PWork.v
theories/PropWork.v
theories/SRelease.v
theories/PRelease.v
theories/PropRelease.v
theories/PFree.v
theories/PropRelease2.v
theories/SShow.v
theories/PShow.v
theories/PropShow.v
theories/PropShow2.v
theories/PropClass.v
theories/MColour.v
theories/SColour.v
theories/PColour.v
theories/PropColour.v
theories/MArgs.v
theories/PropArgs.v
theories/SUnits.v
theories/PUnits.v
theories/PUnits2.v
theories/PUnits3.v
theories/PropUnits.v
theories/SSkier.v
theories/PSkier.v
theories/PConvex.v
theories/PSkier2.v
theories/PropSkier.v
theories/SRegular.v
theories/PRegular.v
theories/PRegular2.v
theories/PropRegular.v
theories/SRun.v
theories/PRun.v
theories/PropRun.v
theories/PExcept.v
theories/PropExcept.v
theories/PRigid.v
theories/PropRigid.v
theories/SWindow.v
theories/PWindow.v
theories/PWindow2.v
theories/PropWindow.v
theories/PGap.v
theories/PGap2.v
theories/PGap3.v
theories/PropGap.v
theories/SReach.v
theories/PReach.v
theories/PropReach.v
theories/PropLists.v
theories/SDecay.v
theories/PDecay.v
theories/PDecay2.v
theories/PDecay3.v
theories/PDecay4.v
theories/PropDecay.v
theories/PDecay5.v
theories/PDecay6.v
theories/PropDecay2.v
theories/PropDecay3.v
theories/SCross.v
theories/PCross.v
theories/PropCross.v
theories/PropCross2.v
theories/SApprox.v
theories/PApprox.v
theories/PApprox2.v
theories/PApprox3.v
theories/PropApprox.v
theories/PApprox4.v
theories/PropApprox2.v
theories/SStable.v
theories/PStable.v
theories/PStable2.v
theories/PropStable.v
theories/PropProfile.v
theories/PropValues.v
theories/SCritical.v
theories/PCritical.v
theories/PCritical2.v
theories/PCritical3.v
theories/PCritical4.v
theories/PCritical5.v
theories/PCritical6.v
theories/PCritical7.v
theories/PropCritical.v
theories/PCritical8.v
theories/PCritical9.v
theories/PCritical10.v
theories/PCritical11.v
theories/PCritical12.v
theories/PSnow.v
theories/PropSearch.v
theories/PropCollapse2.v
theories/PropStored.v
theories/PropTip.v
theories/SLayout.v
theories/PLayout.v
theories/PropLayout.v
theories/SShort.v
theories/PShort.v
theories/PropShort.v
theories/SRaise.v
theories/PRaise.v
theories/PropRaise.v
theories/SSaw.v
theories/PSaw.v
theories/PropSaw.v
theories/PSaw2.v
theories/PropSaw2.v
theories/PropCoupled2.v
theories/PropFlat.v
theories/PropTwin.v
theories/PropMede.v
