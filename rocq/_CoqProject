-Q theories Verif
theories/Num.v
theories/Geometry.v
theories/Outcome.v
theories/Wobbly.v
theories/Steppers.v
theories/Transforms.v
theories/MagicLamp.v
theories/Program.v
theories/Process.v
theories/LemBasic.v
theories/LemInv.v
theories/LemReal.v
theories/LemGeometry.v
theories/PropGeometry.v
theories/Spec.v
theories/SpecMesh.v
theories/SpecMotion.v
theories/LemHistory.v
theories/LemSprings.v
theories/LemNetwork.v
theories/LemLifo.v
theories/LemAnchors.v
theories/LemMoves.v
theories/LemForce.v
theories/LemRest.v
theories/LemSettle.v
theories/LemSafe.v
theories/LemStill.v
theories/LemAnchorFacts.v
theories/LemDangle.v
theories/Cases.v
theories/PropAnchors.v
theories/LemNetworkFacts.v
theories/LemTranslate.v
theories/LemBezier.v
theories/LemWhole.v
theories/PropDeform.v
theories/PropWhole.v
theories/LemShape.v
theories/LemShapeCases.v
theories/PropShape.v
theories/LemPin.v
theories/LemNan.v
theories/PropPin.v
theories/SpecAnim.v
theories/LemFloat.v
theories/LemSteppers.v
theories/PropSteppers.v
theories/LemTransforms.v
theories/PropTransforms.v
theories/LemLamp.v
theories/PropLamp.v
theories/SpecDouble.v
theories/LemDouble.v
theories/LemHang.v
theories/LemQuiet.v
theories/LemSearch.v
theories/LemRounded.v
theories/LemSafe64.v
theories/LemBox64.v
theories/SpecHold.v
theories/LemHold64.v
theories/LemRange64.v
theories/LemDeform64.v
theories/LemLinear32.v
theories/LemReverse32.v
theories/LemGrid32.v
theories/LemRunOut.v
theories/LemOrbit.v
theories/PropHold.v
theories/PropDouble.v
theories/PropRounded.v
theories/PropSetters.v
theories/PropNetwork.v
theories/SpecProcess.v
theories/LemProcess.v
theories/PropProcess.v
theories/GlibWobbly.v
theories/SpecGlib.v
theories/LemGlib.v
theories/PropGlib.v
theories/GlibParams.v
theories/GlibAnim.v
theories/SpecGlibAnim.v
theories/LemGlibAnim.v
theories/PropGlibAnim.v
theories/GlibQuery.v
theories/GlibRefs.v
theories/SpecQuery.v
theories/LemQuery.v
theories/PropQuery.v
theories/AnchorVars.v
theories/SpecVars.v
theories/LemVars.v
theories/PropVars.v
theories/SpecFinal.v
theories/LemFinal.v
theories/PropFinal.v
theories/SpecRefs.v
theories/LemRefs.v
theories/PropRefs.v
theories/SpecStall.v
theories/LemStall.v
theories/LemStall64.v
theories/PropStall.v
theories/PropRange.v
theories/PropRunOut.v
theories/PropOrbit.v
theories/LemLyap.v
theories/LemGrid.v
theories/SpecStable.v
theories/LemStable.v
theories/PropStable.v
theories/Matchers.v
theories/LemMatch.v
theories/PropMatch.v
theories/RepoTests.v
theories/RepoTestsParts.v
theories/SpecLaw.v
theories/LemLaw.v
theories/PropLaw.v
theories/SpecShift.v
theories/LemShift.v
theories/PropShift.v
theories/SpecPixel.v
theories/LemZoom32.v
theories/LemBounce32.v
theories/PropPixel.v
theories/LemLampEnd.v
theories/PropGrid.v
theories/PropLampEnd.v
theories/LemEdge.v
theories/PropEdge.v
theories/SettingsLife.v
theories/SpecLife.v
theories/LemLife.v
theories/PropLife.v
