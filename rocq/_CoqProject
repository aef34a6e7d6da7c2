-Q theories Verif
theories/Base.v
theories/ProofBase.v
theories/ModelMesh.v
theories/SpecMesh.v
theories/ProofMesh.v
theories/PropMesh.v
theories/RBase.v
theories/ProofR.v
theories/ModelGeom.v
theories/SpecGeom.v
theories/ProofGeom.v
theories/PropGeom.v
theories/ModelBoundary.v
theories/SpecBoundary.v
theories/ProofBoundary.v
theories/ProofBcOrder.v
theories/ProofBoundary2.v
theories/PropBoundary.v
theories/ModelHydro.v
theories/SpecHydro.v
theories/ProofHydro.v
theories/ProofHydro2.v
theories/ProofHydro3.v
theories/PropHydro.v
theories/ProofJump.v
theories/PropJump.v
theories/ModelScheme.v
theories/SpecScheme.v
theories/ProofScheme.v
theories/ProofAxes.v
theories/ProofMirror.v
theories/ProofSchemeEx.v
theories/PropScheme.v
theories/ModelStep.v
theories/SpecStep.v
theories/ProofShift.v
theories/ProofReduce.v
theories/ProofStep.v
theories/ProofLayout.v
theories/ProofSteady.v
theories/SpecWall.v
theories/ProofWall.v
theories/ProofBox.v
theories/ProofCfl.v
theories/ProofStepEx.v
theories/PropStep.v
theories/ProofWallEx.v
theories/PropWall.v
theories/SpecSource.v
theories/ProofSource.v
theories/ProofFix.v
theories/ProofGrav.v
theories/ProofSourceEx.v
theories/PropSource.v
theories/ModelMain.v
theories/SpecMain.v
theories/ProofMain.v
theories/ProofRestart.v
theories/ProofMain2.v
theories/ProofMainEx.v
theories/PropMain.v
theories/ModelFloat.v
theories/ProofFloat.v
theories/PropFloat.v
theories/ModelUtil.v
theories/SpecUtil.v
theories/ProofUtil.v
theories/PropUtil.v
theories/ModelIO.v
theories/SpecIO.v
theories/ProofIO.v
theories/ProofXdmf.v
theories/ProofXdmfEx.v
theories/PropIO.v
theories/ModelMove.v
theories/SpecMove.v
theories/ProofMove.v
theories/ProofV1d.v
theories/ProofMoveRun.v
theories/ProofMoveEx.v
theories/PropMove.v
theories/ModelIni.v
theories/SpecIni.v
theories/ProofIni.v
theories/ProofIniNum.v
theories/PropIni.v
theories/ModelRad.v
theories/SpecRad.v
theories/ProofRad.v
theories/PropRad.v
theories/SpecPos.v
theories/ProofPos.v
theories/ProofPos2.v
theories/ProofPosEx.v
theories/PropPos.v
theories/ModelMem.v
theories/SpecMem.v
theories/ProofMem.v
theories/PropMem.v
theories/SpecAdvect.v
theories/ProofAdvect.v
theories/ProofAdvect2.v
theories/ProofAdvectEx.v
theories/PropAdvect.v
theories/ModelSetup.v
theories/SpecSetup.v
theories/ProofSetup.v
theories/ProofSetupGrid.v
theories/ProofSetupEq.v
theories/ProofSetupGresho.v
theories/ProofSetupEnergy.v
theories/ProofSetupPos.v
theories/ProofSetupRun.v
theories/PropSetup.v
theories/ModelMPI.v
theories/SpecMPI.v
theories/ProofMPI.v
theories/ProofMPIRun.v
theories/ProofMPIGrid.v
theories/PropMPI.v
theories/ModelArith.v
theories/ProofArithReal.v
theories/SpecArith.v
theories/ProofArith.v
theories/ModelArith64.v
theories/ProofArith64.v
theories/ProofArithNum.v
theories/ProofArithUniform.v
theories/ProofArithRestart.v
theories/ProofArithEx.v
theories/ProofArithEx2.v
theories/ProofArithEx3.v
theories/PropArith.v
theories/ModelParam.v
theories/SpecParam.v
theories/ProofParam.v
theories/ProofParam2.v
theories/ProofParamEx.v
theories/ProofParamBack.v
theories/PropParam.v
theories/ProofParamRun.v
theories/ProofParamRun2.v
theories/ProofParamEx2.v
theories/PropFile.v
theories/ModelH5.v
theories/SpecH5.v
theories/ProofPhantom.v
theories/ProofH5.v
theories/ProofH5Run.v
theories/ProofH5Ex.v
theories/PropH5.v
theories/ModelLaunch.v
theories/SpecLaunch.v
theories/ProofLaunch.v
theories/ProofLaunchEx.v
theories/PropLaunch.v
theories/ModelProfile.v
theories/SpecProfile.v
theories/ProofProfile.v
theories/ProofProfile2.v
theories/ProofProfileEx.v
theories/PropProfile.v
theories/SpecMirror.v
theories/ProofMirrorBits.v
theories/ProofMirrorBits2.v
theories/ProofMirror64.v
theories/ProofMirrorBits3.v
theories/ProofMirrorEx.v
theories/PropMirror.v
theories/SpecFill.v
theories/SpecSym.v
theories/ProofFill.v
theories/ProofSym.v
theories/ProofSymAxes.v
theories/ProofSym2.v
theories/ProofSymMirror.v
theories/ProofSym3.v
theories/ProofSymEx.v
theories/ProofFill2.v
theories/PropFill.v
theories/PropSym.v
theories/SpecUser.v
theories/ModelUser.v
theories/ProofUser.v
theories/ProofUser2.v
theories/ProofUser3.v
theories/ProofUser4.v
theories/ProofUserEx.v
theories/PropUser.v
theories/ModelUserRun.v
theories/SpecUserRun.v
theories/ProofUserRun.v
theories/ProofUserRun2.v
theories/ProofUserRunEx.v
theories/PropUserRun.v
theories/SpecBalance.v
theories/ProofBalance.v
theories/ProofBalance2.v
theories/ProofBalance3.v
theories/ProofBalance4.v
theories/PropBalance.v
theories/SpecFall.v
theories/ProofFall.v
theories/ProofFall2.v
theories/ProofFall3.v
theories/PropFall.v
theories/SpecNeg.v
theories/ProofNeg.v
theories/ProofNeg2.v
theories/ProofNeg3.v
theories/ProofNeg4.v
theories/PropNeg.v
theories/SpecUnits.v
theories/ProofUnits.v
theories/ProofUnits2.v
theories/ProofUnits3.v
theories/ProofUnits4.v
theories/PropUnits.v
theories/SpecBits.v
theories/ProofBits.v
theories/ProofBits2.v
theories/ProofBits3.v
theories/ProofBits4.v
theories/PropBits.v
theories/SpecPlane.v
theories/ProofPlane.v
theories/ProofPlane2.v
theories/ProofPlane3.v
theories/ProofPlane4.v
theories/ProofPlane5.v
theories/ProofPlaneEx.v
theories/PropPlane.v
theories/ModelSmall.v
theories/ProofSmall.v
theories/ProofSmall2.v
theories/ProofSmallEx.v
theories/PropSmall.v
theories/SpecRest.v
theories/ProofRest.v
theories/ProofRest2.v
theories/ProofRestEx.v
theories/PropRest.v
