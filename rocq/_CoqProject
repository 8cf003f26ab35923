-Q theories Verif
theories/Num.v
theories/Exec.v
theories/ExecFacts.v
theories/Grid.v
theories/GridFacts.v
theories/Boundaries.v
theories/BoundariesSpec.v
theories/BoundariesFacts.v
theories/BoundariesFill.v
theories/BoundariesNarrow.v
theories/PropBoundaries.v
theories/HydroNum.v
theories/Kernels.v
theories/Hydro2D.v
theories/KernelFacts.v
theories/Atomics.v
theories/Hydro2DSpec.v
theories/Hydro2DFacts.v
theories/Hydro2DStep.v
theories/Determ.v
theories/Hydro2DRun.v
theories/EulerSpec.v
theories/HydroPhysics.v
theories/TwoShock.v
theories/HydroRiemann.v
theories/PropPhysics.v
theories/PropTwoShock.v
theories/Sums.v
theories/Hydro2DLaws.v
theories/Hydro2DMirror.v
theories/Binary64.v
theories/Doomed.v
theories/PropHydro2D.v
theories/Hydro3D.v
theories/Hydro3DSpec.v
theories/Hydro3DFacts.v
theories/Hydro3DStep.v
theories/Hydro3DRun.v
theories/Hydro3DLaws.v
theories/Hydro3DAxes.v
theories/Hydro3DMirror.v
theories/Doomed3.v
theories/PropHydro3D.v
theories/TimeStep.v
theories/TimeStepFacts.v
theories/Driver.v
theories/DriverFacts.v
theories/HydroMachine.v
theories/PropDriver.v
theories/MpiRun.v
theories/MpiFacts.v
theories/Halo.v
theories/HaloFacts.v
theories/HaloFill.v
theories/HydroMpi.v
theories/HydroMpiFacts.v
theories/PropMpi.v
theories/HancockSpec.v
theories/HancockFacts.v
theories/PropScheme.v
theories/MhdNum.v
theories/Mhd2D.v
theories/Mhd2DSpec.v
theories/MhdFacts.v
theories/Mhd2DFacts.v
theories/Mhd2DStep.v
theories/Mhd2DV2.v
theories/Mhd2DAgree.v
theories/Mhd2DRun.v
theories/MhdSpec.v
theories/MhdPhysics.v
theories/Mhd2DLaws.v
theories/Mhd2DDoomed.v
theories/PropMhd2D.v
theories/MhdFanSpec.v
theories/MhdFan.v
theories/MhdSymSpec.v
theories/MhdSym.v
theories/Mhd2DSwap.v
theories/PropMhdScheme.v
theories/PropMhdEdge3D.v
theories/Binary64Valid.v
theories/Mhd3DNum.v
theories/Mhd3D.v
theories/Mhd3DSpec.v
theories/Mhd3DFacts.v
theories/Mhd3DStep.v
theories/Mhd3DV2.v
theories/Mhd3DRun.v
theories/Mhd3DLaws.v
theories/Mhd3DDoomed.v
theories/PropMhd3D.v
theories/MhdHancockSpec.v
theories/MhdHancock.v
theories/PropMhdPredictor.v
theories/MhdMachine.v
theories/PropMhdDriver.v
theories/Mhd3DMachine.v
theories/PropMhd3DDriver.v
theories/MhdMpi.v
theories/PropMhdMpi.v
theories/PropMpiDouble.v
theories/Config.v
theories/ConfigSpec.v
theories/ConfigFacts.v
theories/ConfigNumbers.v
theories/Params.v
theories/Init.v
theories/PropConfig.v
theories/Vtk.v
theories/VtkSpec.v
theories/VtkFacts.v
theories/PropVtk.v
theories/Hdf5.v
theories/Hdf5Facts.v
theories/RestartFacts.v
theories/PropRestart.v
theories/PropUpscale.v
theories/InitFacts.v
theories/PropInit.v
theories/InitSpec.v
theories/PropInitHydro.v
theories/PropInitField.v
theories/PropInitMhd.v
theories/SteadySpec.v
theories/PropInitSteady.v
theories/DecimalSpec.v
theories/DecimalFacts.v
theories/ProblemParams.v
theories/MidFacts.v
theories/PropParams.v
theories/SignFacts.v
theories/RiemannConfig.v
theories/RiemannConfigSpec.v
theories/Program.v
theories/PropRiemannConfig.v
theories/ProgramFacts.v
theories/PropProgram.v
theories/PropSettings.v
theories/Shipped.v
theories/PropShipped.v
theories/Hdf5Mpi.v
theories/PropHdf5Mpi.v
theories/Xdmf.v
theories/XdmfSpec.v
theories/PropXdmf.v
theories/Wedge.v
theories/WedgeFacts.v
theories/EulerEq.v
theories/EulerEqSpec.v
theories/PropEulerEq.v
theories/PropMirror.v
theories/PropMirror3D.v
theories/PropWedge.v
theories/Timers.v
theories/PropTimers.v
theories/PropTimersRun.v
theories/Session.v
theories/PropSession.v
theories/PropProgramFiles.v
