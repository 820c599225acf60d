-Q theories Verif
theories/Lib/RAux.v
theories/Lib/Grid.v
theories/Model/Constants.v
theories/Model/Geometry.v
theories/Model/ChargeDeposit.v
theories/Spec/Cloud.v
theories/Proof/GeometryP.v
theories/Proof/ChargeP.v
theories/Lib/Interleave.v
theories/Proof/ChargeP2.v
theories/Spec/Sample.v
theories/Props/Charge.v
theories/Model/CurrentDeposit.v
theories/Spec/Continuity.v
theories/Proof/CurrentP.v
theories/Proof/CurrentP2.v
theories/Proof/CurrentP3.v
theories/Proof/CurrentP4.v
theories/Proof/CurrentEx.v
theories/Props/Current.v
theories/Lib/Par.v
theories/Model/Fields.v
theories/Proof/FieldsP.v
theories/Spec/Maxwell.v
theories/Proof/MaxwellP.v
theories/Proof/EnergyP.v
theories/Proof/StabilityP.v
theories/Proof/FieldsP2.v
theories/Props/Fields.v
theories/Lib/Outcome.v
theories/Model/Pusher.v
theories/Model/Motion.v
theories/Model/Interp.v
theories/Spec/Dynamics.v
theories/Proof/PusherP.v
theories/Proof/VayP.v
theories/Props/Pusher.v
theories/Spec/Domain.v
theories/Proof/MotionP.v
theories/Proof/InterpP.v
theories/Props/Motion.v
theories/Model/Rand.v
theories/Spec/Digits.v
theories/Proof/RandP.v
theories/Model/Loading.v
theories/Model/Bunch.v
theories/Proof/LoadingP.v
theories/Proof/BunchP.v
theories/Spec/Injection.v
theories/Props/Loading.v
theories/Model/MainLoop.v
theories/Model/Binary64.v
theories/Model/Dump.v
theories/Proof/Binary64P.v
theories/Spec/Steps.v
theories/Proof/MainLoopP.v
theories/Proof/DumpP.v
theories/Model/Text.v
theories/Model/Reader.v
theories/Proof/ReaderP.v
theories/Model/Paths.v
theories/Model/Cache.v
theories/Proof/PathsP.v
theories/Props/MainLoop.v
theories/Props/Output.v
theories/Lib/Vec.v
theories/Lib/Cplx.v
theories/Model/Tridiag.v
theories/Model/Fourier.v
theories/Spec/Linear.v
theories/Spec/Dft.v
theories/Proof/TridiagP.v
theories/Proof/FourierP.v
theories/Proof/DstP.v
theories/Proof/FourierP2.v
theories/Model/Poisson.v
theories/Spec/PoissonEq.v
theories/Proof/PoissonP.v
theories/Props/Numerics.v
theories/Model/Limits.v
theories/Spec/Plasma.v
theories/Proof/LimitsP.v
theories/Props/Startup.v
theories/Spec/Mirror.v
theories/Proof/MirrorP.v
theories/Props/Mirror.v
theories/Model/CmdLine.v
theories/Spec/CmdSpec.v
theories/Proof/CmdLineP.v
theories/Props/CmdLine.v
theories/Model/ToBool.v
theories/Spec/BoolText.v
theories/Proof/ToBoolP.v
theories/Props/ToBool.v
theories/Model/Duration.v
theories/Spec/Elapsed.v
theories/Proof/DurationP.v
theories/Props/Duration.v
theories/Model/MkDir.v
theories/Spec/Tree.v
theories/Proof/MkDirP.v
theories/Props/MkDir.v
theories/Lib/ParShared.v
theories/Lib/ParProg.v
theories/Model/Smooth.v
theories/Spec/MapSpec.v
theories/Proof/SmoothP.v
theories/Props/Smooth.v
theories/Model/Pml.v
theories/Spec/Layer.v
theories/Proof/PmlP.v
theories/Props/Pml.v
theories/Model/Diagnostics.v
theories/Model/Temperature64.v
theories/Spec/Thermal.v
theories/Proof/DiagnosticsP.v
theories/Props/Diagnostics.v
theories/Model/Xml.v
theories/Model/Params.v
theories/Spec/Config.v
theories/Proof/ParamsP.v
theories/Props/Config.v
theories/Model/JuttnerTables.v
theories/Model/Juttner.v
theories/Proof/JuttnerP.v
theories/Props/Juttner.v
theories/Model/Sim.v
theories/Spec/Whole.v
theories/Proof/SimP.v
theories/Proof/SimP2.v
theories/Proof/SimP3.v
theories/Proof/SimP4.v
theories/Proof/SimP5.v
theories/Proof/SimP6.v
theories/Proof/SimP7.v
theories/Proof/SimP8.v
theories/Props/Sim.v
theories/Model/MpFrame.v
theories/Spec/Region.v
theories/Proof/MpFrameP.v
theories/Props/MpFrame.v
theories/Model/Tools.v
theories/Proof/ToolsP.v
theories/Props/Tools.v
theories/Model/PyPath.v
theories/Model/ToolParams.v
theories/Model/Arith.v
theories/Model/GenCode.v
theories/Model/GenRun.v
theories/Model/GenSim.v
theories/Spec/Place.v
theories/Spec/ToolSpec.v
theories/Spec/Memory.v
theories/Proof/ToolParamsP.v
theories/Proof/PlaceP.v
theories/Proof/GenRealP.v
theories/Proof/GenRunP.v
theories/Proof/GenLinkP.v
theories/Proof/GenSimP.v
theories/Proof/GenSimP2.v
theories/Proof/GenSimRealP.v
theories/Proof/GenMemP.v
theories/Props/ToolConfig.v
theories/Props/Threads.v
theories/Spec/Double.v
theories/Proof/FloatP.v
theories/Proof/GenIndexP.v
theories/Proof/Motion64R.v
theories/Proof/Axis64P.v
theories/Proof/Motion64P.v
theories/Proof/Cells64P.v
theories/Proof/Push64P.v
theories/Proof/Limit64P.v
theories/Proof/Field64P.v
theories/Proof/Clock64P.v
theories/Proof/Run64P.v
theories/Props/Double.v
theories/Spec/Momentum.v
theories/Proof/Err64P.v
theories/Proof/MomentumR.v
theories/Proof/Boost64P.v
theories/Proof/Gentle64P.v
theories/Props/Momentum.v
theories/Spec/Deposit64.v
theories/Proof/Ana64P.v
theories/Proof/Log64P.v
theories/Proof/Leg64P.v
theories/Proof/Poly64P.v
theories/Proof/Flow64P.v
theories/Proof/Path64P.v
theories/Proof/Route64P.v
theories/Proof/LogEx64P.v
theories/Props/Deposit64.v
theories/Spec/Direction.v
theories/Proof/SignP.v
theories/Proof/Dir64P.v
theories/Props/Direction.v
theories/Spec/Charge64.v
theories/Proof/Charge64P.v
theories/Proof/Species64P.v
theories/Props/Charge64.v
theories/Spec/Poynting.v
theories/Proof/PoyntingP.v
theories/Proof/Poynting2P.v
theories/Props/Poynting.v
theories/Model/GenFields.v
theories/Spec/Field64.v
theories/Proof/GenFieldsP.v
theories/Proof/PerturbP.v
theories/Proof/Cell64P.v
theories/Proof/Solver64P.v
theories/Props/Field64.v
theories/Spec/Poison.v
theories/Proof/PoisonP.v
theories/Props/Poison.v
theories/Spec/Short.v
theories/Proof/LegBound64P.v
theories/Proof/Short64P.v
theories/Proof/ShortMove64P.v
theories/Proof/Strict64P.v
theories/Proof/ShortAll64P.v
theories/Proof/ClearAxisP.v
theories/Props/Short.v
theories/Proof/Glide64P.v
theories/Proof/Sum64P.v
theories/Proof/Crowd64P.v
theories/Proof/Half64P.v
theories/Spec/Loop64.v
theories/Proof/Loop64P.v
theories/Props/Loop64.v
theories/Spec/Gauss64.v
theories/Proof/Gauss64P.v
theories/Props/Gauss64.v
theories/Spec/GaussRun64.v
theories/Proof/GaussRun64P.v
theories/Props/GaussRun64.v
theories/Model/GenLoad.v
theories/Spec/Load64.v
theories/Spec/Boris.v
theories/Proof/Rand64P.v
theories/Proof/Place64P.v
theories/Proof/GenLoadP.v
theories/Proof/Load64P.v
theories/Proof/Thermal64P.v
theories/Proof/BorisErr64P.v
theories/Proof/BorisRun64P.v
theories/Proof/BorisRel64P.v
theories/Proof/BorisStep64P.v
theories/Proof/Bunch64P.v
theories/Props/Load64.v
theories/Props/Boris64.v
theories/Props/Bunch64.v
theories/Spec/Straight.v
theories/Proof/FreeP.v
theories/Props/Free.v
theories/Spec/Sense.v
theories/Proof/SenseP.v
theories/Props/Sense.v
