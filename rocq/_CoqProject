-Q theories Verif
theories/Num.v
theories/Tensor.v
theories/Utils.v
theories/Bodies.v
theories/Forces.v
theories/Constraints.v
theories/Contacts.v
theories/World.v
theories/Lapack.v
theories/Pdipm.v
theories/Lcp.v
theories/Engines.v
theories/Breakout.v
theories/AcceptEx.v
theories/AcceptFacts.v
theories/AcceptSpec.v
theories/ApartEx.v
theories/ApartFacts.v
theories/ApartSpec.v
theories/AssemblyEx.v
theories/AssemblyFacts.v
theories/AssemblyProps.v
theories/AssemblySpec.v
theories/AssemblySpin.v
theories/AssemblySpinEx.v
theories/BesideRun.v
theories/BilliardEx.v
theories/BilliardFacts.v
theories/BilliardProps.v
theories/BilliardSpec.v
theories/BodyFacts.v
theories/BodyReach.v
theories/BodySpec.v
theories/BoostFacts.v
theories/BoostRun.v
theories/BoostSpec.v
theories/CacheFacts.v
theories/Chain.v
theories/ChainFacts.v
theories/ChainRun.v
theories/ChainSpec.v
theories/ClipFacts.v
theories/ClockEnds.v
theories/ClockEx.v
theories/ClockFacts.v
theories/CoastRun.v
theories/CollideFacts.v
theories/ContactEx.v
theories/ContactFacts.v
theories/ContactLaw.v
theories/ContactSpec.v
theories/ContactSys.v
theories/CornerEx.v
theories/DebugRun.v
theories/Demo.v
theories/DemoFacts.v
theories/DemoJoint.v
theories/DemoSpec.v
theories/DepthFacts.v
theories/DetectEx.v
theories/DetectFacts.v
theories/DetectProps.v
theories/DetectSpec.v
theories/DiscFacts.v
theories/DiscSpec.v
theories/DriftEx.v
theories/DriftFacts.v
theories/DriftProps.v
theories/DriftSpec.v
theories/EnergyFacts.v
theories/EnergyRun.v
theories/EnergySpec.v
theories/EngineBalance.v
theories/EngineEx.v
theories/EngineFacts.v
theories/EngineMore.v
theories/EngineProps.v
theories/EngineSpec.v
theories/EngineTotal.v
theories/FallEx.v
theories/FallFacts.v
theories/FallSpec.v
theories/FlightFacts.v
theories/FloatEx.v
theories/FloatSpec.v
theories/FloatTime.v
theories/ForceFacts.v
theories/FreeFacts.v
theories/FreeRun.v
theories/FreshFacts.v
theories/FreshSpec.v
theories/FricEx.v
theories/FricFacts.v
theories/FricRun.v
theories/FricSpec.v
theories/FuelFacts.v
theories/Game.v
theories/GameEx.v
theories/GameFacts.v
theories/GameFree.v
theories/GameProps.v
theories/GameScreen.v
theories/GameSpec.v
theories/GameStart.v
theories/GameState.v
theories/GameTotal.v
theories/GeoSpec.v
theories/GeomFacts.v
theories/GjkFacts.v
theories/GjkLoop.v
theories/GjkTerm.v
theories/GradCurve.v
theories/GradDemo.v
theories/GradDemoFacts.v
theories/GradDemoSpec.v
theories/GradFacts.v
theories/GradSpec.v
theories/GroupEx.v
theories/GroupFacts.v
theories/GroupSpec.v
theories/HandlerFacts.v
theories/HeldFacts.v
theories/HellyFacts.v
theories/HistFacts.v
theories/ImpactEx.v
theories/ImpactFacts.v
theories/ImpactProps.v
theories/ImpactSpec.v
theories/IndepFacts.v
theories/Infer.v
theories/InferEx.v
theories/InferFacts.v
theories/InferRun.v
theories/InferSpec.v
theories/IrFacts.v
theories/IrProps.v
theories/IrSpec.v
theories/JeFacts.v
theories/JointFacts.v
theories/JointSpec.v
theories/KktFactor.v
theories/KktFacts.v
theories/KktIr.v
theories/KktSpec.v
theories/KktTotal.v
theories/LapackRef.v
theories/LapackSpec.v
theories/LayoutFacts.v
theories/LcpBoost.v
theories/LcpSym.v
theories/Learn.v
theories/LearnEx.v
theories/LearnFacts.v
theories/LearnProps.v
theories/LearnSpec.v
theories/LearnTrail.v
theories/LinAlg.v
theories/ListedFacts.v
theories/LuFacts.v
theories/MehrotraFacts.v
theories/MehrotraSpec.v
theories/MirrorEx.v
theories/MirrorFacts.v
theories/MomentumFacts.v
theories/NewtonFacts.v
theories/NewtonProps.v
theories/NewtonSpec.v
theories/NoRaise.v
theories/OdeEx.v
theories/OdeFacts.v
theories/OdeProps.v
theories/OdeSpec.v
theories/OverlapCover.v
theories/OverlapFacts.v
theories/PdipmFacts.v
theories/PdipmLoop.v
theories/PdipmSpec.v
theories/PivFacts.v
theories/Plan.v
theories/PlanFacts.v
theories/PlanProps.v
theories/PlanSpec.v
theories/PlaneFacts.v
theories/PostFacts.v
theories/PropAccept.v
theories/PropApart.v
theories/PropAssembly.v
theories/PropBilliard.v
theories/PropBody.v
theories/PropChain.v
theories/PropClock.v
theories/PropContact.v
theories/PropDemo.v
theories/PropDetect.v
theories/PropDisc.v
theories/PropDrift.v
theories/PropEnergy.v
theories/PropEngine.v
theories/PropFall.v
theories/PropFrame.v
theories/PropFric.v
theories/PropGame.v
theories/PropGrad.v
theories/PropGradDemo.v
theories/PropGroup.v
theories/PropImpact.v
theories/PropInfer.v
theories/PropIr.v
theories/PropJoint.v
theories/PropLearn.v
theories/PropMehrotra.v
theories/PropMirror.v
theories/PropNewton.v
theories/PropOde.v
theories/PropPlan.v
theories/PropResume.v
theories/PropRewind.v
theories/PropScale.v
theories/PropScatter.v
theories/PropScene.v
theories/PropScreen.v
theories/PropSearch.v
theories/PropSlope.v
theories/PropSolver.v
theories/PropStatics.v
theories/PropSteady.v
theories/PropStep.v
theories/PropStrict.v
theories/PropSym.v
theories/PropTunnel.v
theories/PropTurn.v
theories/PropUtil.v
theories/PropWell.v
theories/PropWorld.v
theories/QpFacts.v
theories/RBase.v
theories/RealEx.v
theories/RegSpec.v
theories/ResFacts.v
theories/ResumeFacts.v
theories/ResumeRun.v
theories/ResumeSpec.v
theories/RewindEx.v
theories/RewindFacts.v
theories/RewindSpec.v
theories/RigidFacts.v
theories/RmsFacts.v
theories/RmsSpec.v
theories/RoundFacts.v
theories/RoundSpec.v
theories/RunTotal.v
theories/SatFacts.v
theories/ScaleEx.v
theories/ScaleFacts.v
theories/ScaleResp.v
theories/ScaleSpec.v
theories/Scatter.v
theories/ScatterFacts.v
theories/ScatterRun.v
theories/ScatterSpec.v
theories/SceneContacts.v
theories/SceneEngine.v
theories/SceneEx.v
theories/SceneFacts.v
theories/SceneInit.v
theories/SceneRun.v
theories/SceneSame.v
theories/SceneSolve.v
theories/SceneSpec.v
theories/Screen.v
theories/ScreenEx.v
theories/ScreenFacts.v
theories/ScreenSpec.v
theories/Search.v
theories/SearchEnd.v
theories/SearchFacts.v
theories/SearchProps.v
theories/SearchSpec.v
theories/SearchTrail.v
theories/SearchZero.v
theories/SlopeEx.v
theories/SlopeFacts.v
theories/SlopeProps.v
theories/SlopeSpec.v
theories/SolverEx.v
theories/SolverFacts.v
theories/Spec.v
theories/StaticsEx.v
theories/StaticsFacts.v
theories/StaticsProps.v
theories/StaticsSpec.v
theories/SteadyEx.v
theories/SteadyFacts.v
theories/StrictEx.v
theories/StrictFacts.v
theories/StrictSpec.v
theories/SupportFacts.v
theories/SymEx.v
theories/SymSpec.v
theories/SysFacts.v
theories/TimeFacts.v
theories/TunnelEx.v
theories/TunnelFacts.v
theories/TurnEx.v
theories/TurnFacts.v
theories/TurnRun.v
theories/TurnSpec.v
theories/UnpackFacts.v
theories/UtilFacts.v
theories/WellEx.v
theories/WellFacts.v
theories/WellProps.v
theories/WellSolve.v
theories/WellSpec.v
theories/WorldFacts.v
