-Q theories Verif
theories/Arith.v
theories/Base.v
theories/SlotMap.v
theories/Util.v
theories/Geom.v
theories/Light.v
theories/Accel.v
theories/Net.v
theories/Path.v
theories/Vehicle.v
theories/LinkOps.v
theories/Sim.v
theories/F64.v
theories/RealArith.v
theories/BaseProofs.v
theories/SlotMapProofs.v
theories/SpecLight.v
theories/LightProofs.v
theories/LightLive.v
theories/P_Light.v
theories/Ord.v
theories/FloatLaws.v
theories/Safe.v
theories/SpecSim.v
theories/SpecRoute.v
theories/DijProofs.v
theories/NetInv.v
theories/SimInv.v
theories/AccSafe.v
theories/SimSafe.v
theories/StepSafe.v
theories/OpSafe.v
theories/Evo.v
theories/StepEvo.v
theories/SimProofs.v
theories/SimExample.v
theories/P_Sim.v
theories/StepProofs.v
theories/AccFresh.v
theories/P_Step.v
theories/LogProofs.v
theories/SpecMotion.v
theories/Motion.v
theories/RFacts.v
theories/P_Motion.v
theories/SpecKin.v
theories/P_Accel.v
theories/NetEvo.v
theories/SpecNet.v
theories/P_Net.v
theories/P_Util.v
theories/SpecEnter.v
theories/EnterProofs.v
theories/P_Enter.v
theories/P_Give.v
theories/P_Limit.v
theories/P_Lane.v
theories/P_Proj.v
theories/RouteProofs.v
theories/PlanProofs.v
theories/RouteEvo.v
theories/P_Route.v
theories/SpecAhead.v
theories/P_Ahead.v
theories/P_Order.v
theories/SpecConf.v
theories/ConfProofs.v
theories/P_Conf.v
theories/P_Exit.v
theories/SpecChoice.v
theories/P_Choice.v
theories/P_Routes.v
theories/EndsProofs.v
theories/LineProofs.v
theories/RaExample.v
theories/P_Ends.v
theories/P_Geom.v
theories/CoordEvo.v
theories/P_Coord.v
theories/P_Curve.v
theories/P_Smooth.v
theories/P_Subdiv.v
theories/SpecSide.v
theories/P_Side.v
theories/SpecReason.v
theories/P_Reason.v
theories/P_Alone.v
theories/GapKin.v
theories/SpecGap.v
theories/GapProofs.v
theories/StopProofs.v
theories/P_Gap.v
theories/ProgProofs.v
theories/SpecProg.v
theories/P_Prog.v
theories/SpecQueue.v
theories/QueueProofs.v
theories/P_Queue.v
theories/P_QueueEx.v
theories/SpecTable.v
theories/P_Table.v
theories/SpecDist.v
theories/P_Dist.v
theories/SpecArrive.v
theories/ArriveKin.v
theories/ArriveProofs.v
theories/CrossProofs.v
theories/WhereProofs.v
theories/LightTime.v
theories/SpecLamp.v
theories/LampProofs.v
theories/P_Arrive.v
theories/P_ArriveEx.v
theories/SpecCheap.v
theories/CheapProofs.v
theories/P_Cheap.v
theories/FirstProofs.v
theories/P_First.v
theories/P_Null.v
theories/P_Refute.v
theories/FBound.v
theories/FEnds.v
theories/SpecModerate.v
theories/P_Ends64.v
theories/P_Stall.v
theories/P_Return64.v
theories/SpecRoad.v
theories/RoadLists.v
theories/RoadProofs.v
theories/RoadKnow.v
theories/SpecClear.v
theories/P_Road.v
theories/P_RoadEx.v
theories/RoadClear.v
theories/P_Clear.v
theories/P_ClearEx.v
theories/P_LightTime.v
theories/P_LampEx.v
theories/SpecTraffic.v
theories/RoadEnter.v
theories/P_Traffic.v
theories/P_TrafficEx.v
theories/P_SignEx.v
theories/SpecLocal.v
theories/Align.v
theories/LocPath.v
theories/LocScan.v
theories/LocSim.v
theories/LocElse.v
theories/LocStep.v
theories/LocCall.v
theories/P_Local.v
theories/SpecCross.v
theories/TurnProofs.v
theories/P_Turn.v
theories/P_TurnEx.v
theories/P_MergeEx.v
theories/SpecJunction.v
theories/JunctionProofs.v
theories/P_Junction.v
theories/P_Together.v
theories/P_Shut.v
theories/P_ShutEx.v
theories/P_Lanes.v
theories/SpecPlace.v
theories/PlaceGeom.v
theories/PlaceNet.v
theories/PlaceSim.v
theories/P_Place.v
theories/SpecMirror.v
theories/P_Mirror.v
theories/FuelProofs.v
theories/P_Same.v
theories/SpecUndo.v
theories/P_Undo.v
theories/SpecMap.v
theories/RoadMap.v
theories/P_Map.v
theories/SpecSwap.v
theories/P_Swap.v
theories/SpecRear.v
theories/P_Rear.v
theories/P_Line64.v
theories/SpecGlide.v
theories/GlideProofs.v
theories/P_Glide.v
theories/SpecOwn.v
theories/OwnProofs.v
theories/P_Own.v
theories/SpecFront.v
theories/P_Front.v
theories/P_Again.v
theories/SpecClock.v
theories/P_Clock.v
theories/P_Merge.v
theories/P_Axle.v
theories/P_Pause.v
theories/P_Iter.v
theories/SpecWay.v
theories/P_Way.v
