-Q theories Verif
theories/Base.v
theories/GridSpec.v
theories/GridMap.v
theories/GridMapProofs.v
theories/Bresenham.v
theories/BresenhamProofs.v
theories/Areas.v
theories/AreasProofs.v
theories/MapManagers.v
theories/MapManagersProofs.v
theories/PropGrid.v
theories/PropDynLine.v

theories/PathSpec.v
theories/AStarOld.v
theories/AStarOldProofs.v
theories/PropAStar.v
theories/PathLen.v
theories/AStarFloat.v
theories/AStarOpt.v
theories/AStarRound.v
theories/AStarIeee.v
theories/GenericSearch.v
theories/GenericProofs.v
theories/RealSums.v
theories/GenericOpt.v
theories/GenericCand.v
theories/GenericReuse.v
theories/DirectSpec.v
theories/DirectSearch.v
theories/PropGeneric.v
theories/PropGenericOut.v
theories/PrecompModel.v
theories/PropPrecomp.v
theories/OpenPolicies.v
theories/PropGenericEx.v
theories/Heuristics.v
theories/PropHeur.v
theories/GenericFloat.v
theories/GenericFloatEx.v
theories/NodeManagers.v
theories/PropManagers.v
theories/GeomR.v
theories/GridGeom.v
theories/PropGeom.v
theories/GridGeomIeee.v
theories/PropGeomIeee.v
theories/RoundModel.v
theories/CollisionMap.v
theories/PropCollision.v
theories/LineModel.v
theories/PropLine.v
theories/CircleModel.v
theories/PropCircle.v
theories/IntersectModel.v
theories/PropIntersect.v
theories/PropTangent.v
theories/PropTangentInner.v
theories/RSParse.v
theories/RSModel.v
theories/PropRSIter.v
theories/PropRSLine.v
theories/PropRSArc.v
theories/PropRSRing.v
theories/PropRSFind.v
theories/PropRSDrive.v
theories/PropRSWay.v
theories/SteerModel.v
theories/PropSteer.v
theories/PropSteerKin.v
theories/PropSteerCost.v
theories/PropSteerGoal.v
theories/SamplingModel.v
theories/PropSampling.v
theories/PropSamplingPlan.v
theories/DistTransModel.v
theories/DistTransProofs.v
theories/DistTransExact.v
theories/DistTransFloat.v
theories/DistTransPath.v
theories/PropDistTrans.v
theories/PropDistTransLen.v
theories/VehicleSearch.v
theories/VehicleProofs.v
theories/VehicleAny.v
theories/VehicleModel.v
theories/VehicleInst.v
theories/VehicleGen.v
theories/PropVehicle.v
theories/PropVehicleEnd.v
theories/PropVehicleJump.v
theories/PropVehicleStart.v
theories/PropVehicleCase.v
theories/PropVehicleQueue.v
theories/SlotModel.v
theories/PropSlots.v
theories/MazeModel.v
theories/MazeTree.v
theories/MazeProofs.v
theories/PropMaze.v
theories/HilbertModel.v
theories/PropHilbert.v
theories/ExpansionModel.v
theories/PropExpansion.v
theories/GenericRound.v
theories/GenericIeee.v
theories/GoalTest.v
theories/GoalTestProofs.v
theories/GoalTestOpt.v
theories/PropGoalTest.v
theories/PropGoalTestIeee.v
theories/EvaluatorModel.v
theories/EvaluatorProofs.v
theories/PropEvaluator.v
theories/RenderModel.v
theories/PropRender.v
theories/BfsModel.v
theories/PropBfs.v
theories/Sim4wsModel.v
theories/PropSim4ws.v
theories/VehicleTest.v
theories/VehicleTestProofs.v
theories/VehicleTestDone.v
theories/VehicleFind.v
theories/PropVehicleTest.v
theories/OverModel.v
theories/PropOver.v
theories/GenericCount.v
theories/GenericWork.v
theories/CountSearch.v
theories/PropCount.v
theories/GenericWindow.v
theories/CandModel.v
theories/PropCand.v
theories/RotGeomIeee.v
theories/PropRotIeee.v
theories/StartConfig.v
theories/PropStart.v
theories/CurveRender.v
theories/PropCurveRender.v
theories/VehicleReuse.v
theories/VehicleReuseProofs.v
theories/PropVehicleReuse.v
theories/VehicleStale.v
theories/PropVehicleStale.v
theories/PropGridUsed.v
theories/PropCellFloat.v
