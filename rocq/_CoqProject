-Q theories Verif
theories/Common.v
theories/CyclicVec.v
theories/CyclicVecSpec.v
theories/CyclicVecProofs.v
theories/CyclicVecProps.v
theories/GridMap.v
theories/GridMapSpec.v
theories/GridMapRun.v
theories/GridMapProofs.v
theories/GridMapProps.v
theories/CostAlg.v
theories/CostZ.v
theories/FloatLib.v
theories/CostF32.v
theories/AStar.v
theories/AStarSpec.v
theories/AStarProofs.v
theories/AStarSearch.v
theories/AStarTerm.v
theories/AStarComplete.v
theories/AStarOpt.v
theories/AStarProps.v
theories/MotionCache.v
theories/Cost3D.v
theories/Motion3DSpec.v
theories/Motion3DProofs.v
theories/Cost3DProps.v
theories/Patrol.v
theories/PatrolProps.v
theories/Compat.v
theories/CompatProps.v
theories/JumpDetector.v
theories/JumpDetectorProps.v
theories/SmoothFilter.v
theories/SmoothFilterProps.v
theories/Kalman.v
theories/KalmanProps.v
theories/Odometry.v
theories/OdometryProps.v
theories/Joystick.v
theories/JoystickProps.v
theories/MapOrganizer.v
theories/MapOrganizerProps.v
theories/Recorder.v
theories/RecorderProps.v
theories/Path2D.v
theories/Path2DProps.v
theories/PathGeom.v
theories/PathGeomProps.v
theories/GridMetric.v
theories/GridMetricProps.v
theories/SafetyLimiter.v
theories/SafetyLimiterProps.v
theories/SafetyPredict.v
theories/SafetyPredictProps.v
theories/BasicControl.v
theories/BasicControlProps.v
theories/Tracker.v
theories/TrackerProps.v
theories/CSpace.v
theories/CSpaceProps.v
theories/Inflate.v
theories/InflateProofs.v
theories/InflateProps.v
theories/Layers.v
theories/LayersProofs.v
theories/LayersRun.v
theories/LayersSync.v
theories/LayersProps.v
theories/Accum.v
theories/AccumProps.v
theories/Sensor.v
theories/SensorProps.v
theories/Polygon.v
theories/PolygonProofs.v
theories/PolygonProps.v
theories/DistMap.v
theories/DistMapSpec.v
theories/DistMapProofs.v
theories/DistMapNum.v
theories/DistMapProps.v
theories/DistExtendProps.v
theories/Bbf.v
theories/BbfProps.v
theories/BbfFloat.v
theories/BbfFloatProps.v
theories/Overlay.v
theories/OverlaySpec.v
theories/OverlayProofs.v
theories/OverlayProps.v
theories/SearchAvail.v
theories/SearchAvailProps.v
theories/Planner.v
theories/PlannerProofs.v
theories/PlannerLedger.v
theories/PlannerProps.v
theories/TempEscape.v
theories/TempEscapeProps.v
theories/Joint2D.v
theories/Joint2DProofs.v
theories/Joint2DProps.v
theories/FloorMaps.v
theories/FloorMapsProofs.v
theories/FloorMapsProps.v
theories/StartPredict.v
theories/StartPredictProps.v
theories/StartPoses.v
theories/StartPosesProps.v
theories/Hysteresis.v
theories/HysteresisProps.v
theories/Primitives.v
theories/PrimitivesProps.v
theories/JointTraj.v
theories/JointTrajProps.v
theories/SafetyCollide.v
theories/SafetyCollideProps.v
theories/TrajServer.v
theories/TrajServerProps.v
theories/Occlusion.v
theories/OcclusionProps.v
theories/PlannerStatusProps.v
theories/TfProjection.v
theories/TfProjectionProps.v
theories/ObjCloud.v
theories/ObjCloudProps.v
theories/MakePlanSrv.v
theories/MakePlanSrvProps.v
theories/DummyRobot.v
theories/DummyRobotProps.v
theories/TieMaps.v
theories/TieMapsProps.v
theories/PoseTransform.v
theories/PoseTransformProps.v
theories/PlanWait.v
theories/PlanWaitProps.v
theories/LinkBody.v
theories/LinkBodyProps.v
theories/AStarFloatProps.v
theories/JointPlan.v
theories/JointPlanProps.v
theories/MotionReset.v
theories/MotionResetProps.v
theories/Plan3D.v
theories/Plan3DMoves.v
theories/Plan3DProps.v
theories/MotionChain.v
theories/Unreach3DProps.v
theories/RoughMapProps.v
theories/ClearMap.v
theories/ClearProps.v
theories/Reconfig.v
theories/ReconfigProps.v
theories/LayerConfig.v
theories/LayerConfigProps.v
theories/SensedMap.v
theories/SensedProps.v
theories/DistSync.v
theories/DistSyncProps.v
theories/SafetyStatus.v
theories/SafetyStatusProps.v
theories/TrackSense.v
theories/TrackSenseProofs.v
theories/TrackSenseProps.v
theories/Braking.v
theories/BrakingProps.v
theories/LimitedDrive.v
theories/LimitedDriveProps.v
