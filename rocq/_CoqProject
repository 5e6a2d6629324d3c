-Q theories Verif
theories/Base.v
theories/SearchModel.v
theories/SearchSpec.v
theories/SearchCoord.v
theories/SearchBfs.v
theories/SearchBfsInv.v
theories/SearchPath.v
theories/SearchUnk.v
theories/SearchCand.v
theories/SearchMain.v
theories/SearchThm.v
theories/SearchThm2.v
theories/SearchState.v
theories/PropsSearch.v
theories/WallsModel.v
theories/WallsSpec.v
theories/WallsLemmas.v
theories/WallsText.v
theories/WallsText2.v
theories/WallsText3.v
theories/PropsWalls.v
theories/Num.v
theories/NumLemmas.v
theories/SensorsModel.v
theories/SensorsProofs.v
theories/SensorsProofs2.v
theories/SensorsProofs3.v
theories/SensorsProofs4.v
theories/PropsSensors.v
theories/RunModel.v
theories/RunSpec.v
theories/RunNode.v
theories/RunMoves.v
theories/RunTraj.v
theories/RunDijk.v
theories/RunThm.v
theories/Maze16.v
theories/RunOverflow.v
theories/PropsRun.v
theories/ControlModel.v
theories/ControlSpec.v
theories/ControlProofs.v
theories/ControlProofs2.v
theories/ControlProofs3.v
theories/ControlProofs4.v
theories/ControlProofs5.v
theories/PropsControl.v
theories/TrajModel.v
theories/TrajSpec.v
theories/TrajProofs.v
theories/TrajProofs2.v
theories/TrajProofs3.v
theories/TrajProofs4.v
theories/TrajProofs5.v
theories/TrajProofs6.v
theories/TrajProofs7.v
theories/TrajProofs8.v
theories/TrajQuad.v
theories/TrajCurve.v
theories/TrajCurve2.v
theories/TrajCurve3.v
theories/TrajCurve4.v
theories/PropsTraj.v
theories/PropsCurve.v
theories/RouteModel.v
theories/RouteSpec.v
theories/RouteProofs.v
theories/RouteProofs2.v
theories/RouteProofs3.v
theories/RouteProofs4.v
theories/RouteProofs5.v
theories/PropsRoute.v
theories/ClockSpec.v
theories/TrajClock.v
theories/PropsClock.v
theories/DetectModel.v
theories/DetectSpec.v
theories/DetectProofs.v
theories/DetectProofs2.v
theories/DetectProofs3.v
theories/DetectProofs4.v
theories/DetectProofs5.v
theories/DetectProofs6.v
theories/DetectProofs7.v
theories/FloatMag.v
theories/DetectProofs8.v
theories/DetectProofs9.v
theories/DetectProofs10.v
theories/PropsDetect.v
theories/SimModel.v
theories/SimSpec.v
theories/SimProofs.v
theories/SimServo.v
theories/SimEstimate.v
theories/PropsSim.v
theories/SearchExt.v
theories/ExploreModel.v
theories/ExploreProofs.v
theories/PropsExplore.v
theories/SafeSpec.v
theories/SafeProofs.v
theories/SafeProofs2.v
theories/SafeProofs3.v
theories/SafeProofs4.v
theories/SafeGrid.v
theories/SafeRun.v
theories/SafeRun2.v
theories/SafeRun3.v
theories/SafeRun4.v
theories/PropsSafe.v
theories/PropsSafeRun.v
theories/ReachSpec.v
theories/ReachProofs.v
theories/ReachProofs2.v
theories/ReachProofs3.v
theories/ReachProofs4.v
theories/PropsReach.v
theories/FitSpec.v
theories/FitProofs.v
theories/PropsFit.v
theories/FollowSpec.v
theories/SimServo2.v
theories/PropsFollow.v
theories/RestSpec.v
theories/RestProofs.v
theories/RestProofs2.v
theories/PropsRest.v
theories/JerkProofs.v
theories/PropsFloat.v
theories/FloatRange.v
theories/FloatMoveSpec.v
theories/FloatMove.v
theories/FloatMove2.v
theories/FloatMove3.v
theories/FloatCurve.v
theories/PropsMove.v
theories/FloatCurve2.v
theories/FloatCurve3.v
theories/PropsSlalom.v
theories/FloatEstSpec.v
theories/EstFloat.v
theories/EstFloat2.v
theories/PropsEst.v
theories/FloatCtlSpec.v
theories/CtlFloat.v
theories/CtlFloat2.v
theories/CtlFloat3.v
theories/PropsDrive.v
theories/MsgModel.v
theories/MsgSpec.v
theories/MsgProofs.v
theories/PropsMsg.v
theories/FloatSimSpec.v
theories/SimFloat.v
theories/SimFloat2.v
theories/PropsSimFin.v
theories/AngleFloat.v
theories/PropsAngle.v
theories/VoltFloat.v
theories/PropsVolt.v
theories/ImuFloat.v
theories/ImuFloat2.v
theories/PropsImu.v
theories/LoopModel.v
theories/LoopSpec.v
theories/LoopProofs.v
theories/PropsLoop.v
theories/PropsRunLoop.v
theories/FirstSpec.v
theories/SearchFirst.v
theories/SearchFirst2.v
theories/SearchFirst3.v
theories/ResumeSpec.v
theories/ResumeProofs.v
theories/PropsFirst.v
theories/DrivenSpec.v
theories/LoopRoute.v
theories/PropsDriven.v
theories/PropsDrivenRun.v
theories/CountSpec.v
theories/LoopCount.v
theories/PropsCount.v
