-Q theories Verif
theories/Base/Res.v
theories/Base/Mat.v
theories/Base/RDec.v
theories/Base/RSum.v
theories/Base/LinAlg.v
theories/Base/Inverse.v
theories/Base/RMat.v
theories/Base/Geom.v
theories/Base/AMap.v
theories/Model/TypeHelper.v
theories/Model/Types.v
theories/Model/MathHelperMat.v
theories/Model/QR.v
theories/Model/Ekf.v
theories/Model/Updater.v
theories/Model/Ops.v
theories/Spec/Layout.v
theories/Spec/Correct.v
theories/Spec/KF.v
theories/Spec/Contract.v
theories/Spec/Named.v
theories/Spec/Same.v
theories/Spec/History.v
theories/Spec/Motion.v
theories/Spec/Surgery.v
theories/Proofs/MatSurgery.v
theories/Proofs/Refresh.v
theories/Proofs/Wf.v
theories/Proofs/Register.v
theories/Proofs/AugCov.v
theories/Proofs/Augment.v
theories/Proofs/PlusVec.v
theories/Proofs/QRProofs.v
theories/Proofs/Predict.v
theories/Proofs/Kalman.v
theories/Proofs/CovGood.v
theories/Proofs/Invariant.v
theories/Proofs/LayoutNoDup.v
theories/Proofs/Demo.v
theories/Proofs/Named.v
theories/Proofs/Clones.v
theories/Proofs/Same.v
theories/Proofs/Update.v
theories/Proofs/Sizes.v
theories/Proofs/RegRefute.v
theories/Proofs/LogFields.v
theories/Proofs/LogVars.v
theories/Proofs/Scalars.v
theories/Proofs/Clock.v
theories/Proofs/Effects.v
theories/Proofs/Windows.v
theories/Proofs/Pruning.v
theories/Proofs/CloneFacts.v
theories/Proofs/Finals.v
theories/Proofs/RootForm.v
theories/Proofs/DemoFilter.v
theories/Properties/C01.v
theories/Properties/C02.v
theories/Properties/C03.v
theories/Properties/C04.v
theories/Properties/C06.v
theories/Properties/C07.v
theories/Properties/C08.v
theories/Properties/C09.v
theories/Properties/C10.v
theories/Properties/C12.v
theories/Properties/C13.v
theories/Properties/C16.v
theories/Properties/C17.v
theories/Properties/C20.v
theories/Properties/C21.v
theories/Properties/C22.v
theories/Model/MathHelper.v
theories/Spec/Rotation.v
theories/Proofs/Rotations.v
theories/Properties/C23.v
theories/Properties/C24.v
theories/Spec/Points.v
theories/Spec/Svd.v
theories/Proofs/Bounds.v
theories/Proofs/Compress.v
theories/Proofs/Nullspace.v
theories/Proofs/Align.v
theories/Proofs/Svd2.v
theories/Properties/C37.v
theories/Properties/C38.v
theories/Properties/C39.v
theories/Properties/C40.v
theories/Model/GpsHelper.v
theories/Spec/Earth.v
theories/Proofs/GpsFrames.v
theories/Properties/C25.v
theories/Spec/Sub.v
theories/Spec/Csv.v
theories/Spec/LogFields.v
theories/Spec/LogFile.v
theories/Model/StringHelper.v
theories/Model/DataLogger.v
theories/Model/DebugLogger.v
theories/Proofs/Strings.v
theories/Proofs/Logging.v
theories/Model/LogRows.v
theories/Proofs/Columns.v
theories/Spec/Severity.v
theories/Proofs/Debug.v
theories/Properties/C26.v
theories/Properties/C27.v
theories/Properties/C28.v
theories/Properties/C29.v
theories/Properties/C47.v
theories/Model/Matrix3.v
theories/Model/ImuUpdater.v
theories/Model/GpsUpdater.v
theories/Model/FiducialUpdater.v
theories/Model/MsckfUpdater.v
theories/Spec/Callback.v
theories/Proofs/Follows.v
theories/Proofs/BlockDiag.v
theories/Proofs/ImuCallback.v
theories/Proofs/GpsCallback.v
theories/Proofs/FidCallback.v
theories/Proofs/MsckfCallback.v
theories/Model/Sensors.v
theories/Spec/World.v
theories/Proofs/World.v
theories/Model/Simulation.v
theories/Spec/Ids.v
theories/Proofs/Ids.v
theories/Spec/Replay.v
theories/Proofs/Sim.v
theories/Proofs/WorldFinals.v
theories/Properties/C30.v
theories/Properties/C31.v
theories/Properties/C32.v
theories/Properties/C44.v
theories/Properties/C50.v
theories/Spec/Stationary.v
theories/Proofs/Stationary.v
theories/Proofs/StationaryFinals.v
theories/Properties/C41.v
theories/Spec/Unused.v
theories/Proofs/Unused.v
theories/Properties/C48.v
theories/Spec/Noise.v
theories/Proofs/Noise.v
theories/Proofs/CamOrder.v
theories/Proofs/Phantom.v
theories/Properties/C45.v
theories/Properties/C46.v
theories/Properties/C49.v
theories/Model/Trackers.v
theories/Spec/Matches.v
theories/Spec/Tracks.v
theories/Proofs/Matches.v
theories/Proofs/Tracks.v
theories/Proofs/SimTracks.v
theories/Proofs/ImageTracks.v
theories/Proofs/TrackDemo.v
theories/Properties/C33.v
theories/Properties/C34.v
theories/Properties/C35.v
theories/Properties/C51.v
theories/Spec/Deriv.v
theories/Proofs/Deriv.v
theories/Proofs/RotDeriv.v
theories/Proofs/Jacobians.v
theories/Proofs/CamJacobians.v
theories/Proofs/FidJacobians.v
theories/Proofs/JacWrong.v
theories/Proofs/JacDemo.v
theories/Properties/C36.v
theories/Spec/Vector.v
theories/Proofs/Vector.v
theories/Proofs/VectorBack.v
theories/Proofs/VectorRefute.v
theories/Properties/C14.v
theories/Properties/C15.v
theories/Spec/Lookup.v
theories/Proofs/Lookup.v
theories/Proofs/LookupFinal.v
theories/Properties/C18.v
theories/Properties/C19.v
theories/Spec/RootPredict.v
theories/Proofs/RootPredict.v
theories/Properties/C11.v
theories/Model/TruthEngine.v
theories/Model/SimSensors.v
theories/Spec/Truth.v
theories/Spec/Sampled.v
theories/Spec/SplineTruth.v
theories/Proofs/Cyclic.v
theories/Proofs/Smoother.v
theories/Proofs/SmootherDemo.v
theories/Proofs/SplineTruth.v
theories/Properties/C42.v
theories/Properties/C43.v
theories/Properties/C52.v
theories/Spec/ByName.v
theories/Proofs/ByName.v
theories/Proofs/ByNameClone.v
theories/Proofs/ByNameRun.v
theories/Proofs/ByNameDemo.v
theories/Properties/C05.v
theories/Model/EigenQuat.v
theories/Spec/AtRest.v
theories/Proofs/ZeroStep.v
theories/Proofs/RestLookup.v
theories/Proofs/AtRest.v
theories/Proofs/AtRestBuild.v
theories/Proofs/EigenQuat.v
theories/Proofs/AtRestSteps.v
theories/Proofs/AtRestFinals.v
theories/Properties/C53.v
theories/Model/RosNode.v
theories/Spec/Ros.v
theories/Proofs/RosLoad.v
theories/Proofs/RosFinals.v
theories/Proofs/RosNoise.v
theories/Proofs/RosGps.v
theories/Properties/C54.v
theories/Spec/SelfAlign.v
theories/Proofs/SelfAlign.v
theories/Properties/C55.v
theories/Model/Geodetic.v
theories/Spec/Geodesy.v
theories/Proofs/Olsen.v
theories/Proofs/Geodesy.v
theories/Proofs/GeodesyFinals.v
theories/Properties/C56.v
theories/Spec/Triangulation.v
theories/Proofs/Triangulation.v
theories/Proofs/TriangulationFinals.v
theories/Properties/C57.v
theories/Model/SimMain.v
theories/Proofs/SteadyFrames.v
theories/Proofs/TrackFit.v
theories/Spec/SimMain.v
theories/Proofs/SimGen.v
theories/Proofs/SimMain.v
theories/Proofs/SimRest.v
theories/Proofs/SimLog.v
theories/Proofs/SimTotal.v
theories/Proofs/SimExample.v
theories/Properties/C58.v
theories/Spec/RootDrop.v
theories/Proofs/RootDrop.v
theories/Spec/Late.v
theories/Proofs/Late.v
theories/Proofs/LateDemo.v
theories/Properties/C59.v
theories/Model/SimConfig.v
theories/Spec/Config.v
theories/Spec/ExampleFile.v
theories/Spec/ConfigRos.v
theories/Proofs/Config.v
theories/Proofs/ConfigKeys.v
theories/Proofs/ConfigNeeds.v
theories/Proofs/ConfigExample.v
theories/Properties/C60.v
theories/Spec/Towards.v
theories/Proofs/Weigh.v
theories/Proofs/Towards.v
theories/Proofs/TowardsImu.v
theories/Proofs/TowardsBoard.v
theories/Proofs/TowardsDemo.v
theories/Properties/C61.v
theories/Spec/DerivImu.v
theories/Proofs/ImuJacobians.v
theories/Proofs/ImuJacDemo.v
theories/Spec/WindowSize.v
theories/Proofs/WindowSize.v
theories/Proofs/SimZero.v
theories/Spec/DerivBoard.v
theories/Proofs/BoardTurn.v
theories/Proofs/BoardTurnDemo.v
theories/Spec/Chance.v
theories/Proofs/Chance.v
theories/Proofs/ChanceExists.v
theories/Proofs/ChanceHistory.v
theories/Properties/C62.v
theories/Spec/SimNoise.v
theories/Proofs/SimNoise.v
theories/Properties/C63.v
theories/Spec/CamTrack.v
theories/Proofs/CamTrack.v
theories/Proofs/CamTrackFinal.v
theories/Proofs/CamTrackRun.v
theories/Proofs/CamTrackDemo.v
theories/Properties/C64.v
theories/Spec/Origin.v
theories/Proofs/Origin.v
theories/Proofs/OriginWorld.v
theories/Proofs/OriginRun.v
theories/Proofs/OriginFinal.v
theories/Properties/C65.v
theories/Proofs/SimStart.v
theories/Model/DoubleTime.v
theories/Spec/DoubleTime.v
theories/Proofs/DoubleTime.v
theories/Properties/C66.v
theories/Spec/Unsure.v
theories/Proofs/Kernel.v
theories/Proofs/Unsure.v
theories/Proofs/UnsureRun.v
theories/Proofs/UnsureFinal.v
theories/Properties/C67.v
theories/Spec/Apart.v
theories/Proofs/UnsureImu.v
theories/Proofs/UnsureWorld.v
theories/Proofs/UnsureTrack.v
theories/Proofs/UnsureQr.v
theories/Proofs/UnsureSeen.v
theories/Proofs/UnsureSeenDemo.v
theories/Spec/Due.v
theories/Proofs/Due.v
theories/Properties/C68.v
theories/Spec/FirstUse.v
theories/Proofs/FirstUse.v
theories/Proofs/FirstGps.v
theories/Proofs/FirstDemo.v
theories/Proofs/FirstWorld.v
theories/Properties/C69.v
theories/Spec/Build.v
theories/Proofs/Build.v
theories/Properties/C70.v
theories/Proofs/FirstTaken.v
theories/Proofs/FirstTakenDemo.v
theories/Spec/Lens.v
theories/Proofs/Lens.v
theories/Proofs/LensDemo.v
theories/Properties/C71.v
theories/Proofs/RootScore.v
