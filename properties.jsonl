{"id": "C01", "title": "Filter dimensions never drift apart", "statement": "After any sequence of public EKF calls (registrations, predictions, frame augmentations, measurement updates, getters, setters) that meets the documented preconditions, the covariance matrix is square with side equal to the advertised state size, the process-noise matrix has the same side, and the state size equals 18 plus the sizes of all calibrated sensors, calibrated fiducials and stored clones; no matrix block access or unsigned subtraction ever goes out of range.", "quantifier": "all finite sequences of API calls from a freshly constructed filter, all parameter values, covariance in standard form", "why_tests_cant": "A test only runs a handful of call orders; out-of-range block accesses depend on the order of registrations, camera frames and track-length changes.", "anchors": ["src/ekf/ekf.cpp: EKF::RegisterIMU, RegisterGPS, RegisterCamera, RegisterFiducial, AugmentCovariance, AugmentStateIfNeeded, RefreshIndices", "src/utility/math_helper.cpp: InsertInMatrix, RemoveFromMatrix"]}
{"id": "C02", "title": "Every calibrated quantity owns its own slice of the state vector", "statement": "After any valid history the index ranges handed out to the body, each IMU (extrinsic and intrinsic part), each GPS antenna, each camera, each fiducial and each stored clone are pairwise disjoint, contiguous, in the order body, IMU, GPS, camera, fiducial, clone, and together cover exactly the state vector.", "quantifier": "all finite sequences of API calls meeting the preconditions", "why_tests_cant": "The partition must hold for every number and mix of sensors and clones and after every insertion/removal; tests fix a few layouts.", "anchors": ["src/ekf/ekf.cpp: EKF::RefreshIndices", "src/ekf/types.cpp: ImuState::refresh_size, GpsState::refresh_size, CamState::refresh_size, FidState::refresh_size"]}
{"id": "C03", "title": "Adding a sensor does not disturb existing estimates", "statement": "Registering a sensor whose id is larger than those of its kind leaves every variance and cross-covariance between already estimated quantities unchanged, gives the new quantity exactly the supplied initial covariance and no correlation with anything else. Registering ids out of order, or a fiducial after clones exist, breaks this: covariance rows are attributed to the wrong quantity. In square-root form the supplied matrix is taken for a factor: a supplied variance v ends up as v squared.", "quantifier": "all well-formed filter states, all sensor ids and initial covariances", "why_tests_cant": "The mixing of rows only shows up for particular id orders/clone counts and then only as a subtle statistics error.", "anchors": ["src/ekf/ekf.cpp: EKF::RegisterIMU, RegisterGPS, RegisterCamera, RegisterFiducial, RefreshIndices", "src/utility/math_helper.cpp: InsertInMatrix"]}
{"id": "C04", "title": "Re-registering a sensor id is refused without side effects", "statement": "Registering an IMU, GPS, camera or fiducial with an id already registered for that kind leaves every part of the filter unchanged; registering a fresh id stores exactly the supplied state under that id and leaves every other sensor's state unchanged.", "quantifier": "all filter states, ids and sensor states", "why_tests_cant": "Requires frame conditions on the whole filter state for every state, not single examples.", "anchors": ["src/ekf/ekf.cpp: EKF::RegisterIMU, RegisterGPS, RegisterCamera, RegisterFiducial"]}
{"id": "C05", "title": "The covariance follows the abstract, index-free filter for whole histories", "statement": "In standard (non root) form, seen through the index each quantity is told to use, the filter's covariance after any valid history of registrations (ids increasing), frame or timed clones, window removals, time predictions, measurement updates, getters and setters equals the covariance obtained by running the same history on an index-free filter that stores a covariance for each pair of named scalar quantities. In square-root form it does not: one registration is enough to part ways.", "quantifier": "all finite histories of calls (ids registered in increasing order per kind, fiducials before clones)", "why_tests_cant": "It is a refinement statement over unboundedly long mixed histories; tests compare a few matrices.", "anchors": ["src/ekf/ekf.cpp: EKF::PredictModel, RegisterIMU, AugmentCovariance, AugmentStateIfNeeded, RefreshIndices", "src/utility/math_helper.cpp: InsertInMatrix, RemoveFromMatrix"]}
{"id": "C06", "title": "The covariance stays a covariance", "statement": "In standard (non root) form the covariance stays symmetric positive semidefinite after any sequence of valid calls, provided supplied initial covariances, process noises and measurement noises are.", "quantifier": "all finite histories, all symmetric positive-semidefinite inputs, non-negative noise", "why_tests_cant": "PSD is a for-all-vectors statement about every reachable matrix; numeric tests sample few matrices.", "anchors": ["src/ekf/ekf.cpp: EKF::PredictModel, AugmentCovariance, Register*", "src/ekf/update/updater.cpp: KalmanUpdate"]}
{"id": "C07", "title": "A clone starts as an exact statistical copy of the body pose", "statement": "Directly after a clone is added, its covariance block and its cross-covariance with every quantity equal those of the body position and body orientation, and all previous covariance entries are unchanged; the clone's pose equals the body pose at that moment. When a full window first drops its oldest clone this is so in covariance form; in square-root form the variance carried by the dropped rows of the factor is lost: covariances with the body and the sensors stay, variances of clones can only shrink, and with two cameras they do.", "quantifier": "all well-formed filter states and all camera frames", "why_tests_cant": "Must hold for every position at which the clone is inserted, any number of sensors and clones.", "anchors": ["src/ekf/ekf.cpp: EKF::AugmentCovariance, AugmentStateIfNeeded"]}
{"id": "C08", "title": "Matrix insertion and removal are exact inverses", "statement": "Inserting a block in a square matrix puts it at the requested diagonal position, keeps all old entries (shifted) and zero fills the rest; removing a row/column range keeps all other entries; removing what was just inserted gives back the original; two removals or insertions at different places commute up to index shift.", "quantifier": "all matrices of all sizes, all in-range positions and sizes (any scalar type)", "why_tests_cant": "Tests use a few fixed small matrices; off-by-one errors at the borders depend on sizes.", "anchors": ["src/utility/math_helper.cpp: InsertInMatrix, RemoveFromMatrix"]}
{"id": "C09", "title": "Time never runs backwards", "statement": "A prediction to a time earlier than the filter's current time changes nothing; otherwise the current time becomes exactly the requested time. Over any history the filter clock is non-decreasing, except for explicit re-initialisation and for the first measurement of a filter, which sets the clock to zero.", "quantifier": "all filter states, times, and all histories", "why_tests_cant": "Message reordering gives unboundedly many schedules.", "anchors": ["src/ekf/ekf.cpp: EKF::PredictModel, GetCurrentTime"]}
{"id": "C10", "title": "Prediction implements the constant-acceleration model", "statement": "For a prediction by dt ≥ 0 with gravity initialised: orientation is advanced by the rotation of ω·dt, velocity by dt times the gravity-compensated acceleration (or not at all when zero acceleration is selected), position by dt times the new velocity; with gravity not initialised the pose is unchanged. All sensor and clone states are unchanged, and the covariance becomes F(P+Q·dt)Fᵀ with F identity outside the body block.", "quantifier": "all filter states, all times", "why_tests_cant": "Matrix identity for all sizes and all states; block update in place is easy to get subtly wrong.", "anchors": ["src/ekf/ekf.cpp: EKF::PredictModel, GetStateTransition", "src/ekf/types.cpp: operator+="]}
{"id": "C11", "title": "Square-root prediction agrees with standard prediction", "statement": "In square-root form, prediction should produce a factor whose Gram matrix is the standard predicted covariance. The code multiplies the body-to-rest cross term by the transition matrix on the wrong side, and adds the noise after the transition: the Gram matrix is F P F^T + Q dt (instead of F (P + Q dt) F^T) when that cross term vanishes, and neither of the two in general.", "quantifier": "all square-root factors, transition matrices and noise", "why_tests_cant": "Equality of Gram matrices over all inputs; the wrong side of a multiplication needs a specific coupling to be visible.", "anchors": ["src/ekf/ekf.cpp: EKF::PredictModel", "src/utility/math_helper.cpp: QR_r"]}
{"id": "C12", "title": "Measurement update is the optimal linear update", "statement": "For any measurement Jacobian, residual and positive definite innovation covariance the standard update applies the correction K·y with K = P Hᵀ (H P Hᵀ + R)⁻¹; the Joseph-form result equals (I-KH)P, is symmetric positive semidefinite, never exceeds the prior covariance, and no other gain yields a smaller covariance. A measurement with zero residual leaves the estimate unchanged.", "quantifier": "all dimensions, all matrices with invertible innovation covariance", "why_tests_cant": "Optimality ranges over all gains and all matrices.", "anchors": ["src/ekf/update/updater.cpp: Updater::KalmanUpdate"]}
{"id": "C13", "title": "Square-root update agrees with the standard update", "statement": "In square-root form the update should give the same correction and a factor of the same posterior covariance. This holds when the noise handed over is diagonal (the square root is taken entry by entry) and fails for non diagonal noise.", "quantifier": "all square-root factors, Jacobians, diagonal noises", "why_tests_cant": "Equality over all factors; failing cases need correlated noise.", "anchors": ["src/ekf/update/updater.cpp: Updater::KalmanUpdate", "src/utility/math_helper.cpp: QR_r"]}
{"id": "C14", "title": "Corrections land on the right quantities", "statement": "Adding a correction vector to the state changes each quantity by exactly the slice of the vector at its own index and leaves uncalibrated sensors unchanged; with nothing stored beyond the body only entries 0..17 are read. Converting the state to a vector and setting it back is the identity when every estimated orientation is in canonical form and no IMU is calibrated only intrinsically; an intrinsic-only IMU gets its biases reset to zero. The separate addition of a vector to a map of cameras gives every camera the first camera's entries.", "quantifier": "all states and all vectors of matching size", "why_tests_cant": "Ranges over all sensor mixes; index slips affect only certain mixes.", "anchors": ["src/ekf/types.cpp: State::operator+=, BodyState::operator+=, ToVector, SetState"]}
{"id": "C15", "title": "The state reports its own size correctly", "statement": "State::GetStateSize equals the filter's state size and the number of entries written by State::ToVector. The reported size is right exactly when the number of clones equals the number of clone lists (keys are counted, not clones); with more clones ToVector writes outside its vector, and the biases of an IMU calibrated only intrinsically are omitted from the vector.", "quantifier": "all states", "why_tests_cant": "Depends on unbounded numbers of clones/sensors.", "anchors": ["src/ekf/types.cpp: State::GetStateSize, State::ToVector"]}
{"id": "C16", "title": "The sliding window is bounded and first-in first-out", "statement": "With per-frame augmentation, after any history the number of clones kept for a camera never exceeds the maximum track length (the largest in force so far: lowering it later does not shrink the window), the kept clones are the most recent ones in order of arrival, and the clone that is dropped is the oldest one. With the maximum length changing at will the number held is exactly the one obtained by adding one at each frame that finds fewer than the maximum in force: a window never shrinks, and lowering the maximum below its size leaves the size for ever. In the primary mode the windows of other cameras do not change. With a maximum of 0 the first frame is undefined behaviour.", "quantifier": "all histories of frames, registrations, updates and changes of the maximum length, all cameras", "why_tests_cant": "Bound over unbounded histories.", "anchors": ["src/ekf/ekf.cpp: EKF::AugmentStateIfNeeded(unsigned int, int)"]}
{"id": "C17", "title": "Time-window pruning keeps what interpolation needs", "statement": "With time/error based augmentation, clones are ordered by time, pruning removes oldest clones only, keeps at least one clone, and never removes a clone such that an instant within the track duration before the current time loses its bracketing clone.", "quantifier": "all histories of predictions, all rates", "why_tests_cant": "Schedules of prediction times are unbounded.", "anchors": ["src/ekf/ekf.cpp: EKF::AugmentStateIfNeeded()"]}
{"id": "C18", "title": "Clone lookup returns the right pose", "statement": "Looking up a frame that was cloned and is still in the window returns that clone; in interpolating modes the returned pose lies on the segment between the bracketing clones (or newest clone and body), equals a clone at its own time, and does not extrapolate for times up to the filter's. When the newest clone is as new as the filter itself, a lookup at the current time divides zero by zero; times in the future are extrapolated.", "quantifier": "all windows, all times", "why_tests_cant": "All times and window contents.", "anchors": ["src/ekf/ekf.cpp: EKF::GetAugState"]}
{"id": "C19", "title": "Clone lookup never aliases another quantity", "statement": "The index carried by a looked-up clone should be the index of a clone. When the frame is no longer stored, the lookup instead returns a default pose whose index is 0, i.e. the body position.", "quantifier": "all windows and frames", "why_tests_cant": "Only visible once a frame has left the window.", "anchors": ["src/ekf/ekf.cpp: EKF::GetAugState"]}
{"id": "C20", "title": "Local time is a constant offset from sensor time", "statement": "The first time the filter is asked, the local time is 0 (or the reference is consistent with an earlier initialisation); afterwards local time differences equal sensor time differences, so message order is preserved.", "quantifier": "all sequences of time conversions", "why_tests_cant": "For-all sequence property.", "anchors": ["src/ekf/ekf.cpp: EKF::CalculateLocalTime, Initialize"]}
{"id": "C21", "title": "One-way switches stay on, and GPS needs four samples", "statement": "Once gravity is initialised, or the GPS reference is initialised, or motion has been detected, no later call except the documented ones undoes it; automatic GPS initialisation never happens before four samples have been collected, and every recorded sample is kept until then.", "quantifier": "all histories", "why_tests_cant": "Temporal property over all histories.", "anchors": ["src/ekf/ekf.cpp: EKF::AttemptGpsInitialization, InitializeGravity, SetGpsReference", "src/ekf/update/imu_updater.cpp: ImuUpdater::ZeroAccelerationUpdate"]}
{"id": "C22", "title": "Orientations remain rotations", "statement": "If all initial orientations are unit quaternions, every orientation held by the filter stays a unit quaternion after any history of predictions, updates and clonings, and rotation by it preserves lengths.", "quantifier": "all histories with real arithmetic", "why_tests_cant": "Invariant over unbounded histories.", "anchors": ["src/utility/type_helper.cpp: RotVecToQuat", "src/ekf/types.cpp: operator+=", "src/ekf/ekf.cpp: PredictModel"]}
{"id": "C23", "title": "Rotation vector and quaternion conversions are inverse", "statement": "RotVecToQuat returns a unit quaternion; QuatToRotVec(RotVecToQuat(v)) = v for 1e-9 < |v| <= pi, and the zero rotation is used for smaller vectors; rotating by RotVecToQuat(v) fixes v.", "quantifier": "all vectors", "why_tests_cant": "Transcendental identity over a continuum.", "anchors": ["src/utility/type_helper.cpp: RotVecToQuat, QuatToRotVec"]}
{"id": "C24", "title": "Skew-symmetric matrix is the cross product", "statement": "SkewSymmetric(a)·b = a×b, it is antisymmetric, R·Skew(a)·Rᵀ = Skew(R a) for rotations given by unit quaternions; the rotation matrix of a unit quaternion is orthogonal and multiplicative.", "quantifier": "all vectors and unit quaternions", "why_tests_cant": "Algebraic laws over all reals.", "anchors": ["src/utility/math_helper.cpp: SkewSymmetric"]}
{"id": "C25", "title": "Earth frame conversions are inverse rigid motions", "statement": "ECEF to ENU and back is the identity for every reference, both preserve distances, local to ENU and back is the identity for every heading, lla_to_enu of the reference is the origin; points on a common geodetic latitude/longitude convert with altitude along the local vertical.", "quantifier": "all points, references and headings", "why_tests_cant": "Continuum of inputs.", "anchors": ["src/utility/gps_helper.cpp: lla_to_ecef, ecef_to_enu, enu_to_ecef, local_to_enu, enu_to_local"]}
{"id": "C26", "title": "A log file has exactly one header, first", "statement": "With logging enabled the file is opened once, its first line is the header that was defined, followed by exactly the messages logged since, in order; with logging disabled nothing is written and the file is not created.", "quantifier": "all sequences of logger calls", "why_tests_cant": "For-all call sequences.", "anchors": ["src/infrastructure/data_logger.cpp: DataLogger::Log"]}
{"id": "C27", "title": "Rate limiting bounds the log", "statement": "With log rate r > 0 the number of rows written up to time t is at most r·(t - t0) + 1 (t0 the time of the first message) for non-decreasing times, and with rate 0 every message is written. The first-message marker uses time 0 as 'unset', which breaks the bound when the log starts at time 0.", "quantifier": "all non-decreasing sequences of message times", "why_tests_cant": "Bound over all sequences.", "anchors": ["src/infrastructure/data_logger.cpp: DataLogger::RateLimitedLog"]}
{"id": "C28", "title": "Severity filter", "statement": "A message is emitted exactly if its severity is at least as severe as the configured level (only the announcement of a level change bypasses this); raising the verbosity never hides a message; warnings and worse go to the error stream only.", "quantifier": "all levels, all messages", "why_tests_cant": "Order property over all levels and sequences of level changes.", "anchors": ["src/infrastructure/sim/sim_debug_logger.cpp: DebugLogger::Log, SetLogLevel"]}
{"id": "C29", "title": "Every log row holds what its header names", "statement": "For each data log (body state, clones, IMU, GPS, fiducial, MSCKF, triangulation, truth) every row has the columns of its header, in the same order and with the named quantity in each column, for every calibration option and number of sensors. Variance columns hold the filter's variances in covariance form; in square-root form they hold the squared diagonal of the factor, which can understate the variance, and the stationary IMU row squares the stored diagonal even in covariance form.", "quantifier": "all calibration flags, numbers of sensors, vectors", "why_tests_cant": "All flag/size combinations; tests never parse the files.", "anchors": ["src/ekf/ekf.cpp: EKF::EKF, LogBodyStateIfNeeded", "src/ekf/update/imu_updater.cpp", "src/ekf/update/gps_updater.cpp", "src/ekf/update/fiducial_updater.cpp", "src/ekf/update/msckf_updater.cpp", "src/utility/string_helper.cpp", "src/infrastructure/sim/truth_engine.cpp: WriteTruthData"]}
{"id": "C30", "title": "Identifiers are unique", "statement": "Sensors, trackers, camera frames and tracked features created in one process get pairwise different identifiers (until the counter wraps around), increasing in creation order; sensor ids start at 1 so id 0 is never used.", "quantifier": "all creation sequences", "why_tests_cant": "For all sequences.", "anchors": ["src/sensors/sensor.cpp: Sensor::Sensor", "src/trackers/tracker.cpp", "src/sensors/camera.cpp: Camera::GenerateFrameID", "src/trackers/feature_tracker.cpp: GenerateFeatureID"]}
{"id": "C31", "title": "Simulation replays every measurement once, in time order", "statement": "The simulator delivers a permutation of all generated messages in non-decreasing time order, each to the sensor that produced it; combined with the clock, no simulated measurement arrives in the filter's past.", "quantifier": "all sets of sensors and messages", "why_tests_cant": "For all message multisets.", "anchors": ["src/application/sim/simulation.cpp: main", "src/sensors/sensor.cpp: MessageCompare"]}
{"id": "C32", "title": "Measurement times are regular and within the run", "statement": "Without errors, a sensor of rate r > 0 in a run of length T ≥ 0 produces floor(T·r) strictly increasing times, the first at 0, spaced by 1/r, all before T.", "quantifier": "all rates and durations", "why_tests_cant": "Real parameters; floor arithmetic.", "anchors": ["src/sensors/sim/sim_sensor.cpp: GenerateMeasurementTimes"]}
{"id": "C33", "title": "Every feature observation is used at most once and tracks are contiguous in time", "statement": "Over any history of frames, a feature track handed to the filter belongs to one feature, covers consecutive frames, has at least the minimum length and ends because the feature was lost or the maximum length was reached; an observation is never handed over twice. The simulated tracker hands over exactly the runs of sightings of each feature cut at the maximum length, in the frame that ends them, and after every frame each stored track is shorter than the maximum and seen in the current frame. The tracker on images does the same at frames where both this and the previous image have described points; at other frames it hands over nothing and keeps all tracks.", "quantifier": "all sequences of frames with arbitrary visible feature sets", "why_tests_cant": "All visibility histories.", "anchors": ["src/trackers/sim/sim_feature_tracker.cpp: GenerateMessage", "src/trackers/feature_tracker.cpp: Track"]}
{"id": "C34", "title": "Grid thinning keeps one feature per cell", "statement": "Grid thinning returns a subset of the detected points, in order, at most one per cell of ten by ten pixels, none outside the image, and every detected point in a cell that lies fully inside the image has a kept point in its cell. Detections in the incomplete cells at the right and lower edges are lost.", "quantifier": "all lists of detections", "why_tests_cant": "All lists.", "anchors": ["src/trackers/feature_tracker.cpp: FeatureTracker::GridFeatures"]}
{"id": "C35", "title": "Match filters only remove matches", "statement": "Ratio, symmetry and distance tests return sub-collections of their input; symmetry-tested matches are mutual and one-to-one; the distance test keeps exactly those below three times the mean. The distance test discards everything when all matches have distance zero.", "quantifier": "all match lists", "why_tests_cant": "All lists.", "anchors": ["src/trackers/feature_tracker.cpp: RatioTest, SymmetryTest, DistanceTest"]}
{"id": "C36", "title": "Measurement Jacobians against the derivatives of the measurement models", "statement": "With first-estimates off, the Jacobians of the GPS prediction, of the camera projection, of an MSCKF observation through an undistorted lens and of the fiducial board position (board not calibrated) are the derivatives of the predicted measurement along every smooth change of the state, orientations being parametrised by their rotation vectors. They are not derivatives elsewhere: the distortion Jacobian agrees with the applied distortion only if k1 = k2 or at the image centre; the position columns of a calibrated board are an identity instead of the rotation into the camera; and, because corrections turn the body from the right, the GPS orientation columns are the derivative for the applied correction at the identity attitude but not at every attitude. For inertial sensors the columns are right exactly where the terms they leave out vanish: the accelerometer rows take the body acceleration as seen through the body attitude although the prediction does not, and have no velocity columns, so they are right for a level body at zero velocity; the gyroscope rows have no attitude columns, so they are right as long as the attitude is not changed. The stationary rows look for the turn of a calibrated sensor among the entries of its position and do not turn the body's turn into the sensor frame; they are right for a level body with an aligned, uncalibrated sensor. The orientation rows of a fiducial board are right only for changes along which the errors about the turns of body, camera and board cancel; in every state there are turns of the body, of the camera and of the board about which they are wrong, and for a level body and board the rows of the body are the exact opposite of the rate.", "quantifier": "all states and all smooth curves of states", "why_tests_cant": "Derivative identity on a continuum.", "anchors": ["src/ekf/update/gps_updater.cpp: GetMeasurementJacobian", "src/ekf/update/msckf_updater.cpp: ProjectionJacobian, DistortionJacobian, Project, Distort, UpdateEKF", "src/ekf/update/fiducial_updater.cpp: GetMeasurementJacobian", "src/ekf/update/imu_updater.cpp: PredictMeasurement, GetMeasurementJacobian, GetZeroAccelerationJacobian, ZeroAccelerationUpdate"]}
{"id": "C37", "title": "Minimum variance bounding", "statement": "MinBoundVector leaves every entry at least the bound, changes no entry already above it, and is idempotent.", "quantifier": "all vectors and bounds", "why_tests_cant": "All vectors.", "anchors": ["src/utility/math_helper.cpp: MinBoundVector"]}
{"id": "C38", "title": "Measurement compression preserves information", "statement": "Compressing a stacked measurement by Givens rotations should preserve HᵀH and Hᵀr (hence the update). The rotations do; but the code then keeps the first k rows, where k is the number of rows with an entry of magnitude above 1e-9, so when a negligible row precedes a non-negligible one, information is lost.", "quantifier": "all Jacobians and residuals with at least as many rows as columns", "why_tests_cant": "All matrices.", "anchors": ["src/utility/math_helper.cpp: CompressMeasurements"]}
{"id": "C39", "title": "Nullspace projection removes the feature error", "statement": "Projecting a stacked measurement on the left nullspace should make it independent of the feature error. The code multiplies with rows of Q instead of columns of Q, so the projected feature Jacobian is in general not zero.", "quantifier": "all feature Jacobians of full column rank", "why_tests_cant": "All matrices.", "anchors": ["src/utility/math_helper.cpp: ApplyLeftNullspace"]}
{"id": "C40", "title": "Alignment statistics", "statement": "average_vectors returns the arithmetic mean; it lies within the bounds of its inputs and is translation equivariant; kabsch_2d refuses fewer than four pairs or unequal lengths, and for exactly aligned point sets (pure yaw and translation, yaw non negative) recovers heading and translation. A negative heading is reported with the wrong sign.", "quantifier": "all point lists", "why_tests_cant": "Continuum.", "anchors": ["src/utility/math_helper.cpp: average_vectors, kabsch_2d, affine_angle, mean_standard_deviation"]}
{"id": "C41", "title": "Stationary detection state machine", "statement": "Gravity can only be initialised by a zero-acceleration update whose score is below the threshold; once an IMU has detected motion with gravity initialised, zero-acceleration updates of that IMU are never again applied (those of another IMU still may be); after a zero-acceleration update the body acceleration is gravity and the rate is zero. The score weighs the residual with the covariance of the filter when that is what is stored; in square-root form it weighs with the root itself, so that a motion above the threshold can be overlooked and a measurement below it be latched as motion, and the score need not exist although the covariance is positive definite.", "quantifier": "all sequences of IMU measurements, any score function", "why_tests_cant": "All histories.", "anchors": ["src/ekf/update/imu_updater.cpp: UpdateEKF, ZeroAccelerationUpdate"]}
{"id": "C42", "title": "Simulated truth is kinematically consistent", "statement": "For the cyclic truth, velocity is the derivative of position at every time, acceleration is the derivative of velocity and the angular rate is the body rate of the attitude at every time but the instant the motion starts, position is continuous from rest, and the body rests before the stationary time. At that instant the velocity has no derivative. The angular acceleration is not the derivative of the angular rate, and the attitude jumps at the end of the stationary phase when an angle offset is configured.", "quantifier": "all times and parameters", "why_tests_cant": "Derivative identities.", "anchors": ["src/infrastructure/sim/truth_engine_cyclic.cpp"]}
{"id": "C43", "title": "Smoothed truth interpolation stays in range", "statement": "For accepted times before the last sample, truth interpolation reads only existing samples and returns the point on the line between the two neighbouring samples. For accepted times from the last sample on it reads past the end, and every engine accepts such times. Position and angle samples lie on the path through the control points strictly inside the control times and are zero elsewhere, including at the first control point; rate samples are difference quotients.", "quantifier": "all times and sample counts", "why_tests_cant": "Boundary times.", "anchors": ["src/infrastructure/sim/truth_engine_smoother.cpp: GetInterpolatedValue"]}
{"id": "C44", "title": "Message ordering is a strict weak order", "statement": "MessageCompare is irreflexive, transitive, and its incomparability is an equivalence, as std::sort requires, for all (non-NaN) times; messages at equal times are equivalent.", "quantifier": "all messages", "why_tests_cant": "All triples.", "anchors": ["src/sensors/sensor.cpp: MessageCompare"]}
{"id": "C45", "title": "Least-privilege reads", "statement": "Reading the state of a registered sensor does not change the filter; reading the state of an unknown sensor id must not make a later registration fail. The getters insert a default entry for unknown ids, so the later registration is refused.", "quantifier": "all filter states and ids", "why_tests_cant": "Needs the specific order read-then-register.", "anchors": ["src/ekf/ekf.cpp: EKF::GetImuState, GetGpsState, GetCamState, Register*"]}
{"id": "C46", "title": "Track duration is independent of configuration order", "statement": "Setting the maximum track length and registering a camera should commute. They do not: one adds a frame period, the other does not.", "quantifier": "all rates and lengths", "why_tests_cant": "Order dependence.", "anchors": ["src/ekf/ekf.cpp: EKF::RegisterCamera, SetMaxTrackLength"]}
{"id": "C47", "title": "CSV header enumeration", "statement": "EnumerateHeader(name,n) yields exactly n columns named name_0..name_(n-1) in order, VectorToCommaString yields as many columns as entries, QuaternionToCommaString four.", "quantifier": "all names without comma, all sizes", "why_tests_cant": "All sizes.", "anchors": ["src/utility/string_helper.cpp"]}
{"id": "C48", "title": "Camera update with nothing to use applies no correction", "statement": "A feature update without tracks, or whose tracks are all declined by triangulation, has no effect on the filter beyond the prediction to its time stamp (empty clone windows may be created). A camera message without tracks and without visible boards only predicts and clones the body pose. An updater as constructed (using true feature positions) never declines a track.", "quantifier": "all filter states", "why_tests_cant": "All states.", "anchors": ["src/ekf/update/msckf_updater.cpp: UpdateEKF", "src/trackers/sim/sim_fiducial_tracker.cpp: Callback"]}
{"id": "C49", "title": "Process noise follows the configuration", "statement": "After any registration the process noise is diagonal with each quantity's own configured noise/stability value at its own index (its square root in square-root form) and zero on clones; it stays so until the body noise is set again. Before the first registration, camera frame or refresh (in filters that do not clone by time) it is zero, so until then the configured body noise has no influence on any estimate or covariance.", "quantifier": "all filter states", "why_tests_cant": "All sensor mixes.", "anchors": ["src/ekf/ekf.cpp: EKF::RefreshIndices, SetBodyProcessNoise"]}
{"id": "C50", "title": "Sensor callbacks end with consistent bookkeeping", "statement": "Every IMU, GPS, camera and fiducial callback on a registered sensor brings the filter to the measurement's local time (unless it is in the past), and the resulting filter satisfies the dimension and partition properties.", "quantifier": "all histories of callbacks", "why_tests_cant": "All interleavings.", "anchors": ["src/sensors/imu.cpp: Callback", "src/sensors/gps.cpp: Callback", "src/sensors/sim/sim_camera.cpp: Callback"]}
{"id": "C51", "title": "Simulated feature tracks carry the position of the feature they observed", "statement": "Over any history of simulated frames, the true position handed over with a track is the position of one feature of the simulated world, and every point of the track is the projection of that position in the frame and at the time the point names (rounded to pixels unless errors are disabled), the position being visible in that frame.", "quantifier": "all worlds of features, all sequences of frames and views", "why_tests_cant": "All visibility histories; features are added to the world while the simulation runs.", "anchors": ["src/trackers/sim/sim_feature_tracker.cpp: GenerateMessage, GetVisibleKeypoints, FilterInvisiblePoints", "src/infrastructure/sim/truth_engine.cpp: GetFeature, GenerateVisibleFeatures"]}
{"id": "C52", "title": "Spline truth is kinematically consistent in translation only", "statement": "Wherever the fitted curve reports its own derivatives, the spline truth's velocity and acceleration are the time derivatives of its position and velocity, but the reported angular rate is the rate of the Euler angles, which is not the angular rate with which the reported attitude turns. With a positive stationary time, accepted times evaluate the curve beyond its end.", "quantifier": "all curves, times and durations", "why_tests_cant": "Derivative identities; parameter ranges.", "anchors": ["src/infrastructure/sim/truth_engine_spline.cpp"]}
{"id": "C53", "title": "Exact measurements leave a correct filter alone", "statement": "A program whose sensors, boards and starting pose are configured as they truly are (without biases), for a body that rests: no sequence of error-free simulated IMU, GPS, board and feature measurements, whatever its order, changes any estimate of the body or a sensor, and everything the filter holds stays true. For a moving body an error-free GPS fix or board detection changes nothing in a filter whose prediction is right. The only IMU of a moving body sets the body's acceleration and rate to the true ones plus the lever-arm acceleration minus the rotated configured biases, because the code ignores the lever arm and error-free measurements contain no bias.", "quantifier": "all truth engines at rest, all sets of sensors, all message sequences", "why_tests_cant": "All orders and numbers of messages; exact equality of estimates.", "anchors": ["src/sensors/sim/sim_imu.cpp: GenerateMessages", "src/sensors/sim/sim_gps.cpp: GenerateMessages", "src/trackers/sim/sim_fiducial_tracker.cpp: GenerateMessage", "src/trackers/sim/sim_feature_tracker.cpp: GenerateMessage", "src/ekf/update/imu_updater.cpp: UpdateEKF", "src/ekf/update/gps_updater.cpp: UpdateEKF", "src/ekf/update/fiducial_updater.cpp: UpdateEKF", "src/ekf/update/msckf_updater.cpp: UpdateEKF"]}
{"id": "C54", "title": "The ROS node is the configured program, except where it reads memory nobody wrote", "statement": "A node that starts is the filter with the configured parameters and the configured sensors, built in the order IMUs, cameras, GPS receivers, with one subscription per sensor on the configured topic; from then on each message is processed exactly as a measurement of the sensor whose subscription it arrived at, stamped with its header time, and header times compare as stamps do. With a usable configuration and usable messages everything proved about histories of the filter holds of the node. What the configuration does not reach: the initial pose has no effect; the window of clones keeps length 20 whatever track length is configured; GPS antennas are never calibrated, and trackers and boards never calibrate their camera; the rate configured for the orientation becomes the process noise of the acceleration, while orientation, angular rate and angular acceleration get what the memory held; the covariance a fix is weighted with is also unwritten memory, so neither the configuration nor a fix determines the result. With assertions compiled in, only sensors with variances of three numbers load: no calibrated IMU or camera and no board.", "quantifier": "all configurations, all contents of uninitialised memory, all message sequences", "why_tests_cant": "Uninitialised memory is usually zero in tests; all configurations and message sequences.", "anchors": ["src/application/ros/node/ekf_cal_node.cpp: Initialize, DeclareSensors, LoadSensors, Get*Parameters, LoadImu, LoadCamera, LoadGps, ImuCallback, CameraCallback, GpsCallback, LoadProcessNoise", "src/sensors/ros/ros_imu_message.cpp", "src/sensors/ros/ros_gps_message.cpp", "src/utility/ros_helper.cpp", "src/utility/type_helper.cpp: StdToEigVec"]}
{"id": "C55", "title": "Self-alignment of the GPS reference", "statement": "With fixes that agree exactly with the positions the filter had (up to a turn about the vertical and an offset): the error-threshold mode never initialises, whatever the thresholds and however many fixes; a filter in that mode that stands at its origin reads an unset variable at the fourth identical fix; the baseline mode initialises once two fixes are further apart on the ground than the baseline by 2*sqrt(2) m and does not while all are closer than the baseline by sqrt(2) m (distances are measured between whole metres). The reference it then sets is the point at minus the offset in the frame of the fixes, and the heading is the size of the yaw. If the offset is vertical and the yaw not negative, every fix is placed where the filter was when it came in; in general the reference is not the local origin of the fit, and fixes are placed elsewhere.", "quantifier": "all filters, fixes, offsets, yaws, hull and decomposition algorithms", "why_tests_cant": "Exact agreement never occurs in noisy tests; the misplacement disappears when the offset happens to be small.", "anchors": ["src/ekf/ekf.cpp: AttemptGpsInitialization", "src/utility/math_helper.cpp: kabsch_2d, maximum_distance", "src/utility/gps_helper.cpp: ecef_to_enu, enu_to_ecef, enu_to_local"]}
{"id": "C56", "title": "Geodetic coordinates of Earth-centred points", "statement": "For every point at least 50 km from the centre of the Earth, ecef_to_lla is defined (no root of a negative number, no division by zero), its Newton correction is zero, and it returns latitude, longitude and height in range that name exactly this point on the ellipsoid with eccentricity g_wgs84_e; off the poles and above -6000 km it returns the coordinates a point was named by. lla_to_ecef uses the flattening g_wgs84_f, which does not quite agree with g_wgs84_e: converting back moves the point by at most one picometre, and leaves it in place only in the plane of the equator. With the eccentricity sqrt((2-f)f) the two functions are inverse to each other. At the centre of the Earth a root of a negative number is taken.", "quantifier": "all points, all coordinates", "why_tests_cant": "Tests compare a handful of places to a tolerance; case distinctions (hemispheres, poles, sign of the height, near the axis) are open sets tests sample sparsely.", "anchors": ["src/utility/gps_helper.cpp: ecef_to_lla, lla_to_ecef"]}
{"id": "C57", "title": "Triangulation of feature tracks", "statement": "If two viewing rays of a track are not parallel, MsckfUpdater::TriangulateFeature (with true positions switched off) finds the one point with the least sum of squared distances from the viewing rays of all observations, whatever the pixels; it returns false exactly when the depth of that point in the first camera is outside the configured range; pixels that are the pinhole images of one point give exactly that point. With parallel rays no point is nearest. The updater as constructed returns the true position stored in the track instead, independently of pixels, clones and range. In no case is the filter changed.", "quantifier": "all tracks of any length, clones, mountings, intrinsics, all solvers that solve positive definite systems", "why_tests_cant": "The triangulation path is switched off by a hard-coded flag, so no test of the program executes its result; optimality over all points cannot be sampled.", "anchors": ["src/ekf/update/msckf_updater.cpp: MsckfUpdater::TriangulateFeature"]}
{"id": "C58", "title": "The simulation program from configuration to last callback", "statement": "Every sound configuration is set up without undefined behaviour, and without GPS and feature tracking the whole program runs to its end; when every camera measures at increasing times, each track handed to the filter names only frames whose clone the filter holds at that moment; a configuration without errors for a body at rest leaves the filter, started at the true pose, with exactly the truth, only clones having changed; without feature trackers no pose is ever cloned, whatever augmentation is configured; with trackers all of maximum length 0, no board and per-frame cloning the first camera message is undefined behaviour; body_truth.csv has floor((max_time + 1) * rate) rows, each with its time, the true motion at that time and the true calibration of every configured sensor in order.", "quantifier": "all configurations, all random draws, all sort orders of simultaneous messages, all runs", "why_tests_cant": "The program is only run as a whole with a few configuration files and fixed seeds, and its result is not checked.", "anchors": ["src/application/sim/simulation.cpp: main", "src/infrastructure/sim/truth_engine.cpp: WriteTruthData", "src/sensors/sim/*.cpp", "src/trackers/sim/*.cpp"]}
{"id": "C59", "title": "Late measurements", "statement": "A measurement stamped before the time of the filter neither moves the filter nor is ignored: it is applied to the present state. How late it is makes no difference to any part of the program (except the stamp kept with a fix collected for GPS alignment). With the only IMU of a moving body an old measurement replaces the newer acceleration and rates.", "quantifier": "all program states, all measurements, images and pairs of late stamps", "why_tests_cant": "Tests deliver measurements in order; equality of complete program states for all stamps is not observable by samples.", "anchors": ["src/ekf/ekf.cpp: PredictModel, CalculateLocalTime", "src/ekf/update/*.cpp: UpdateEKF", "src/sensors/camera.cpp: Camera::Callback", "src/sensors/sim/sim_camera.cpp: SimCamera::Callback"]}
{"id": "C60", "title": "The configuration file of the simulation", "statement": "If the file can be read, every setting of the filter, the simulated motion and the listed sensors is what the file says under its own path, or the documented default of the code; exactly the listed sensors are built, in order. Nothing else in the file matters: files that agree under the known keys read alike, so documented keys that are not among them have no effect. A sensor under calibration, and any board in use, needs its own sufficiently long list of variances and a build without assertions (the defaults are too short); names used must be listed, rates must not be 0. The example file of the repository sets up in a release build and aborts in a build with assertions. The ROS node makes the same filter from the same file if the cloning settings are in it, otherwise it may not.", "quantifier": "all files (trees of nodes), all random draws, both kinds of build", "why_tests_cant": "Tests read one or two well-formed files; that no other key matters and that every path reaches exactly its own setting are statements about all files.", "anchors": ["src/application/sim/simulation.cpp: LoadNodeList, LoadImuParameters, LoadProcessNoise, main", "src/utility/type_helper.cpp: StdToEigVec, StdToEigQuat", "config/example.yaml", "docs/parameters.md", "src/application/ros/node/ekf_cal_node.cpp: Initialize"]}
{"id": "C61", "title": "What a measurement does to the estimates", "statement": "Every successful measurement of a fix, an IMU or a board moves the estimates by the Kalman gain for the measurement's Jacobian and noise times a residual, and this is the best compromise, in the least-squares sense, between agreeing with the measurement and staying; to first order the estimates never agree less with the measurement afterwards, and two measurements carrying the same information have the same effect. The residual is: for a fix, the placed fix less the expected antenna; for the fix completing the self-alignment, all placed fixes less where the body was then; for one of several IMUs, its readings less the expected ones; for an IMU taken to be at rest, what it lacks to the readings of a body at rest; for a board, measured less expected position, and expected relative to measured orientation. With a single IMU there is no update, its readings become the rates. The orientation residual of a board has the opposite sense of its Jacobian: a board seen in its place but turned can push the expected orientation further off.", "quantifier": "all reachable filters of both forms, all sensors, measurements and noises", "why_tests_cant": "Tests check a handful of numeric updates; optimality, and which quantity is compared with which, are statements about all states and measurements.", "anchors": ["src/ekf/update/updater.cpp: KalmanUpdate", "src/ekf/update/gps_updater.cpp: UpdateEKF, MultiUpdateEKF", "src/ekf/update/imu_updater.cpp: UpdateEKF, ZeroAccelerationUpdate", "src/ekf/update/fiducial_updater.cpp: UpdateEKF, GetMeasurementJacobian"]}
{"id": "C62", "title": "The covariance is the covariance of the errors", "statement": "In covariance form, after every history of calls respecting the contract, every entry of the covariance matrix is the covariance of the errors of the two quantities whose indices it has, and the errors have mean 0, provided the errors behave as the filter assumes: they start independent with variance 1/100, new sensors come with independent errors of the covariance given at registration, time adds independent disturbances at the rates in force and carries velocity errors into positions, a clone repeats the errors of the body, and readings are linear with independent noise of the covariance handed over. Hence an error exceeds k times its reported standard deviation with chance at most 1/k². Such errors exist for every history. If a reading's noise is not what the filter is told, the reported covariance is off by exactly the misjudgement seen through the gain: too cautious if told too much, too confident if told too little.", "quantifier": "all histories respecting the contract in covariance form, all clone types, all finite probability laws and error processes on them, all noises", "why_tests_cant": "A test compares a few numbers with a simulated run; that the matrix is the covariance of the errors is a statement about all outcomes at once and needs the whole history.", "anchors": ["src/ekf/ekf.cpp: PredictModel, AugmentCovariance, AddProcessNoise, RegisterIMU, RegisterGPS, RegisterCamera, RegisterFiducial", "src/ekf/update/updater.cpp: KalmanUpdate"]}
{"id": "C63", "title": "The noise the simulation adds and the noise the filter is told", "statement": "In a simulated run with random draws of the requested means and standard deviations, independent per coordinate: IMU readings scatter around the exact readings plus true biases with exactly the covariances in the message; a fix placed back in the local frame scatters around the antenna with exactly the covariance in the message; a detected board's position scatters with the squares of the configured errors. But the update for a board uses these errors themselves as variances: right only for errors 0 and 1, too cautious below, too confident above. Random turns are capped at a right angle from above only, so they are biased as soon as the cap can be reached. The initial position scatters with the configured errors while the initial covariance is always 1/100: right only for errors of 1/10. Pixels of simulated tracks are rounded and nothing else: the squared error never exceeds the variance the filter assumes, whatever pixel error is configured.", "quantifier": "all truths, sensors, times, configured errors and finite probability laws of the draws; all tracker runs", "why_tests_cant": "Tests draw from a fixed seed and compare loosely; that the announced noise is the real one is a statement about the law of the draws.", "anchors": ["src/sensors/sim/sim_imu.cpp", "src/sensors/sim/sim_gps.cpp", "src/trackers/sim/sim_fiducial_tracker.cpp", "src/trackers/sim/sim_feature_tracker.cpp", "src/utility/sim/sim_rng.cpp: VecNormRand, QuatNormRand", "src/ekf/update/fiducial_updater.cpp: UpdateEKF", "src/ekf/ekf.cpp: EKF"]}
{"id": "C64", "title": "What feature tracks do to the estimates, and the noise they are taken to have", "statement": "Handing feature tracks to the multi-state update predicts the filter to the measurement time and then either leaves the estimates alone or makes one Kalman correction, whose residual is never longer than the reprojection errors (in a picture at distance 1) of all tracks used: removing the feature position and compressing the rows only rotate and project. Tracks of two or more observations whose feature is known and level with none of its cameras are handled without undefined behaviour. If the observed pixels vary independently with standard deviation s, through a lens without distortion whose pixels are at most g wide at distance 1, then the residual varies in every direction with standard deviation at most s*g, whereas the update takes it to vary by the configured pixel error (at least 1/2): the configured error is in pixels, the residual is not. With a focal length of 10 mm and 5 micrometre pixels a blur of one pixel is taken for four million times its variance.", "quantifier": "all reachable filters, cameras, track sets, pixel errors, solvers of the triangulation, and finite laws of the pixels", "why_tests_cant": "Tests run one update on a few tracks and look at the outcome; they do not compare the noise that is assumed with the noise that reaches the residual, and cannot cover all track sets.", "anchors": ["src/ekf/update/msckf_updater.cpp: UpdateEKF, TriangulateFeature", "src/utility/math_helper.cpp: ApplyLeftNullspace, CompressMeasurements"]}
{"id": "C65", "title": "The origins of space and of time do not matter", "statement": "Give a program that calls the filter, makes sensors and passes messages the same data with every position in the local frame (body, boards, true features) v further, every time on the filter's clock c later and every time stamp c + d later. Then it behaves the same: every estimate of a position is v further, every time c later, and velocities, orientations, calibrations, covariance, process noise, ids and undefined behaviour are the same. This holds when the clock has been set (or c = 0), when no GPS fix is used (or v = 0), and when every frame looked up is in the window of clones (which holds for the last max_track_length frames of a camera if every frame is cloned). In particular, without a call of Initialize the date of a recording has no effect on estimates, covariance and clock, GPS and cameras included. A frame that is not in the window is taken to have been seen from the origin, so there the result does depend on where the origin is.", "quantifier": "all filters, parameters, calls, sensors, messages, shifts v, c, d, and all behaviours of the outside functions (SVD, hull, geodesy, quaternion of a matrix, triangulation solver)", "why_tests_cant": "An equality of two executions of arbitrary length for all shifts; a test compares two runs of one data set with one shift.", "anchors": ["src/ekf/ekf.cpp: PredictModel, CalculateLocalTime, AugmentStateIfNeeded, GetAugState, Initialize", "src/ekf/update/imu_updater.cpp", "src/ekf/update/gps_updater.cpp", "src/ekf/update/fiducial_updater.cpp", "src/ekf/update/msckf_updater.cpp"]}
{"id": "C66", "title": "Times in double precision", "statement": "With times computed as binary64 doubles: the double made of a ROS time stamp is at most 0.12 microseconds off, keeps the order of stamps and tells stamps apart that differ by more than 240 ns; but it does not tell all stamps apart (two stamps 100 ns apart give the same double). From then on nothing is lost: after every program of messages, images and calls whose stamps lie between 2004 and 2038, the local time of the next message and the length of the prediction step to it are computed without any rounding, so local times are at most 0.24 microseconds off however long the program runs. Times of simulated measurements never decrease, and rounding adds at most one measurement, which does happen (0.7 s at 10 per second).", "quantifier": "all stamps, all programs with dated messages, all rates and durations (product below 2^52)", "why_tests_cant": "Rounding errors depend on the value; a test sees a few stamps. That the error does not accumulate is a statement about executions of any length.", "anchors": ["src/ekf/ekf.cpp: CalculateLocalTime, PredictModel", "src/utility/ros_helper.cpp: RosHeaderToTime", "src/sensors/sim/sim_sensor.cpp: GenerateMeasurementTimes"]}
{"id": "C67", "title": "Blind measurements never make the filter surer of the common position", "statement": "The position of the body and of all its clones, moved together, is what measurements relative to the body cannot notice. Over every history of registrations, predictions, clones, pruning, settings and measurements whose Jacobians vanish on such a common move, starting from construction in covariance form: for every linear combination x of the estimates, the variance the filter claims for x is at least 1/100 (the constructor's variance) times the squared length of the response of x to the three common moves. In particular no variance of a position component of the body or of a clone falls below 1/100. This covers every program whose sensors are IMUs, GPS receivers without a fix and cameras that see neither features nor boards. The rows the MSCKF updater computes for a feature react to a common move as to the opposite move of the feature, so any combination of them in which the position of the feature cancels is blind; but the projection the code applies takes rows of Q instead of columns, and one feature seen from two places brings the variance of the body position below 1/100.", "quantifier": "for all histories of operations of any length, all parameters and arguments within their contracts, all measurements with blind Jacobians", "why_tests_cant": "Spurious information along an unobservable direction accumulates slowly and depends on all correlations; a test sees one trajectory and one covariance.", "anchors": ["src/ekf/ekf.cpp: EKF, PredictModel, RegisterIMU, RegisterGPS, RegisterCamera, RegisterFiducial, AugmentCovariance, AugmentStateIfNeeded", "src/ekf/update/updater.cpp: KalmanUpdate", "src/ekf/update/imu_updater.cpp: UpdateEKF, ZeroAccelerationUpdate", "src/ekf/update/msckf_updater.cpp: UpdateEKF", "src/utility/math_helper.cpp: ApplyLeftNullspace"]}
{"id": "C68", "title": "Clones are taken exactly when they are due", "statement": "With time or error based augmentation, AugmentStateIfNeeded (run after every prediction) appends one clone of the current body pose exactly if a camera frame was announced since the last clone (or none was taken yet) and a clone is due: the window is empty; or (TIME) more than the configured period passed since the newest clone; or (ERROR) the newest clone is older than the track duration, or older than the least spacing and the body left the uniform motion that leads back to that clone by more than the configured position or angle error. Taking a clone uses the announcement up, otherwise it is kept. The remembered time is always that of the newest clone. Over whole histories, neighbouring clones in TIME mode are more than the period apart, and there are at most one more clones than announced frames; the one taken before any frame exists. In the other modes predictions never take a clone.", "quantifier": "for every filter object reachable by API calls, every history of calls, all settings", "why_tests_cant": "tests set one augmentation mode and never check when clones appear; the clauses depend on real-valued comparisons over unbounded histories", "anchors": ["src/ekf/ekf.cpp:436-524 (AugmentStateIfNeeded)", "src/ekf/ekf.cpp:526-567 (AugmentStateFrame)", "src/ekf/ekf.hpp:448"]}
{"id": "C69", "title": "With first estimates an updater keeps the sensor pose it was first used with", "statement": "With use_first_estimate_jacobian set: once a GPS receiver, a feature tracker or a board was used, the pose of the sensor (and of the board) held by its updater is the same in every later state of the program, whatever messages, images, new sensors or configuration calls follow. The first fix takes the lever arm from the filter's estimate at that time and marks the updater as used; in the same way the first picture of a board takes the poses of camera and board, and the first non-empty list of tracks takes the lens and pose of the camera. Every fix is compared with body position + rotated kept lever arm (not with the estimated one), and the estimates move by a Kalman gain times that difference. Consequence proved as such: when the estimated lever arm differs from the kept one and the covariance is positive definite, a fix that agrees exactly with the estimates still moves them.", "quantifier": "for every program state and every sequence of events; every reachable filter, updater, fix and noise; for the last sentence every positive definite covariance and unit body orientation", "why_tests_cant": "tests run with one setting and a handful of messages; that nothing later refreshes the kept pose is a statement about unbounded histories", "anchors": ["src/ekf/update/gps_updater.cpp:59-95", "src/ekf/update/gps_updater.hpp:87", "src/ekf/update/fiducial_updater.cpp:65-90 (RefreshStates)", "src/ekf/update/msckf_updater.cpp:262-275 (RefreshStates)", "src/ekf/ekf.cpp:860-863"]}
{"id": "C70", "title": "Constructing a sensor enters exactly its configuration", "statement": "Constructing an IMU, GPS or camera gives it an id no other sensor has, leaves all other sensors alone, and registers a state with exactly the configured pose, biases, stabilities, intrinsics, rate and calibration flags. The filter gains exactly the scalars the flags ask for, uncorrelated with each other and with everything known before, with the configured variances (at least 1e-6 for IMUs and cameras; in square-root form the numbers are taken as deviations); all other estimates and covariances are unchanged. The variance of IMU scalar k is configuration entry k of the list pose, biases if both are calibrated or only the pose is; if only the biases are calibrated it is entry k as well, so the configured bias variances have no effect. Constructing a board tracker with a board number above all known ones (no clones yet) registers the configured board pose and the configured variances (without lower bound) in the same way; with a board number that is known, nothing is registered and the filter is unchanged.", "quantifier": "for every program state (constructor, any history of events), every parameter set with non-negative stabilities and long enough variance vector", "why_tests_cant": "constructor tests build one sensor with defaults; the frame condition ranges over all program states", "anchors": ["src/sensors/imu.cpp:30-57", "src/sensors/gps.cpp:29-47", "src/sensors/camera.cpp:37-56", "src/ekf/ekf.cpp:221-355"]}
{"id": "C71", "title": "Exact feature tracks change nothing, unless the lens distorts", "statement": "When every observation of the tracks given to the MSCKF update is exactly the pixel at which the camera (at the pose the updater uses, on the body at the clone's pose) sees the feature position the updater uses, and the lens has no distortion, the update leaves the estimates exactly as predicted, for a moving body, any clones, any number of tracks. With a distorting lens (pixels as cv::projectPoints makes them with the distortion vector of the intrinsics, as the simulator does) the residual of an exact observation is the displacement of the lens at that point, because the update never undistorts: for a lens with positive k1, k2 >= 0 and no tangential part the residual of a feature (before its own position is projected out) is zero only when the feature is in the exact middle of every picture.", "quantifier": "for every reachable filter, time, updater, lens, tracks and pixel error; every number of observations", "why_tests_cant": "tests use one lens without distortion; whether exact pictures have zero residual depends on all clones, poses and lenses", "anchors": ["src/ekf/update/msckf_updater.cpp:249-423", "src/ekf/types.cpp:526-548", "src/trackers/sim/sim_feature_tracker.cpp:60-95"]}
