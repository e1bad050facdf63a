# Formal model of ekf_cal in Rocq (Coq 8.16.1)

Source under verification: `/repo` (unmannedlab/ekf_cal, C++), read as text only.
This file says what is modelled, how each property of `properties.jsonl` is stated and proved, what is trusted, and what was found.

## 1. Layout of `/verif/rocq/theories`

| directory | contents |
|---|---|
| `Base/` | outcomes with undefined behaviour (`Res`), matrices as dimensions + entry function (`Mat`), sorted association lists (`AMap`), sums, linear algebra, inverse, quaternions over R |
| `Model/` | the code, function by function, each definition citing file and lines; no proofs |
| `Spec/` | small independent vocabulary used to state the properties (no proofs, no code paths of the model) |
| `Proofs/` | lemmas |
| `Properties/` | one file per property `C01` … : statement, `exact lemma`, `Print Assumptions`, non-vacuity `Example`s |

To read a property: the English in `properties.jsonl`, the statement in `Properties/Cxx.v`, the words it uses in `Spec/`.

## 2. Modelling decisions

* **Numbers.** `double` and `float` are idealised as the real numbers `R` of the standard library; rounding, overflow and NaN propagation are outside the model (an operation that would produce a NaN, 0/0 or `acos` outside [-1, 1], is undefined). `unsigned int` is `nat` (no wrap-around at 2^32); unsigned subtraction that would wrap is undefined behaviour. The path of times (time stamp, local time, step length, simulated measurement times) is also modelled as binary64 doubles rounded to nearest even, `Model/DoubleTime.v`, with the `Core` of Flocq, which adds no axiom (C66).
* **Undefined behaviour** is a distinct outcome: `res A := OK a | UB`. Out-of-range Eigen blocks, mismatching Eigen shapes, `back()`/`[0]` on empty vectors, reading an uninitialised member, null dereference and 0/0 all give `UB`. Properties say when `UB` is impossible.
* **`std::map<unsigned, X>`** is an association list sorted by key, because iteration order matters; `operator[]` on an absent key inserts a default, as in C++.
* **Eigen matrices** are records (rows, columns, entry function); equality of matrices is extensional inside the dimensions (`meq`).
* **Linear algebra.** Matrix inverse (`Base/Inverse.v`, `finv`) and Householder QR (`Model/QR.v`, `hqt`, `QR_r`) are concrete functions, proved to return the inverse of an invertible matrix and an orthogonal triangularisation; no contract is assumed about them.
* **Parameters.** Some external functions are universally quantified in the statements that use them: `svd` (Eigen `JacobiSVD`, contract `svd_of`, met by the concrete `svd2`), `hull` (`cv::convexHull`), `ecef_to_lla` (modelled in `Geodetic`, but a parameter of the filter, with the contract of being right where it is used; C56 says how nearly the code meets it), `mat_quat` (rotation matrix to quaternion; contract `reads_rotations`, met by the concrete `eigen_mat_quat`), `solve` (`colPivHouseholderQr().solve` on 3×3 systems), the spline fit, `show` (printing of a double, assumed not to print a comma), random draws, wall-clock durations, and the results of OpenCV detection, matching, projection and pose estimation per frame. Where a contract is needed it is a hypothesis of the theorem and a concrete instance is exhibited.
* **Histories.** The filter is a transition system: `Model/Ops.v` lists every public mutating call (`op`), `run` executes a list of them, `reachable e` says that some list leads to `e`. The whole program (filter, counters, sensors, trackers) is the transition system `wstep` of `Model/Sensors.v` with events `event`.
* **Chance** (C62) is a law with finitely many weighted outcomes (`Spec/Chance.v`); no measure theory. Errors are real variables over it that evolve linearly as the filter assumes.
* **Logging** rows are strings (`Model/LogRows.v`), compared column by column; the loggers are separate state machines (`DataLogger`, `DebugLogger`). Execution timing is omitted.

### What is modelled, file by file

| source (`/repo/src`) | model | left out |
|---|---|---|
| `ekf/ekf.cpp`, `ekf.hpp` | `Ekf`, `GpsUpdater` (alignment), `LogRows` | debug messages, timing |
| `ekf/types.cpp`, `types.hpp` | `Types` | members nobody reads |
| `ekf/update/updater.cpp` | `Updater` | |
| `ekf/update/imu_updater.cpp` | `ImuUpdater`, `LogRows` | `AngularUpdate` (never called) |
| `ekf/update/gps_updater.cpp` | `GpsUpdater`, `LogRows` | |
| `ekf/update/fiducial_updater.cpp` | `FiducialUpdater`, `LogRows` | |
| `ekf/update/msckf_updater.cpp` | `MsckfUpdater`, `LogRows` | |
| `infrastructure/data_logger.cpp` | `DataLogger` | failing file system, 32-bit row counter |
| `infrastructure/debug_logger.cpp`, `sim/sim_debug_logger.cpp` | `DebugLogger` | `ros/ros_debug_logger.cpp` |
| `infrastructure/sim/truth_engine_{cyclic,smoother,spline}.cpp` | `TruthEngine` | Eigen's spline fit |
| `infrastructure/sim/truth_engine.cpp` | `SimSensors` (sensor truth, new features, truth file row), `Trackers` (features), `LogRows` (truth file header) | |
| `sensors/{sensor,imu,gps,camera}.cpp` | `Sensors` | drawing on images |
| `sensors/sim/*.cpp` | `Simulation`, `Sensors` (handling), `SimSensors` (contents of measurements) | the random number generator (draws are arguments) |
| `trackers/{tracker,feature_tracker,fiducial_tracker}.cpp` | `Trackers`, `Sensors` | what OpenCV computes (given per frame) |
| `trackers/sim/*.cpp` | `Trackers`, `Sensors`, `SimSensors` | `cv::projectPoints` beyond the pinhole camera, casts to float |
| `utility/math_helper.cpp` | `MathHelper`, `MathHelperMat`, `QR` | the unused helpers in the header |
| `utility/gps_helper.cpp` | `GpsHelper`, `Geodetic` | |
| `utility/type_helper.cpp`, `string_helper.cpp` | `TypeHelper`, `StringHelper` | |
| `application/sim/simulation.cpp` | `Simulation` (replay), `SimMain` (131-525: the whole of main), `SimConfig` (58-125 and the reading parts of 146-482) | yaml-cpp itself (a file is a tree of nodes whose scalars have readings), topics, log directories and rates of sensors |
| `application/ros/node/ekf_cal_node.cpp`, `application/ros/ekf_cal_main.cpp`, `sensors/ros/*`, `utility/ros_helper.cpp` | `RosNode` | debug output, data log settings, republished images, detector parameters; the rclcpp executor is a list of callbacks |

## 3. Properties

| id | modelled | how |
|---|---|---|
| C01 C02 C04 C09 C21 C22 C45 C46 C49 | `EKF` as a transition system (`Model/Ekf.v`, `Model/Ops.v`) | invariant by induction over operations |
| C03 C05 C07 | every row of the covariance is owned by a named scalar quantity (`Spec/Layout`, `Spec/Named`, `Spec/ByName`) | C05: refinement of whole histories to a filter that has names instead of indices |
| C06 C11 C12 C13 | linear algebra over R, `Updater::KalmanUpdate`, square-root prediction | quadratic forms, algebraic laws, minimisation over all gains |
| C08 C37 C38 C39 C40 | `math_helper.cpp` | entrywise characterisation, invariants of the loops |
| C10 | `PredictModel` | equation against a matrix specification |
| C14 C15 | `types.cpp` | frame conditions over sorted maps, round trips |
| C16 C17 C18 C19 | clone windows and lookup | invariant over histories, case analysis of the lookup |
| C20 | `CalculateLocalTime` | algebraic law over sequences |
| C23 C24 | quaternions, `type_helper.cpp` | real analysis (sin, cos, acos, atan2) |
| C25 | `gps_helper.cpp` | algebra with sin²+cos²=1 |
| C26 C27 C28 C29 C47 | loggers, rows, string helpers | induction over call sequences; rows read back by a CSV reader |
| C30 C31 C32 C44 | sensors, simulator | induction, permutations |
| C33 C34 C35 C51 | trackers | refinement to runs of sightings, induction over frames/lists |
| C36 | Jacobians | derivatives (`derivable_pt_lim`) of the predicted measurements |
| C41 C48 C50 | updaters and callbacks | state machine over measurements |
| C53 | simulated measurements, all updaters | invariant of the whole program: everything held is true; zero residuals give zero corrections |
| C54 | ROS node, parameters, message conversion | simulation: a relation between node and program kept by loading and by every callback; uninitialised memory as an argument; witnesses |
| C55 | `ekf.cpp` AttemptGpsInitialization, `math_helper.cpp` maximum_distance | exact alignment from the Kabsch theorem of C40 composed with the frame lemmas of C25; bound on truncation; witness on the equator |
| C56 | `gps_helper.cpp` ecef_to_lla | Ferrari's solution followed through: resolvent cubic, bounds on its root, uniqueness of the root of the quartic beyond e²/2; polar coordinates |
| C57 | `msckf_updater.cpp` TriangulateFeature | normal equations by induction over the track; the cost is the value at the solution plus a positive definite form |
| C58 | `simulation.cpp` main with the constructors and GenerateMessages of the simulated sensors and trackers | composition of C33, C46, C50, C51, C53: counters, truth entries and tracks followed through the construction by induction over the configured sensors; an invariant of the registered board flags; progress of every callback |
| C60 | `simulation.cpp` reading the file, `type_helper.cpp`, the node's filter parameters | inversion of the reader key by key against a table of paths and defaults; agreement of files under a schema of known keys by induction over paths; the guards of every constructor inverted along the set-up |
| C59 | all callbacks | equality of the program states after two late stamps; the clock followed through every updater |
| C61 | `updater.hpp`, `gps_updater.cpp`, `imu_updater.cpp`, `fiducial_updater.cpp` | the gain equation turned into the normal equation of a least-squares problem (quadratic forms, completing the square); each callback inverted to the residual, Jacobian and noise it hands to `KalmanUpdate`; a filter with one camera and one board computed by hand for the refutation |
| C62 | `ekf.cpp` (covariance side of every call), `updater.hpp` | finite probability laws; bilinearity of covariances carries each step of the index-free filter of C05 (registration, process noise, clone, drop, gain); induction over the history; C05 turns names into indices; existence by factoring every covariance (Schur complements) over independent coins |
| C63 | simulated sensors' messages, `sim_rng.cpp` (how the draws are used), `fiducial_updater.cpp` noise, filter start | draws are universally quantified; a law over them with the right first and second moments (`proper_draws`); means and covariances computed by bilinearity; geodetic frames by C25; rounding by C51 |
| C64 | `msckf_updater.cpp` as a whole | `ApplyLeftNullspace` and `CompressMeasurements` as linear maps that never lengthen a vector (`bessel`, Givens rotations), hence the residual as an affine function of the pixels with a bounded matrix; covariance of the residual by bilinearity; totality from the layout of clones |
| C65 | the whole filter and all updaters (`Model/Ekf.v`, `Ops.v`, updaters, `Sensors.v`) | two-run property: a shift of states, calls, sensors and messages (`Spec/Origin.v`) commutes with every step, by induction over the program; the window of recent frames from C16 |
| C66 | `ros_helper.cpp`, `ekf.cpp` (local time, step length), `sim_sensor.cpp` in binary64 | Flocq error bounds for the stamp; differences of dates are multiples of 2^-22 below 2^31, hence exact; an invariant "the clock is such a multiple" over programs by induction |
| C67 | whole `ekf.cpp` and `KalmanUpdate` through the by-name refinement of C05/C62 | the difference of the covariance and the constant kernel of the common move stays positive semidefinite (a kernel calculus on finite weighted lists); induction over the history. `C67_imus_only` puts the IMU updaters and the whole sensor machinery on top. `C67_before_projection` and `C67_projected_blind` are about the rows of `msckf_updater.cpp` before `ApplyLeftNullspace`; `C67_tracks_refuted` runs the whole updater on one feature, with an exact rational QR decomposition |
| C68 | `AugmentStateIfNeeded`, `AugmentStateFrame`, all calls of the filter | `Spec/Due.v` says when a clone is due from the newest clone alone; the code uses a remembered time instead, so the invariant `C68_last_time` is proved first by induction over histories; spacing and counting are further inductions over one lemma about what each call does to window, flag and remembered time |
| C69 | `gps_GetMeasurementJacobian`, `gps_PredictMeasurement`, `gps_UpdateEKF`, `MultiUpdateEKF`, `fid_RefreshStates`, `msckf_UpdateEKF`, both camera callbacks, all events of a program | `frozen` in `Spec/FirstUse.v`; induction over events for `C69_kept`; the callbacks are unfolded once for `C69_fix`, `C69_board` and `C69_tracker`; `C69_exact_moves` uses that a Kalman gain with positive definite covariance annihilates no residual if the Jacobian has full row rank (it has the identity in the position columns) |
| C70 | `imu_new`, `gps_new`, `camera_new`, `fid_new` and the registrations they call, in any program state | `Spec/Build.v` gives the scalars and spreads of each configuration; the invariants of programs (ids below the counter) make the registration fresh, C03 gives the covariance, the frame lemmas of registration the rest |
| C71 | `msckf_UpdateEKF`, `track_rows`, `feature_rows`, `TriangulateFeature` | `exactly_seen`, `bent` in `Spec/Lens.v` (the documented four-coefficient formula of `cv::projectPoints`); `C71_exact` from the bound of `C64_towards`: no reprojection error, no residual, no correction; `C71_residual` by induction over the observations; `C71_stretched` from it. Not shown: that a given track moves the estimates, since part of the displacement may be explained by the feature position |
| C42 C43 C52 | truth engines | derivatives, index bounds |

Every property in the list can be expressed in the model. Where the code does not do what a user would expect, the property says what it does instead, and a `…_refuted` theorem (`exists …`) gives a concrete witness next to the strongest positive statement; these are the findings of section 5.

## 4. Trusted base

* The Coq 8.16.1 kernel (and `coqchk`).
* The axioms reported by `Print Assumptions` under each property theorem. All are axioms of Coq's standard library; section 6 lists them per theorem with these letters:
  * `N`: `ClassicalDedekindReals.sig_not_dec`
  * `D`: `ClassicalDedekindReals.sig_forall_dec`
  * `E`: `FunctionalExtensionality.functional_extensionality_dep`
  * `C`: `Classical_Prop.classic`
  * `-`: closed under the global context.
* That the definitions in `Model/` transcribe the cited source lines (checked by reading, and by seeding edits: `seeded/LOG.jsonl`), together with the idealisations of section 2.

## 5. Findings

Each line is a behaviour of the code, proved about the model by the theorem named.

Filter
1. Sensors registered in decreasing id order, or a calibrated fiducial board registered after clones exist, scramble the correspondence between rows of the covariance and states (`C03_out_of_order_refuted`, `C03_fiducial_after_clone_refuted`).
2. In square-root form, registration inserts the supplied covariance itself, not its root (`C03_root_block_refuted`, `C05_root_refuted`).
3. In square-root form, prediction adds the noise after the transition and treats the cross terms wrongly (`C11_noise_refuted`, `C11_cross_term_refuted`); the update takes the elementwise root of the measurement noise, wrong for correlated noise (`C13_correlated_noise_refuted`).
3a. In square-root form, dropping the oldest clone removes rows of the factor as well as columns; what those rows carried is lost. The body and the sensors do not suffer, the clones of another camera do (`C07_frame_clone_full_root`, `C07_full_root_refuted`).
4. `State::GetStateSize` counts cameras instead of clones, so `ToVector` overruns with several clones (`C15_clones_refuted`); `ToVector` skips an IMU that is calibrated intrinsically only (`C14_bias_only_refuted`, `C15_bias_only_refuted`); adding a vector to a map of cameras uses the first six entries for all (`C14_camera_map_refuted`).
5. The first conversion of a sensor time resets the clock to zero (`C09_first_local_time_refuted`).
6. Clone lookup by time divides zero by zero when the newest clone is as new as the filter, which is what a second camera meets at the time of a primary frame (`C18_fresh_clone`, `C18_second_camera`, `C18_at_now_refuted`); on an empty window it is undefined (`C18_empty`); a frame that is not in the window gives index 0, the body's own rows (`C19_missing`).
7. Reading the state of an unknown sensor inserts a default entry, after which its registration is ignored (`C45`).
8. `SetMaxTrackLength` and camera registration do not commute (`C46`).
9. Process noise is zero until the first registration (`C49`).

Updaters
10. Compression truncates by counting non-zero rows rather than keeping them (`C38_compression_refuted`); the nullspace projection uses rows of Q where columns are needed (`C39_projection_refuted`), and a track of one observation is undefined.
11. The distortion model uses k1 twice, so its Jacobian is not its derivative (`C36_distortion_refuted`); orientation columns are derivatives with respect to the rotation vector, while corrections are applied on the right (`C36_gps_correction_refuted`); the columns of a calibrated board are the identity instead of the rotation to the camera (`C36_board_refuted`). The inertial Jacobian turns the acceleration by the body attitude although the prediction does not, and leaves out the velocity and the attitude (`C36_imu_attitude_refuted`, `C36_imu_velocity_refuted`, `C36_gyroscope_refuted`). The stationary Jacobian puts the orientation columns of a calibrated sensor on its position and forgets to turn the body's turn into the sensor frame (`C36_stationary_position_refuted`, `C36_stationary_mounted_refuted`). The orientation rows of a fiducial board are wrong in every state for some turn of the body, of the camera and of the board (`C36_board_turn`, `C36_board_turn_never`, `C36_board_body_refuted`); for a level body and board they have the wrong sign (`C36_board_opposite`).
12. The motion latch is per IMU (`C41_other_imu_refuted`).
13. The MSCKF updater reads the true feature position, which the image tracker never assigns (`C48_never_declines` and the neighbouring cases).
14. The recovered GPS heading loses its sign (`C40_heading`).
14. (continued) A measurement older than the filter is applied to the present state: with one IMU it replaces newer rates (`C59_overwrites`, `C59_ignored_refuted`).
14a. The only IMU of a moving body: its lever arm is taken for acceleration of the body, and configured biases are subtracted from error-free measurements that do not contain them (`C53_imu`, `C53_lever_refuted`, `C53_bias_refuted`).
14c. GPS self-alignment (C55): exactly fitting fixes never pass the error thresholds because a deviation of 0 is rejected (`C55_threshold_never`); standing at the origin reads an unset variable (`C55_standing`); the reference is set at minus the offset without turning it back, so fixes are misplaced (`C55_reference`, `C55_misplaced_refuted`); the baseline is measured between coordinates cut to whole metres (`C55_extent`).
14d. `g_wgs84_e` and `g_wgs84_f` describe slightly different ellipsoids, so `lla_to_ecef` and `ecef_to_lla` are inverse only in the plane of the equator; elsewhere a round trip is off by less than a picometre (`C56_roundtrip`, `C56_inverse_refuted`). `ecef_to_lla` is undefined at the centre of the Earth (`C56_centre`).
14e. `simulation.cpp`: an unknown `truth_type` leaves a null pointer that is dereferenced; a camera naming a tracker or board that is not listed gets parameters without filter and loggers (null pointers); without trackers and boards `SetMaxTrackLength(0)` is called (harmless, nothing is cloned then: `C58_never_cloned`). `sound_cfg` (C58) excludes these; they are undefined in the model (`truth_of`, `chosen`). A tracker of length 0 makes the first camera message take the last element of an empty vector (`C16_zero_length`, `C58_zero_length`).
14f. Lowering `SetMaxTrackLength` on a running filter does not shrink a window that is already larger: its size stays for ever (`C16_lowered`).
14g. Residuals (C61): the orientation residual of a board is expected·measured⁻¹ while its Jacobian is that of measured relative to expected, so a turned board pushes the attitude the wrong way (`C61_board_refuted`); the stack of fixes after the self-alignment is compared with the body position although its Jacobian is that of the antenna, and uses identity noise instead of the noise of the fixes (`C61_survey`); the stationary update takes its residual before and its Jacobian after the prediction (`C61_stationary`); with several IMUs the body acceleration is not turned into the body frame in the expected reading, and 2ω×v is added (`C61_imu`).
14h. Noise (C63): the configured errors of a board are standard deviations in the simulation and variances in the update (`C63_board_told`, `C63_board_right`, `C63_board_refuted`); `QuatNormRand` caps each random angle at π/2 but not at −π/2, so large errors are biased (`C63_turns`); the initial covariance does not depend on the configured initial errors (`C63_start`); the pixel error of a camera is never applied to simulated keypoints (`C63_pixels`). Read only, not proved: the error of the reference longitude is turned into degrees without the cosine of the latitude, and the initial angle error is drawn about two axes.
14i. Feature tracks (C64): the residual is in the picture at distance 1 (pixels times pixel size over focal length), the noise is the pixel error, at least half a pixel, squared. The update takes the tracks to be vastly less accurate than they are and hardly uses them (`C64_noise`, `C64_noise_refuted`).
14j. Origin (C65): a look-up of a frame that is not in the window gives a clone at the origin of the local frame; tracks longer than the window are thereby handled differently depending on where the origin is (`C65_lookup_refuted`). All else is independent of the origins (`C65_program`).
14k. Times (C66): seconds and nanoseconds are joined to a double before the reference time is subtracted, so stamps closer than about 240 ns can become equal (`C66_nanoseconds_refuted`); nothing is lost after that (`C66_clock`). The simulation can make one measurement more than duration times rate (`C66_sim_count_refuted`).
14l. Position from feature tracks (C67): `ApplyLeftNullspace` takes the last rows of Q (`Q_decomp.block(H_f.cols(), 0, …)`) although the null space is spanned by the last columns, so the position of the feature is not projected out and the filter becomes surer of the absolute position of the body from features alone (`C67_tracks_refuted`); with the right projection it could not (`C67_projected_blind`).
14m. First clone (C68): `m_frame_received_since_last_aug` starts as true, so in TIME and ERROR mode the first prediction takes a clone before any camera frame was received (`C68_history`; the bound of `C68_frames` is one more than the number of frames).
14n. First estimates (C69): with `use_first_estimate_jacobian` not only the Jacobians but also the predicted measurements are evaluated at the sensor pose of the first use (`m_pos_a_in_b` etc. are read by `PredictMeasurement`). The calibration estimate of a sensor therefore never influences what its measurements are compared with, and a measurement that agrees exactly with the current estimates moves them (`C69_exact_moves`). First-estimate Jacobian methods keep the residual at the current estimate.
14o. Bias variances (C70): an IMU with `is_intrinsic` but not `is_extrinsic` registers `variance.segment<6>(0)`, the variances of position and orientation, for its biases; entries 6 to 11 are never read (`C70_bias_variance_unread`).
14p. Distortion (C71): the MSCKF residual compares the raw pixel with the undistorted projection (`camera.cpp` 77-78 has a todo for `undistortPoints`), while the simulator and OpenCV distort. Exact pictures of a lens with distortion therefore have a residual (`C71_residual`, `C71_stretched`); only the Jacobian mentions the distortion, at the measured instead of the predicted point.
14q. The stationary test of a square-root filter weighs the residual with the root instead of the
     covariance (imu_updater.cpp 223-227), so a motion above the threshold can score below it
     and be taken for rest (`C41_root_score_refuted`), or rest be latched as motion (`C41_root_alarm_refuted`), or the matrix be singular, which Eigen answers with infinities or NaN and the model with UB (`C41_root_singular_refuted`, a factor with negative diagonal entries as the API accepts); in covariance form the score is the intended one (`C41_score`).
14f. Configuration (C60): documented or exemplified keys without effect — `data_logging_on`, `pos_l_in_g`, `ang_l_to_g` and their errors, `use_seed`, `number_of_runs`, `run_number`, `time_bias_error` of every sensor, `pos_a_in_b_err` (the code reads `pos_a_in_b_error`), `min_feature_distance` (the simulation reads `min_feat_dist`), `room_size`, the window of a board (`C60_ignored`). The default variances have three entries where six or twelve are needed (`C60_imus`, `C60_cameras`), and in a build with assertions no list of another length is accepted, so the example file aborts (`C60_example_refuted`). Three angles for `ang_b_to_l`, as in the example file, silently give no rotation (`C60_settings`, `turned`). A list written as a single word is empty. Node and simulation have different defaults for cloning (`C60_node_refuted`).
14b. The ROS node (C54): uninitialised memory reaches the process noise of orientation, angular rate and angular acceleration (`C54_noise`, `C54_noise_refuted`) and the covariance of every GPS fix (`C54_fix_memory`); the rate configured as `process_noise.ang_pos` is stored at the acceleration (`C54_noise`); the initial pose is ignored (`C54_pose_ignored`); `max_track_length` of a tracker does not reach the window (`C54_window`); with assertions no calibrated sensor loads (`C54_assertions`).

Logging
15. In square-root form the logged variances are squared diagonal entries of the factor and understate the variance (`C29_root_variances_refuted`); the stationary IMU row squares variances in both forms (`C29_stationary_variances_refuted`).
16. A rate-limited log that starts at time 0 is not limited (`C27_zero_start_refuted`); the announcement of a level change bypasses the severity filter (`C28`).

Trackers and simulation
17. Grid selection loses detections at the right and lower edges (`C34_edge_refuted`); the distance test discards every match of a camera at rest (`C35_standstill`); the image tracker does not hand over tracks when a frame has no descriptors (`C33_image_idle`).
18. Cyclic truth: the angular acceleration misses the derivative of the transform (`C42_angular_acceleration_refuted`), and attitude jumps at the end of the stationary phase. Sampled truth reads past its last sample, uses absolute time, and starts at zero instead of the first control point (`C43_start_refuted`). Spline truth reports Euler-angle rates as angular rate (`C52_angular_rate_refuted`).

## 6. Theorem index

Letters: axioms, see section 4. `case`: a concrete instance meeting the hypotheses.

**C01: Filter dimensions never drift apart**

- `C01_dimensions` [CDEN]
  - case `C01_hypotheses`
  - case `C01_computed`

**C02: Every calibrated quantity owns its own slice of the state vector**

- `C02_partition` [CDEN]
  - case `C02_hypotheses`

**C03: Adding a sensor does not disturb existing estimates**

- `C03_register_imu` [CDEN]
- `C03_register_gps` [CDEN]
- `C03_register_cam` [CDEN]
- `C03_register_fid` [CDEN]
- `C03_covariance_functional` [CDEN] Each pair of scalars has one covariance, so [adds] pins the result down.
- `C03_out_of_order_refuted` [CDEN] Out of order: IMU 2 is known with variance 1/10, IMU 1 arrives with 1/5, and the two variances end up exchanged.
- `C03_fiducial_after_clone_refuted` [CDEN] A fiducial registered after a clone takes over the clone's rows.
- `C03_root_block_refuted` [CDEN] In square-root form the supplied covariance is stored as if it were a square root: variance 1/10 becomes 1/100.
  - case `C03_hypotheses`
  - case `C03_fid_hypotheses`

**C04: Re-registering a sensor id is refused without side effects**

- `C04_duplicate` [DEN]
- `C04_fresh_imu` [CDEN] A fresh id stores the supplied state (index members apart), leaves all other states of that kind and all other kinds as they were.
- `C04_fresh_gps` [CDEN]
- `C04_fresh_cam` [CDEN]
- `C04_fresh_fid` [CDEN]
  - case `C04_hypotheses`

**C05: The covariance follows the abstract, index-free filter for whole histories**

- `C05_history` [CDEN] [valid] asks for ids in increasing order, fiducials before clones, and Jacobians with their columns at the indices the quantities are told to use. [decisions] lists which clones were dropped or made where that depends on the motion (C17 says when); elsewhere it has no influence.
- `C05_no_decisions` [DE] Clones made per frame leave nothing to decide.
  - case `C05_history_case`
  - case `C05_history_case_window`
- `C05_root_refuted` [CDEN] The square-root form parts ways at the first registration.

**C06: The covariance stays a covariance**

- `C06_covariance_psd` [CDEN]
  - case `C06_hypotheses`

**C07: A clone starts as an exact statistical copy of the body pose**

- `C07_frame_clone` [CDEN] Window not full: either covariance form.
- `C07_frame_clone_full` [CDEN] Window full, covariance form: the oldest clone goes, everything else is inherited, the newest position copies the body.
- `C07_frame_clone_full_root` [CDEN] Window full, square-root form: the rows of the factor that lie where the oldest clone lay go too, and what they carried is missing afterwards. Covariances of the body and of the sensors do not suffer; variances only shrink.
- `C07_full_root_refuted` [CDEN] With two cameras the clones of one lose variance when a clone of the other is dropped.
- `C07_timed_clone` [CDEN] Clones made by time, covariance form: [d] oldest clones are dropped, then possibly one clone of the body is added.
  - case `C07_hypotheses`
  - case `C07_full_hypotheses`
  - case `C07_full_root_hypotheses`

**C08: Matrix insertion and removal are exact inverses**

- `C08_insert` [-]
- `C08_insert_out_of_range` [-]
- `C08_remove` [-]
- `C08_remove_out_of_range` [-]
- `C08_remove_insert` [-]
- `C08_insert_read_back` [-]
- `C08_remove_remove` [-]
- `C08_insert_insert` [-]
  - case `C08_computed`

**C09: Time never runs backwards**

- `C09_stale` [CDEN]
- `C09_reaches` [CDEN]
- `C09_monotone` [CDEN]
- `C09_first_local_time_refuted` [CDEN] Before the clock is initialised, the first conversion of a sensor time sets it back to zero.
  - case `C09_hypotheses`

**C10: Prediction implements the constant-acceleration model**

- `C10_predict` [CDEN] [e1] is the filter after the motion step; [e'] is [e1] unless clones are made by time, in which case a clone may be dropped or added afterwards.
- `C10_predict_before_gravity` [CDEN] Gravity unknown: only the time advances.
  - case `C10_hypotheses`

**C11: Square-root prediction agrees with standard prediction**

- `C11_root_predict` [CDEN] [e1] is the filter after the motion step, before any clone. Its covariance is that of the bent factor plus the noise; the factor is bent rightly when the velocity rows do not reach beyond the body.
- `C11_noise_after_transition` [CDEN] Even then the position uncertainty is below that of the standard form whenever the velocity has process noise.
- `C11_noise_refuted` [CDEN]
- `C11_cross_term_refuted` [CDEN] After a measurement that couples the velocity to an antenna position, the covariance of body position and antenna is neither of the two.
  - case `C11_hypotheses`

**C12: Measurement update is the optimal linear update**

- `C12_optimal_update` [CDEN]
- `C12_gain_unique` [DE] The gain is determined by its defining equation.
- `C12_zero_residual` [CDEN] Either form: a zero residual leaves the estimates alone.
  - case `C12_hypotheses`

**C13: Square-root update agrees with the standard update**

- `C13_root_update_agrees` [CDEN] Two filters of the same estimates and the same covariance, one in each form, given the same measurement with diagonal noise.
- `C13_correlated_noise_refuted` [CDEN] Non-diagonal noise: the posterior is not the one of any Kalman gain for the supplied noise.
  - case `C13_hypotheses`

**C14: Corrections land on the right quantities**

- `C14_correction` [CDEN] [State += r]: every named scalar moves by the entry at its own position, every orientation is turned by the three entries at its own position, what is not estimated keeps its value.
  - case `C14_correction_case`
- `C14_entries_read` [CDEN] Nothing beyond the filter's own entries is read.
  - case `C14_body_only`
- `C14_vector_and_back` [CDEN] The vector form and back: only the representation of the estimated orientations can change, and not that of a canonical one.
- `C14_vector_identity` [CDEN]
  - case `C14_identity_case`
- `C14_bias_only_refuted` [CDEN] Not so with an IMU of which only the biases are estimated: they come back as zero.
- `C14_camera_map_refuted` [DEN] The separate [map<unsigned int, CamState> += vector] gives every camera the entries of the first.

**C15: The state reports its own size correctly**

- `C15_reported_size` [CDEN] The reported size is right exactly when there are as many clones as windows.
- `C15_vector` [CDEN] The vector holds the estimates in the order of the layout, without the biases of an IMU whose pose is not estimated; it is as long as the reported size, the rest is zero, and writing more is out of bounds.
- `C15_written` [CDEN] How many entries are written.
  - case `C15_case`
- `C15_clones_refuted` [CDEN] Two clones of one camera.
- `C15_bias_only_refuted` [CDEN] An IMU of which only the biases are estimated.

**C16: The sliding window is bounded and first-in first-out**

- `C16_window` [CDEN] The constructor sets the maximum length to 20.
- `C16_window_exact` [CDEN] Any reachable filter, any maximum length set beforehand.
- `C16_every_history` [CDEN] A camera whose every frame is cloned (all cameras, or the primary one in the primary mode), with the maximum length changing at will: which clones are held, exactly.
- `C16_never_shrinks` [CDEN] A window never shrinks;
- `C16_lowered` [CDEN] lowering the maximum length below it leaves its size for ever.
- `C16_others` [CDEN] In the primary mode no other camera's window changes.
- `C16_zero_length` [DEN] With the maximum length 0 the first frame is undefined.
  - case `C16_hypotheses`
  - case `C16_lowered_case`
  - case `C16_primary_case`
  - case `C16_zero_case`

**C17: Time-window pruning keeps what interpolation needs**

- `C17_pruned_window` [CDEN] The window after a call: the [d] oldest clones are gone, at most one clone of the current body is appended; what is gone was older than the track duration even without the clone that follows it.
- `C17_brackets` [CDEN] An instant within the track duration keeps its bracketing clones.
- `C17_ordered` [CDEN] Clones stay ordered by time over whole histories.
  - case `C17_hypotheses`

**C18: Clone lookup returns the right pose**

- `C18_frame` [CDEN] Cameras whose frames are cloned: the lookup goes by frame id.
- `C18_before` [CDEN] Otherwise it goes by time. Before the oldest clone: the oldest clone.
- `C18_between` [CDEN] Between clones: on the way from one clone to the next, the two being those around the time.
- `C18_after` [CDEN] After the newest clone: on the way to the present body pose; beyond it for times in the future.
- `C18_own_time` [CDEN] A clone is found at its own time.
- `C18_arc` [CDEN] The orientation moves along the arc: the angles to the two ends are [t] and [1 - t] of the angle between them.
- `C18_fresh_clone` [CDEN] The newest clone is as new as the filter: zero over zero.
- `C18_second_camera` [CDEN] That is what a second camera meets at the time of a frame of the primary camera.
- `C18_at_now_refuted` [CDEN]
- `C18_empty` [CDEN] No clone at all.
  - case `C18_frame_example`
  - case `C18_hypotheses`
  - case `C18_arc_example`
  - case `C18_second_camera_example`

**C19: Clone lookup never aliases another quantity**

- `C19_stored` [CDEN] A stored frame: the six scalars at the index are those of a clone of the camera.
- `C19_by_time` [CDEN] Lookup by time: always the index of a clone.
- `C19_recent` [CDEN] Frames as recent as the window is long are stored.
- `C19_missing` [CDEN] A frame not in the window: the origin, with the index of the body.
  - case `C19_hypotheses`
  - case `C19_by_time_example`
  - case `C19_recent_example`

**C20: Local time is a constant offset from sensor time**

- `C20_local_time` [CDEN]
  - case `C20_hypotheses`

**C21: One-way switches stay on, and GPS needs four samples**

- `C21_latches` [CDEN]
- `C21_four_samples` [CDEN]
- `C21_motion` [CDEN] Motion detected by an IMU stays detected through any sequence of callbacks, constructors and configuration calls.
  - case `C21_moved`
  - case `C21_hypotheses`

**C22: Orientations remain rotations**

- `C22_unit_quaternions` [CDEN]
- `C22_rotation_preserves_length` [DEN]
  - case `C22_hypotheses`
  - case `C22_length`

**C23: Rotation vector and quaternion conversions are inverse**

- `C23_unit` [DEN]
- `C23_vector_roundtrip` [CDEN]
- `C23_small_is_identity` [CDEN]
- `C23_axis_fixed` [DEN]
- `C23_turns` [DEN] The rotation is the one about [v] by the angle [|v|].
- `C23_quaternion_roundtrip` [CDEN] The other direction: up to the sign that makes the scalar part non-negative, and with a rotation vector no longer than pi.
- `C23_same_rotation` [CDEN]
  - case `C23_some_vector`
  - case `C23_some_quaternion`

**C24: Skew-symmetric matrix is the cross product**

- `C24_cross` [DE]
- `C24_antisymmetric` [DE]
- `C24_conjugation` [DE]
- `C24_orthogonal` [DE]
- `C24_determinant` [DE]
- `C24_multiplicative` [DE]
- `C24_action` [DE] The matrix acts as the quaternion, and the inverse quaternion has the transposed matrix.
- `C24_inverse` [DE]
- `C24_composition` [DE]
  - case `C24_unit`

**C25: Earth frame conversions are inverse rigid motions**

- `C25_enu_back` [DEN]
- `C25_ecef_back` [DEN]
- `C25_defined` [DEN] Conversions are defined exactly for references on the globe.
- `C25_enu_distance` [DEN]
- `C25_ecef_distance` [DEN]
- `C25_local_roundtrip` [DEN]
- `C25_local_distance` [DEN]
- `C25_reference_is_origin` [DEN]
- `C25_altitude_is_vertical` [DEN]
- `C25_sea_level` [DEN]
  - case `C25_reference`
  - case `C25_enu_defined`

**C26: A log file has exactly one header, first**

- `C26_cases` [-] Any history of calls either hands over no message while logging is enabled, or has a first one.
- `C26_no_file` [DE]
- `C26_file` [DE] The file has the name and header in force at the first message, and then messages in the order they were handed over, none of them twice; those of unlimited calls are all there.
- `C26_exact` [DE] Without rate limited calls: exactly the messages handed over.
  - case `C26_history`

**C27: Rate limiting bounds the log**

- `C27_bound` [DE]
- `C27_kept` [DE] A message is left out only when the log already holds r (t - t0) rows.
- `C27_rate_zero` [DE]
- `C27_time_zero` [DE] Messages at time zero are never limited, whatever the rate ...
- `C27_zero_start_refuted` [DE] ... so the bound fails for every rate when the log starts at time zero.
  - case `C27_session`

**C28: Severity filter**

- `C28_emitted` [-]
- `C28_verbosity` [-]
- `C28_streams` [-]
- `C28_announcement` [-] The announcement of a new level bypasses the filter: it is suppressed only when the level stays at the most verbose one.
- `C28_integer_levels` [-]
  - case `C28_case`

**C29: Every log row holds what its header names**

- `C29_body` [CDEN]
- `C29_clones` [-]
- `C29_imu` [CDEN]
- `C29_imu_stationary` [CDEN]
- `C29_gps` [CDEN]
- `C29_fiducial` [CDEN]
- `C29_msckf` [CDEN]
- `C29_triangulation` [-]
- `C29_truth` [DE]
- `C29_boards` [-]
- `C29_features` [-]
- `C29_counts` [-] In particular the numbers of columns agree.
- `C29_names_differ` [-]
- `C29_variances` [D] The printed variances are the filter's variances in covariance form ...
- `C29_root_variances` [DE] ... at most these in square-root form, and there they can differ ...
- `C29_root_variances_refuted` [CDEN]
- `C29_stationary_variances_refuted` [CDEN] ... and the stationary row squares them.
  - case `C29_sensors`
  - case `C29_headers`
  - case `C29_plain`

**C30: Identifiers are unique**

- `C30_generators` [-]
- `C30_history` [CDEN]
- `C30_frames` [DEN]
  - case `C30_interleaved`
  - case `C30_hypotheses`
  - case `C30_frames_hypotheses`

**C31: Simulation replays every measurement once, in time order**

- `C31_replay` [CDEN]
- `C31_sort` [DE] Such a sorted order exists for every list of messages.
  - case `C31_hypotheses`

**C32: Measurement times are regular and within the run**

- `C32_times` [DE]
  - case `C32_hypotheses`
  - case `C32_case`

**C33: Every feature observation is used at most once and tracks are contiguous in time**

- `C33_sim_total` [DE] *** Simulated tracker
- `C33_sim_runs` [DE] The tracks of feature [k] are exactly its runs of uninterrupted sightings, cut at the maximum length, that reach the minimum length; the stored track is the run still open.
- `C33_sim_tracks` [DE]
- `C33_sim_once` [DE]
- `C33_sim_timing` [DE] A track is handed over in the frame that fills it or in the first frame that does not show its feature; what is stored is shorter than the maximum and ends in the latest frame.
- `C33_image_total` [DEN] *** Tracker on images
- `C33_image_once` [DEN] No detected point and no (frame, feature) pair occurs twice in the tracks handed over and stored.
- `C33_image_tracks` [DEN]
- `C33_image_seen` [DEN]
- `C33_image_timing` [DEN]
- `C33_image_idle` [DEN] An image without described points, or after one, ends no track.
  - case `C33_image_case`
  - case `C33_sim_case`

**C34: Grid thinning keeps one feature per cell**

- `C34_subsequence` [DE]
- `C34_one_per_square` [DE] No two kept points lie in the same square of ten by ten pixels.
- `C34_inside` [DE]
- `C34_represented` [DE] Every detection in a square that fits into the image is represented by a kept point of its square, which was detected no later.
- `C34_edge_refuted` [DE] A detection in the incomplete squares at the right or lower edge is lost.
  - case `C34_case`

**C35: Match filters only remove matches**

- `C35_ratio` [DE] The ratio test clears an entry or leaves it; it clears a pair exactly when the best distance exceeds the ratio times the second best.
- `C35_symmetry` [-] The symmetry test returns exactly the best matches that are best in the other direction too.
- `C35_one_to_one` [-]
- `C35_ransac` [-] The fundamental matrix test returns a subsequence, and nothing for fewer than ten matches.
- `C35_distance` [DEN] The distance test keeps exactly the matches below three times the mean.
- `C35_standstill` [DEN] If no point moved, every match is discarded.
- `C35_final` [DEN] What reaches the tracks is one to one, whatever the mask.
  - case `C35_case`
  - case `C35_case_distance`

**C36: Measurement Jacobians against the derivatives of the measurement models**

- `C36_projection` [DE] Projection to the image plane.
- `C36_distortion` [DEN] Lens distortion: right exactly for equal radial coefficients, or at the image centre.
- `C36_distortion_refuted` [DEN]
- `C36_gps` [CDEN] GPS: all columns, with and without a calibrated antenna.
- `C36_gps_correction` [CDEN] A correction turns the body from the right (C14, [correct]). The orientation columns are the derivative for that turn at the identity attitude ...
- `C36_gps_correction_refuted` [CDEN] ... and not at other attitudes.
- `C36_camera_fixed` [CDEN] Camera: one observation of a feature by a stored clone, lens without distortion; the camera pose fixed ...
- `C36_camera_calibrated` [CDEN] ... and calibrated.
- `C36_fiducial_fixed` [CDEN] Fiducial board position: board known, camera fixed ...
- `C36_fiducial_calibrated` [CDEN] ... or calibrated.
- `C36_board_refuted` [CDEN] When the board itself is calibrated, its position columns are wrong.
- `C36_imu` [DEN] Inertial sensor: the rows are right exactly where the terms they leave out vanish ([accel_gap], [gyro_gap]). Orientations are turned from the right, as corrections turn them.
- `C36_imu_level` [DEN] They vanish for a level body without velocity, and for the gyroscope whenever the attitude is not changed.
- `C36_gyroscope_fixed` [DEN]
- `C36_imu_attitude_refuted` [DEN] They do not vanish in general: a body at a half turn that accelerates, ...
- `C36_imu_velocity_refuted` [DEN] ... a level turning body whose velocity changes, ...
- `C36_gyroscope_refuted` [DEN] ... and a turning body whose attitude changes.
- `C36_stationary` [CDEN] At rest: what is shown to be zero is the negated residual. The gyroscope rows are right; the accelerometer rows exactly where [rest_gap] vanishes.
- `C36_stationary_level` [CDEN]
- `C36_stationary_position_refuted` [CDEN] The position of a calibrated sensor is taken for its orientation, ...
- `C36_stationary_mounted_refuted` [CDEN] ... and the turn of a level body is not turned into the frame of its sensor.
- `C36_board_turn` [CDEN] The orientation a board is seen with: with the measured orientation equal to the predicted one, the last three rows are the rate of change of the orientation shown exactly where three errors cancel.
- `C36_board_turn_never` [CDEN] ... each of which is there in every state, for some turn of the body, of the camera and of the board.
- `C36_board_body_refuted` [CDEN] So in every state there is a turn of the body alone along which the rows are not the rate.
- `C36_board_opposite` [CDEN] For a level body and a level board the rows of the body are the exact opposite of the rate.
  - case `C36_board_turn_case`
  - case `C36_board_opposite_case`
  - case `C36_imu_case`
  - case `C36_projection_case`
  - case `C36_gps_case`
  - case `C36_gps_correction_case`
  - case `C36_camera_case`
  - case `C36_fiducial_case`

**C37: Minimum variance bounding**

- `C37_bounded` [DE]
- `C37_at_least` [DE]
- `C37_unchanged` [DE]
- `C37_idempotent` [DE]
  - case `C37_changes_one`

**C38: Measurement compression preserves information**

- `C38_information_kept` [DEN] Well observed measurement: no direction of the state is seen with a squared gain below the square of the row threshold 1e-9.
- `C38_never_invents` [DEN] In every case compression never adds information.
- `C38_wide_unchanged` [DEN]
- `C38_compression_refuted` [DEN] A measurement of one of two states only: everything it says is lost.
  - case `C38_hypotheses`

**C39: Nullspace projection removes the feature error**

- `C39_projection_refuted` [DEN] For a feature seen in two frames (four rows, three columns, full column rank) the projected feature Jacobian is not zero.
- `C39_columns_annihilate` [DEN] The trailing columns of Q (rows of its transpose) are the ones that annihilate the feature Jacobian.
- `C39_single_column` [DEN] With a single column rows and columns of Q agree, and the code is right.
- `C39_too_short` [DEN] A feature seen in a single frame has two rows and three columns.
  - case `C39_single_case`
  - case `C39_columns_case`

**C40: Alignment statistics**

- `C40_mean` [DE]
- `C40_weighted_mean` [DE]
- `C40_within_bounds` [DE]
- `C40_translation` [DEN]
- `C40_refuses` [DEN]
- `C40_recovers` [DEN] Exactly aligned points: the rigid motion is recovered, with both deviations zero.
- `C40_heading` [CDEN] The reported heading is the yaw for non-negative yaws and minus the yaw for negative ones.
  - case `C40_svd`
  - case `C40_square`
  - case `C40_average`

**C41: Stationary detection state machine**

- `C41_measurement` [CDEN] What one measurement does.
- `C41_gravity` [CDEN] Gravity is initialised by a measurement that scores below the threshold (or by the caller) and stays initialised.
- `C41_never_again` [CDEN] Once an IMU has detected motion no later measurement of it is taken for rest, whatever happens in between.
- `C41_other_imu_refuted` [CDEN] Of another IMU one may be: the switch belongs to the updater of one IMU.
- `C41_score` [CDEN] The score weighs the residual with the covariance of the filter, when the covariance itself is what is stored.
- `C41_root_score_refuted` [CDEN] In square-root form it does not: the root itself is used. A motion above the threshold can score below it, and is then taken for rest whenever it arrives: it is not latched and the body rates are set to zero.
- `C41_root_alarm_refuted` [CDEN] Or the other way round, when the root exceeds one: a measurement well below the threshold is latched as motion, after which the IMU is never again found at rest.
- `C41_root_singular_refuted` [CDEN] Or there is no score at all: a root may have negative entries, and then the matrix to be inverted can be singular although the covariance is positive definite.
  - case `C41_hypotheses`
  - case `C41_moved`

**C42: Simulated truth is kinematically consistent**

- `C42_velocity` [DEN]
- `C42_acceleration` [DEN]
- `C42_start_kink` [DEN] The excluded instant: a moving body has no acceleration there.
- `C42_continuous` [DEN]
- `C42_rest` [DEN]
- `C42_angular_rate` [DEN] The angular rate is the body's angular rate.
- `C42_angular_rate_no_offset` [DEN]
- `C42_angular_acceleration` [DEN] The angular acceleration lacks the terms from the moving Euler axes.
- `C42_angular_acceleration_refuted` [CDEN]
- `C42_attitude_jump` [DEN]
  - case `C42_moving`
  - case `C42_offset`

**C43: Smoothed truth interpolation stays in range**

- `C43_builds` [DE] Which configurations are accepted.
- `C43_count` [DE]
- `C43_inside` [DE] Before the last sample interval the reads exist and the result lies between the neighbouring samples.
- `C43_attitude` [DEN]
- `C43_past_end` [DE] From then on they read past the end of the samples,
- `C43_attitude_past_end` [DEN]
- `C43_last_interval` [DE] and every engine accepts such a time.
- `C43_outside` [DEN]
- `C43_samples` [DE] The samples lie on the path through the control points, strictly between the first and the last control time, and are zero elsewhere.
- `C43_rates` [DE]
- `C43_start_refuted` [DE] The truth does not start at its first control point.
  - case `C43_demo`

**C44: Message ordering is a strict weak order**

- `C44_order` [DE]
- `C44_time` [DE]
  - case `C44_case`

**C45: Least-privilege reads**

- `C45_registered` [DE] The reads answer the stored state of a registered sensor and change nothing at all.
- `C45_clone` [CDEN] Reading a clone changes no estimate.
- `C45_unknown_imu` [DEN] Reading an unknown sensor stores a default state without error states; every later registration of that id is refused.
- `C45_unknown_gps` [DEN]
- `C45_unknown_cam` [DEN]
  - case `C45_hypotheses`
  - case `C45_clone_case`

**C46: Track duration is independent of configuration order**

- `C46_order` [CDEN] The two orders lead to the same filter except for the stored track duration, which is one frame period longer when the camera comes second.
  - case `C46_hypotheses`

**C47: CSV header enumeration**

- `C47_enumerate` [-]
- `C47_names_differ` [-]
- `C47_numbers` [-]
- `C47_vector` [-]
- `C47_quaternion` [-]
  - case `C47_case`

**C48: Camera update with nothing to use applies no correction**

- `C48_no_tracks` [CDEN] A feature update without tracks is the prediction to its time.
- `C48_all_declined` [CDEN] So is, up to empty clone windows, one whose tracks are all declined.
- `C48_never_declines` [CDEN] The updater as constructed never declines a track.
- `C48_camera_nothing` [CDEN] A camera message without tracks and without visible boards predicts and clones the body pose, nothing else.
  - case `C48_declined_case`
  - case `C48_camera_case`

**C49: Process noise follows the configuration**

- `C49_registration` [CDEN] A first registration (or an explicit refresh) stores the configured noise.
- `C49_history` [CDEN] It stays the configured one in all further histories that do not set a new body noise: predictions, updates, clones, removals, reads.
- `C49_initial` [CDEN] Before the first registration, frame or refresh it is zero, unless clones are made by time ...
- `C49_ineffective` [CDEN] ... so the configured body noise has no influence on any estimate or covariance.
  - case `C49_hypotheses`
  - case `C49_initial_case`

**C50: Sensor callbacks end with consistent bookkeeping**

- `C50_history` [CDEN]
- `C50_message` [CDEN]
- `C50_image` [CDEN]
- `C50_defined` [CDEN] Without GPS fixes and feature tracks nothing is undefined (covariance form).
  - case `C50_hypotheses`

**C51: Simulated feature tracks carry the position of the feature they observed**

- `C51_truth` [DE]
  - case `C51_case`

**C52: Spline truth is kinematically consistent in translation only**

- `C52_velocity` [DE]
- `C52_acceleration` [DE]
- `C52_turn` [DEN] The attitude turns with the transformed rate, not with the reported one.
- `C52_angular_rate_refuted` [DEN]
- `C52_within` [DE] Without a stationary phase the curve is evaluated where it is defined,
- `C52_beyond` [DE] with one it is evaluated beyond its end.
  - case `C52_curve`

**C53: Exact measurements leave a correct filter alone**

- `C53_rest` [CDEN] A program built from true parameters, for a body that rests: whatever error-free messages arrive, in whatever order, all estimates stay what they were, and true.
- `C53_eigen` [DEN] The contract for the conversion of rotation matrices is met by Eigen's method.
- `C53_gps` [CDEN] A moving body: an exact GPS fix changes nothing in a filter that has arrived at the right place.
- `C53_board` [CDEN] Nor does an exact detection of a board.
- `C53_imu` [CDEN] The only IMU of a moving body: the lever arm and the configured biases end up in the acceleration and rate of the body.
- `C53_lever_refuted` [CDEN] A turning body with the IMU off its centre: the filter knows everything and still reports an acceleration that is not there.
- `C53_bias_refuted` [CDEN] A standing body with a configured accelerometer bias: the error-free measurement does not contain the bias which the filter subtracts.
  - case `C53_ex_still`
  - case `C53_ex_run`
  - case `C53_ex_track`
  - case `C53_ex_arrived`

**C54: The ROS node is the configured program, except where it reads memory nobody wrote**

- `C54_program` [CDEN] A node that starts is the program with the configured filter and the configured sensors in the order IMUs, cameras, receivers; from then on every sequence of messages does to it what the messages, delivered to the sensor of the subscription they arrived at, do to that program.
- `C54_lived` [CDEN] Usable configuration, usable messages: what holds of all histories of the program holds of the node.
- `C54_starts` [CDEN] Without assertions a usable configuration starts; in covariance form and without fixes and feature tracks nothing is undefined afterwards.
- `C54_defined` [CDEN]
- `C54_assertions` [CDEN] With assertions only variances of three numbers pass: no IMU or camera is calibrated, no camera watches a board.
- `C54_stamps` [DE] Times compare as stamps do.
- `C54_pose_ignored` [DEN] The configured initial pose has no effect.
- `C54_window` [CDEN] The window of clones keeps its default length, whatever the trackers are configured with, and the noise of the body what was loaded.
- `C54_noise` [CDEN] In every history the process noise of the body is diagonal. Position and velocity have the configured rates, the acceleration has the one configured for the orientation; orientation, angular rate and angular acceleration have what the memory held.
- `C54_noise_refuted` [CDEN] So the configuration does not determine the filter ...
- `C54_fix_memory` [CDEN] ... and a fix does not determine what the filter makes of it.
  - case `C54_hypotheses`
  - case `C54_asserting`

**C55: Self-alignment of the GPS reference**

- `C55_threshold_never` [CDEN] Fixes that fit the positions exactly never satisfy the error-threshold criterion, however many there are and whatever the thresholds: the filter stays without a reference.
- `C55_standing` [CDEN] A filter in error-threshold mode that has stood at its origin while receiving the same fix reads an unset variable at the fourth fix.
- `C55_extent` [DEN] The measured extent of the fixes: between whole metres, off by less than [2 sqrt 2] one way and [sqrt 2] the other.
- `C55_baseline` [CDEN] The baseline criterion. Fixes far enough apart set the reference: the point at [- t] in the frame of the fixes, and the size of the yaw.
- `C55_too_close` [CDEN] Fixes too close together leave it unset.
- `C55_reference` [DEN] The point that becomes the reference is then placed at the local origin. The fit has it there only if turning leaves the offset alone.
- `C55_vertical` [DEN] If the frames differ by a turn and a height only, every fix is then placed where the filter was when it came in.
- `C55_misplaced_refuted` [CDEN] In general they are not, with the conversion of the code: four fixes on the equator fitting the positions exactly, after which the third is placed elsewhere.
  - case `C55_fit`
  - case `C55_svd`
  - case `C55_hull`
  - case `C55_still`
  - case `C55_high`

**C56: Geodetic coordinates of Earth-centred points**

- `C56_exact` [CDEN] At least 50 km from the centre of the Earth the closed-form solution is defined and exact: the coordinates it returns are in range and name the point, on the ellipsoid with its own eccentricity constant.
- `C56_back` [CDEN] And it finds the coordinates a point was named by, off the poles.
- `C56_roundtrip` [CDEN] [lla_to_ecef] uses a flattening constant instead, which does not quite agree: a round trip ends within a picometre, and at the point itself exactly if it lies in the plane of the equator.
- `C56_inverse_refuted` [CDEN]
- `C56_consistent` [CDEN] With the eccentricity that belongs to the flattening, the two functions are inverse to each other.
- `C56_consistent_back` [CDEN]
- `C56_centre` [CDEN] At the centre of the Earth the third root of a negative number is taken.
  - case `C56_point`
  - case `C56_place`

**C57: Triangulation of feature tracks**

- `C57_least_squares` [CDEN] When two of the viewing rays are not parallel, the point found is the only one with the least sum of squared distances from the rays, whatever the pixels; it is dropped exactly if its depth in the first camera is out of range. The filter is not changed.
- `C57_exact` [CDEN] Pixels that are the pinhole images of one point give that point.
- `C57_parallel` [DE] Two rays that are not parallel are needed: otherwise no point is nearest.
- `C57_as_built` [CDEN] The updater as constructed uses the true position that the simulation put into the track: neither the pixels nor the clones nor the range matter.
  - case `C57_solver`
  - case `C57_case`
  - case `C57_found`

**C58: The simulation program from configuration to last callback**

- `C58_runs` [CDEN] A sound configuration is set up without undefined behaviour. Without GPS and feature tracking, and with measurement noise, the whole program runs, however the messages of equal times are sorted.
- `C58_start` [CDEN] The filter starts, at time 0, at the configured position with its drawn error, at rest, with gravity as acceleration, and at the configured orientation turned about y and x by the two drawn angles.
- `C58_frames` [CDEN] If every camera measures at increasing times, each track handed to the filter names only frames whose clone the filter holds at that moment (when it clones per frame): the window is as long as the longest track.
- `C58_order` [DEN] Cameras without errors do measure at increasing times.
- `C58_rest` [CDEN] An error-free configuration of a body at rest, whose filter starts at the true pose: after the whole run the filter still holds the truth about body and sensors, and nothing but its clones has changed.
- `C58_log` [CDEN] The truth file: no rows for rate 0, otherwise one every 1/rate seconds up to one second after the end; row i is its time, the true motion of the body at that time, and the true calibration of every configured sensor in the order of configuration.
- `C58_never_cloned` [CDEN] Without feature trackers the filter never clones a pose, whatever the configured augmentation.
- `C58_zero_length` [CDEN] With trackers and a maximum track length of 0 the replay is undefined as soon as there is a camera message.
  - case `C58_sound`
  - case `C58_quiet`
  - case `C58_resting`
  - case `C58_cameras`
  - case `C58_reads`
  - case `C58_sorted`
  - case `C58_whole`
  - case `C58_bare`
  - case `C58_zero_case`

**C59: Late measurements**

- `C59_message` [CDEN] How late a measurement is makes no difference to anything.
- `C59_image` [CDEN]
- `C59_overwrites` [CDEN] The only IMU of a moving body: an old measurement replaces the newer acceleration and rates; time and covariance stay.
- `C59_ignored_refuted` [CDEN] It is not ignored.
  - case `C59_hypotheses`

**C60: The configuration file of the simulation**

- `C60_settings` [DEN] Whatever the file and the random numbers: if reading it succeeds, every setting of the filter, of the simulated motion and of each listed sensor is what the file says under its own path, or the default; exactly the listed sensors are read, in the order of their list.
- `C60_unknown` [DEN] Nothing else in the file matters: two files that agree under all known keys read alike (also when reading fails).
- `C60_ignored` [DEN] So documented settings such as [number_of_runs], the time biases of the sensors, [min_feature_distance], [room_size] and the window of a board may be set to anything without effect.
- `C60_imus` [DEN] An IMU under calibration needs its list of variances: six entries, twelve to calibrate both extrinsics and intrinsics, and a build without assertions; its default list is too short.
- `C60_cameras` [DEN] Likewise a camera under calibration, and any board a camera looks at, calibrated or not; trackers and boards have to be listed.
- `C60_others` [DEN]
- `C60_example` [CDEN] The example file of the repository: set up without undefined behaviour in a build without assertions, whatever is drawn, as long as the drawn reference point is on the earth.
- `C60_example_refuted` [DEN] With assertions it does not get past reading its own IMU.
- `C60_node` [DEN] The ROS node started with the same file makes the same filter as the simulation, up to the process noise, if the file sets how to clone.
- `C60_node_refuted` [DEN] If it does not, the node may clone nothing where the simulation clones every frame.
  - case `C60_reads`
  - case `C60_calibrating`
  - case `C60_calibrates`
  - case `C60_matters`
  - case `C60_says`
  - case `C60_put`

**C61: What a measurement does to the estimates**

- `C61_least_squares` [CDEN] Of all corrections the filter holds possible, the one it makes is the best compromise between agreeing with the measurement and staying where it is; it never agrees less with the measurement than before, and agrees more unless nothing is moved.
- `C61_same_information` [CDEN] Two measurements that say the same, say it with the same effect.
- `C61_gps` [CDEN] A fix: the antenna is moved to where the fix places it.
- `C61_survey` [CDEN] The fix that completes the self-alignment: all fixes collected so far are compared with where the body was then.
- `C61_imu` [CDEN] An IMU of several: expected readings are compared with actual ones, and the model is predicted afterwards.
- `C61_imu_alone` [CDEN] An IMU that is the only one: no update; its readings become the rates.
- `C61_stationary` [CDEN] A reading taken for that of a body at rest: the shortfall is measured before the prediction, the Jacobian after it.
- `C61_board` [CDEN] A board: measured position less expected position; but expected orientation less measured orientation.
- `C61_board_refuted` [CDEN] So a board seen exactly where it is expected, but turned, makes the filter turn the body the wrong way: afterwards the expected orientation is further off than before.
  - case `C61_hypotheses`
  - case `C61_antenna`
  - case `C61_imus`

**C62: The covariance is the covariance of the errors**

- `C62_history` [CDEN] [lives] lets the errors evolve linearly, as the filter assumes: new quantities come with independent errors of the covariance given at registration, time adds independent disturbances at the rates in force and carries the velocity error into the position, a clone repeats the error of the body, and a reading with independent noise of the covariance given changes every error by gain times innovation.
- `C62_rarely_large` [CDEN] So an error exceeds [k] times the square root of its diagonal entry with a chance of at most one in [k * k].
- `C62_exists` [DEN] Such errors exist for every history with proper arguments, with room for one more noise of any covariance.
- `C62_misjudged` [CDEN] A reading whose noise really has the covariance [N0] while the filter is told [N]: the two covariances differ by the misjudgement seen through the gain.
- `C62_over_under` [CDEN] Told too much noise, the filter claims no more certainty than it has; told too little, no less.
  - case `C62_history_case`
  - case `C62_exists_case`
  - case `C62_misjudged_case`

**C63: The noise the simulation adds and the noise the filter is told**

- `C63_imu` [DE] Readings of an IMU scatter, around the exact readings plus the true biases, with the covariances that the message announces.
- `C63_gps` [DEN] A fix, placed in the local frame, scatters around the antenna with the announced covariance, where the conversion to latitude and longitude is right: the errors configured for the fix are metres in the local frame.
- `C63_board` [DEN] The position of a detected board scatters around the exact one; the configured errors are its standard deviations and travel with it.
- `C63_board_told` [CDEN] The filter takes them for variances.
- `C63_board_right` [DE] This is right for errors 0 and 1 only; too cautious below 1, too confident above.
- `C63_board_cautious` [DE]
- `C63_board_refuted` [DEN]
- `C63_turns` [DEN] Random turns are capped at a right angle on one side only, so draws with mean 0 give turns with mean at most 0, and below 0 as soon as the cap can be reached.
- `C63_start` [DEN] The position the filter starts from scatters with the configured errors; the covariance it starts with is right only if they are all 1/10.
- `C63_pixels` [DE] Pixels of simulated tracks are at most rounded: their squared error never exceeds the variance the filter assumes, whatever pixel error is configured.
  - case `C63_draws`
  - case `C63_imu_case`
  - case `C63_gps_case`
  - case `C63_board_case`
  - case `C63_turns_case`
  - case `C63_start_case`
  - case `C63_pixels_case`

**C64: What feature tracks do to the estimates, and the noise they are taken to have**

- `C64_runs` [CDEN] Tracks with two observations or more, with a known feature that is level with none of its cameras, are handled without undefined behaviour.
- `C64_towards` [CDEN] The estimates are predicted and then either kept or moved by one Kalman correction, whose residual is no longer than the reprojection errors of all tracks used.
- `C64_noise` [CDEN] Let the pixels of the observations vary by chance with standard deviation [s], through a lens without distortion for which a pixel is at most [g] wide at distance 1. The same rows and the same assumed noise are used for all pixels; the residual varies with standard deviation at most [s * g] in every direction, while it is taken to vary by [Rmax px (1 / 2)].
- `C64_noise_refuted` [CDEN] So the pixel error that is configured is not the noise that is used: with a focal length of 10 mm and pixels of 5 micrometres, a blur of one pixel told as one pixel is taken for four million times its variance.
  - case `C64_case`
  - case `C64_case_view`
  - case `C64_case_runs`
  - case `C64_case_blur`

**C65: The origins of space and of time do not matter**

- `C65_calls` [CDEN] Any calls of the filter, every position given [v] further and every time given [c] later (a time stamp [c + d] later): the estimates of positions are [v] further, the clock is [c] later, and all else is the same.
- `C65_program` [CDEN] The same for programs that make sensors and pass messages.
- `C65_told` [CDEN] From the constructor, if the filter is told the time and the pose first.
- `C65_date` [CDEN] If it is not, the date of the recording does not matter at all,
- `C65_date_estimates` [DE] neither in the estimates nor in the covariance nor in the filter's clock.
- `C65_lookup` [CDEN] Clones are found where they are, if the frame is in the window.
- `C65_recent` [CDEN] A window of clones of each frame shows the last frames of its camera.
- `C65_lookup_refuted` [CDEN] Not so a frame that is not in the window: it is taken to have been seen from the origin, wherever that is.
  - case `C65_case`
  - case `C65_case_calls`

**C66: Times in double precision**

- `C66_stamp` [CDEN] The double made of a time stamp is at most 0.12 microseconds off,
- `C66_order` [CDEN] keeps the order of stamps,
- `C66_apart` [CDEN] and tells stamps apart that differ by more than 240 ns.
- `C66_nanoseconds_refuted` [CDEN] It does not tell apart all stamps.
- `C66_dates` [CDEN] Stamps between 2004 and 2038 give dates,
- `C66_clock` [CDEN] for which the clock of the filter does no rounding at all, whatever has happened before: the local time of the next message and the length of the step to it are exact.
- `C66_elapsed` [CDEN] So local times are at most 0.24 microseconds off, however long it runs.
- `C66_sim_order` [CDEN] Simulated measurements: their times do not decrease, and there is at most one more than without rounding.
- `C66_sim_count` [CDEN]
- `C66_sim_count_refuted` [CDEN] For 0.7 seconds at 10 measurements per second there is one more.
  - case `C66_case`
  - case `C66_case_run`

**C67: Blind measurements never make the filter surer of the common position**

- `C67_never_surer` [CDEN] Whatever is registered, predicted, cloned, forgotten and measured, as long as no measurement notices that the body and all its clones are moved together: what the filter says of the common position is never better than what it said at construction.
- `C67_variances` [CDEN] In particular no variance of a position of the body or of a clone falls below the one of the constructor.
  - case `C67_nonvacuous`
- `C67_imus_only` [CDEN] So it is in every program whose sensors never look outside: any number of IMUs (ordinary and zero-acceleration updates), GPS receivers without a fix, cameras that see neither features nor boards, anything configured.
  - case `C67_imus_only_nonvacuous`
- `C67_before_projection` [CDEN] What a camera sees of a feature depends only on where the feature is relative to the camera: when everything estimated moves by [v], the rows of the MSCKF updater change as if the feature had moved by [-v].
- `C67_projected_blind` [CDEN] So every combination of the rows in which the position of the feature cancels is blind: with a left null space of [H_f], feature tracks would be among the measurements above.
  - case `C67_projected_nonvacuous`
- `C67_tracks_refuted` [CDEN] But the code takes rows of Q where the null space is spanned by columns ([ApplyLeftNullspace]), and one feature seen from two places makes the filter surer of where the body is than it was at construction.

**C68: Clones are taken exactly when they are due**

- `C68_taken` [CDEN] TIME and ERROR mode: a clone of the current body pose is appended exactly if a frame was announced since the last one and one is due, judged by the newest clone itself; taking it uses the announcement up.
- `C68_last_time` [CDEN] The remembered time is that of the newest clone, whatever was called.
- `C68_spacing` [CDEN] TIME mode: neighbouring clones are more than the configured period apart.
- `C68_frames` [CDEN] At most one clone per announced frame, and the one taken before any.
- `C68_untimed` [CDEN] In the other modes predictions take no clones.
  - case `C68_history`
  - case `C68_untimed_case`

**C69: With first estimates an updater keeps the sensor pose it was first used with**

- `C69_kept` [CDEN] Whatever happens to a program, a receiver, tracker or board that was used once keeps the poses it was used with.
- `C69_fix` [CDEN] A fix: the first one takes the lever arm from the filter and keeps it; every one is compared with the place the kept lever arm gives.
- `C69_board` [CDEN] A board: the first picture takes the poses of camera and board from the filter brought to the time of the picture, and the updater counts as used.
- `C69_tracker` [CDEN] A tracker: the first tracks take lens and pose of the camera.
- `C69_exact_moves` [CDEN] Once the estimate of the lever arm has left the kept one, a fix that agrees exactly with the estimates does not leave them alone.
  - case `C69_used`
  - case `C69_exact_case`
  - case `C69_taken_case`

**C70: Constructing a sensor enters exactly its configuration**

- `C70_imu` [CDEN]
- `C70_gps` [CDEN]
- `C70_camera` [CDEN] A camera with any trackers.
- `C70_board` [CDEN] A board with a number above all boards so far, before clones are taken: its pose and its variances, which are not bounded from below.
- `C70_board_known` [DEN] A board whose number is known, for instance seen by a second camera: its configuration is not looked at.
- `C70_bias_variance_unread` [DEN] An IMU calibrated for its biases only: the configured variances of the biases (entries 6 to 11) have no effect at all.
  - case `C70_cases`
  - case `C70_board_case`

**C71: Exact feature tracks change nothing, unless the lens distorts**

- `C71_exact` [CDEN] Tracks of a moving body, seen without error through a lens without distortion: the estimates are those of the prediction.
- `C71_residual` [CDEN] With any lens the residual of an observation without error is what the lens does to the point of the picture.
- `C71_stretched` [CDEN] So with a lens that stretches towards the sides, the residual of exact observations is zero only for a feature in the middle of every picture.
  - case `C71_exact_case`
  - case `C71_stretched_case`
