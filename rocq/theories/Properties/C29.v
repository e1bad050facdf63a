(** C29: Every log row has the columns of its header, and each column holds the
    quantity its header names. *)
From Coq Require Import Reals List String.
From Verif Require Import Base.Res Base.Mat Base.Geom Base.AMap Model.Types Model.Ekf Model.LogRows
  Spec.Csv Spec.LogFields Spec.Named Spec.Contract Proofs.LogFields Proofs.LogVars Proofs.Demo Proofs.DemoFilter.
Import ListNotations.

Theorem C29_body : forall show e d, plain_show show -> reachable e ->
  reads (body_row show e d) body_header (body_fields show e (logged e) d).
Proof. exact body_reads. Qed.
Print Assumptions C29_body.

Theorem C29_clones : forall show e, plain_show show -> reads (OK (aug_row show e)) aug_header (aug_fields show e).
Proof. exact aug_reads. Qed.
Print Assumptions C29_clones.

Theorem C29_imu : forall show e id s t acc omg resid d, plain_show show -> reachable e ->
  mfind id (s_imu (e_state e)) = Some s -> nr resid = 6 ->
  reads (imu_row show e id (i_ext s) (i_int s) t acc omg resid d) (imu_header (i_ext s) (i_int s))
    (imu_fields show s (logged e) t "0" (p_chi2 (e_par e)) acc omg (vlist resid) d).
Proof. exact imu_reads. Qed.
Print Assumptions C29_imu.

Theorem C29_imu_stationary : forall show e id s t score acc omg resid d, plain_show show -> reachable e ->
  mfind id (s_imu (e_state e)) = Some s -> nr resid = (if i_int s then 6 else 3) ->
  reads (imu_zero_row show e id (i_ext s) (i_int s) t score acc omg resid d) (imu_header (i_ext s) (i_int s))
    (imu_fields show s (logged_sq e) t "1" score acc omg (vlist resid ++ if i_int s then [] else [0; 0; 0]%R) d).
Proof. exact imu_zero_reads. Qed.
Print Assumptions C29_imu_stationary.

Theorem C29_gps : forall show show12 e id s t lla pos ref hd resid d, plain_show show -> plain_show show12 -> reachable e ->
  mfind id (s_gps (e_state e)) = Some s ->
  reads (gps_row show show12 e id (g_ext s) t lla pos ref hd resid d) (gps_header (g_ext s))
    (gps_fields show show12 s (logged e) t lla pos ref hd (e_lla_init e) resid d).
Proof. exact gps_reads. Qed.
Print Assumptions C29_gps.

Theorem C29_fiducial : forall show e id cam f c dflt t p q resid d, plain_show show -> reachable e ->
  mfind id (s_fid (e_state e)) = Some f -> mfind cam (s_cam (e_state e)) = Some c -> nr resid = 6 ->
  reads (fid_row show e id cam (f_ext f) (c_ext c) dflt t p q resid d) (fid_header (f_ext f) (c_ext c))
    (fid_fields show id f c (logged e) t p q (vlist resid) d).
Proof. exact fid_reads. Qed.
Print Assumptions C29_fiducial.

Theorem C29_msckf : forall show e id c ix t n d, plain_show show -> reachable e ->
  mfind id (s_cam (e_state e)) = Some c -> ix = c_index c ->
  reads (msckf_row show e id (c_ext c) ix t n d) (msckf_header (c_ext c)) (msckf_fields show c (logged e) t n d).
Proof. exact msckf_reads. Qed.
Print Assumptions C29_msckf.

Theorem C29_triangulation : forall show show3 t f p, plain_show show -> plain_show show3 ->
  reads (OK (tri_row show show3 t f p)) tri_header (tri_fields show show3 t f p).
Proof. exact tri_reads. Qed.
Print Assumptions C29_triangulation.

Theorem C29_truth : forall show t x, plain_show show ->
  reads (OK (truth_row show t x)) (truth_header (List.length (ts_imus x)) (List.length (ts_cams x)) (List.length (ts_gpss x)))
    (truth_fields show t x).
Proof. exact truth_reads. Qed.
Print Assumptions C29_truth.

Theorem C29_boards : forall show id p q, plain_show show ->
  reads (OK (board_row show id p q)) board_header (board_fields show id p q).
Proof. exact board_reads. Qed.
Print Assumptions C29_boards.

Theorem C29_features : forall show i x y z, plain_show show ->
  reads (OK (feature_row show i x y z)) feature_header (feature_fields show i x y z).
Proof. exact feature_reads. Qed.
Print Assumptions C29_features.

(** In particular the numbers of columns agree. *)
Theorem C29_counts : forall row header fs, reads row header fs -> fits row header.
Proof. exact reads_fits. Qed.
Print Assumptions C29_counts.

Theorem C29_names_differ : NoDup (columns body_header) /\ NoDup (columns aug_header) /\
  (forall a b, NoDup (columns (imu_header a b))) /\ (forall a, NoDup (columns (gps_header a))) /\
  (forall a b, NoDup (columns (fid_header a b))) /\ (forall a, NoDup (columns (msckf_header a))) /\
  NoDup (columns tri_header) /\ NoDup (columns board_header) /\ NoDup (columns feature_header).
Proof. exact headers_differ. Qed.
Print Assumptions C29_names_differ.

(** The printed variances are the filter's variances in covariance form ... *)
Theorem C29_variances : forall e i, p_root (e_par e) = false -> logged e i = covariance e i i.
Proof. exact logged_standard. Qed.
Print Assumptions C29_variances.

(** ... at most these in square-root form, and there they can differ ... *)
Theorem C29_root_variances : forall e i, p_root (e_par e) = true -> i < e_size e -> (logged e i <= covariance e i i)%R.
Proof. exact logged_root. Qed.
Print Assumptions C29_root_variances.

Theorem C29_root_variances_refuted : exists e i, reachable e /\ p_root (e_par e) = true /\ i < e_size e /\
  logged e i = 1%R /\ covariance e i i = 2%R.
Proof. exact logged_root_refuted. Qed.
Print Assumptions C29_root_variances_refuted.

(** ... and the stationary row squares them. *)
Theorem C29_stationary_variances_refuted : exists e id s, reachable e /\ p_root (e_par e) = false /\
  mfind id (s_imu (e_state e)) = Some s /\ i_ext s = true /\ i_index_ext s < e_size e /\
  logged_sq e (i_index_ext s) = (1 / 100)%R /\ covariance e (i_index_ext s) (i_index_ext s) = (1 / 10)%R.
Proof. exact stationary_refuted. Qed.
Print Assumptions C29_stationary_variances_refuted.

(** A filter with a fully calibrated IMU and a calibrated GPS antenna, and
    the number of columns of some headers. *)
Example C29_sensors : reachable (demo_e AAll false) /\
  option_map i_int (mfind 1 (s_imu (e_state (demo_e AAll false)))) = Some true /\
  option_map g_ext (mfind 3 (s_gps (e_state (demo_e AAll false)))) = Some true.
Proof. split; [apply demo_e_reachable|]. vm_compute. auto. Qed.
Example C29_headers : List.length (columns body_header) = 40 /\ List.length (columns (imu_header true false)) = 35 /\
  List.length (columns (gps_header true)) = 22 /\ List.length (columns (truth_header 1 2 1)) = 54.
Proof. vm_compute. auto. Qed.
Example C29_plain : plain_show (fun _ => "1.5"%string).
Proof. intros x. cbn. repeat (split; [intro; discriminate|]). exact I. Qed.
