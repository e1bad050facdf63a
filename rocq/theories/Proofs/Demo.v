(** A concrete filter and call history used to show that hypotheses of the
    property theorems can be met by a non-trivial run. *)
From Coq Require Import Reals List Arith Bool Lia Lra.
From Verif Require Import Base.Res Base.Mat Base.LinAlg Base.RSum Base.Geom Base.AMap Base.RMat
  Model.TypeHelper Model.Types Model.Ekf Model.Updater Model.Ops
  Spec.Layout Spec.History Spec.Contract Proofs.Kalman Proofs.CovGood.
Import ListNotations.
Open Scope R_scope.

Definition demo_par (a : AugType) (root : bool) : params :=
  mkParams a 1 (1/10) (1/10) GBaseline 100 (1/10) (1/10) 1 100 root false.
Definition demo_noise : mat R := mkmat 18 1 (fun _ _ => 1).
Definition demo0 (a : AugType) (root : bool) : ekf := EKF_init (demo_par a root) demo_noise v0 0.

Definition demo_imu : ImuState := imu_SetIsIntrinsic true (imu_SetIsExtrinsic true default_imu).
Definition demo_gps : GpsState := gps_SetIsExtrinsic true default_gps.
Definition demo_cam : CamState := cam_SetIsExtrinsic true default_cam.
Definition demo_fid : FidState := fid_SetIsExtrinsic true (mkFid v0 qid e9 e9 0 0 4 false).
Definition demo_cov (n : nat) : mat R := mscale (1/10) (midm n n).

Lemma demo_cov_arg : forall root n, cov_arg root n (demo_cov n).
Proof.
  intros root n. split; [cbn; lia|]. split; [cbn; lia|]. destruct root.
  - intros i j Hij. cbn. unfold mscal, idm. destruct (Nat.eqb_spec i j); [lia|ring].
  - cbn [ent demo_cov mscale midm]. apply psd_mscal; [lra|apply psd_idm].
Qed.

Lemma e9_pos : 0 <= e9.
Proof. unfold e9. lra. Qed.

(** A scalar position measurement on the fresh filter. *)
Definition demo_jac : mat R := mkmat 1 18 (fun _ j => if Nat.eqb j 0 then 1 else 0).
Definition demo_res : mat R := mkmat 1 1 (fun _ _ => 1/2).
Definition demo_meas_noise : mat R := midm 1 1.

Lemma demo_meas : forall root, meas_arg root 18 demo_jac demo_res demo_meas_noise.
Proof.
  intros root. repeat split; try reflexivity. destruct root; cbn [nr demo_jac demo_meas_noise ent midm].
  - split; [intros i j _ _; unfold idm; destruct (Nat.eqb i j); lra|].
    eapply spd_ext; [|apply spd_idm]. symmetry. apply gram_sqrt_diag.
    + intros i j Hi Hj Hne. unfold idm. destruct (Nat.eqb_spec i j); [lia|reflexivity].
    + intros i _. unfold idm. rewrite Nat.eqb_refl. lra.
  - apply spd_idm.
Qed.

Definition demo_ops : list op :=
  [OKalman demo_jac demo_res demo_meas_noise;
   ORegImu 1 demo_imu (demo_cov 12);
   ORegGps 3 demo_gps (demo_cov 3);
   ORegCam 2 demo_cam (demo_cov 6);
   ORegFid demo_fid (demo_cov 6);
   ORegImu 1 demo_imu (demo_cov 12);
   OInitGravity; OLocalTime 100;
   OPredict 1; OFrame 2 7; OPredict 2; OFrame 2 8; OPredict (3/2);
   OSetLen 2; OFrame 2 9; OGetImu 5; OSetNoise demo_noise; ORefresh; OAugment].

Lemma demo_respects : forall a root, respects (demo0 a root) demo_ops.
Proof.
  intros a root. unfold demo_ops. cbn [respects].
  split; [apply demo_meas|]. intros e1 _.
  split.
  { cbn [contract]. intros _. split; [reflexivity|]. split; [apply demo_cov_arg|].
    cbn. pose proof e9_pos. auto. }
  intros e2 _. split.
  { cbn [contract]. intros _. split; [reflexivity|]. split; [apply demo_cov_arg|]. cbn. pose proof e9_pos. auto. }
  intros e3 _. split.
  { cbn [contract]. intros _. split; [reflexivity|]. split; [apply demo_cov_arg|]. cbn. pose proof e9_pos. split; auto with real. }
  intros e4 _. split.
  { cbn [contract]. intros _. split; [reflexivity|]. split; [apply demo_cov_arg|]. cbn. pose proof e9_pos. auto. }
  intros e5 _. split.
  { cbn [contract]. intros _. split; [reflexivity|]. split; [apply demo_cov_arg|].
    cbn. pose proof e9_pos. auto. }
  intros e6 _. do 7 (split; [exact I|]; intros ? _).
  split; [cbn; lia|]. intros e7 _. do 2 (split; [exact I|]; intros ? _).
  split; [split; [reflexivity|intros; cbn; lra]|]. intros ? _. do 2 (split; [exact I|]; intros ? _).
  exact I.
Qed.

Lemma demo_noise_arg : noise_arg demo_noise.
Proof. split; [reflexivity|]. intros. cbn. lra. Qed.
