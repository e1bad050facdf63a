(** A filter with first estimates, a camera with two clones and a board. *)
From Coq Require Import Reals ZArith List Arith Bool Lia Lra.
From Verif Require Import Base.Res Base.Mat Base.RDec Base.RSum Base.LinAlg Base.Geom Base.AMap Base.RMat
  Model.TypeHelper Model.Types Model.MathHelperMat Model.MathHelper Model.Matrix3 Model.Ekf Model.Updater Model.Ops
  Model.FiducialUpdater Model.MsckfUpdater
  Spec.Layout Spec.History Spec.Contract Spec.Named Spec.Callback
  Proofs.Sizes Proofs.Invariant Proofs.Demo Proofs.RegRefute Proofs.FidCallback Proofs.CamTrackDemo Proofs.FirstDemo.
Import ListNotations.
Open Scope R_scope.

Definition taken_regs : list op := [ORegCam 2 lens_cam (demo_cov 6); ORegFid demo_fid (demo_cov 6); OFrame 2 7; OFrame 2 8].
Lemma taken_respects : respects first0 taken_regs.
Proof.
  unfold taken_regs. cbn [respects]. pose proof e9_pos.
  split. { cbn [contract]. intros _. split; [reflexivity|]. split; [apply demo_cov_arg|]. cbn. auto. }
  intros e1 _. split. { apply demo_fid_contract. intros r. apply demo_cov_arg. }
  intros e2 _. split; [exact I|]. intros e3 _. split; [exact I|]. intros e4 _. exact I.
Qed.
Definition taken_e : ekf :=
  match (let* e := reg_at (1 / 1) first0 2 lens_cam (demo_cov 6) in run e [ORegFid demo_fid (demo_cov 6); OFrame 2 7; OFrame 2 8]) with
  | OK e => e | UB => first0 end.
Lemma taken_run : run first0 taken_regs = OK taken_e.
Proof.
  assert (E : run first0 taken_regs = let* e := reg_at (1 / 1) first0 2 lens_cam (demo_cov 6) in run e [ORegFid demo_fid (demo_cov 6); OFrame 2 7; OFrame 2 8]).
  { unfold taken_regs. cbn [run step]. unfold RegisterCamera, reg_at. destruct (mfind 2 _); [reflexivity|].
    replace (rdiv 1 (c_rate lens_cam)) with (@OK R (1 / 1)) by (symmetry; apply rdiv_ok; cbn; lra). reflexivity. }
  destruct (run_dims first_par demo_noise v0 0 taken_regs demo_noise_arg taken_respects) as [e [E2 _]].
  fold first0 in E2. rewrite E2 in E |- *. unfold taken_e. rewrite <- E. reflexivity.
Qed.
Lemma taken_reachable : reachable taken_e.
Proof.
  exists first_par, demo_noise, v0, 0, taken_regs. split; [apply demo_noise_arg|]. split; [apply taken_respects|]. apply taken_run.
Qed.
Lemma taken_clones : exists a b, aug_at taken_e 2 = [a; b] /\ at_origin a /\ at_origin b /\ a_frame a = 7%nat /\ a_frame b = 8%nat.
Proof. do 2 eexists. split; [vm_compute; reflexivity|]. repeat split. Qed.
Lemma taken_cam : exists c, mfind 2 (s_cam (e_state taken_e)) = Some c /\ c_intr c = lens /\ c_pos c = v0 /\ c_ang c = qid /\ c_ext c = true.
Proof. eexists. split; [vm_compute; reflexivity|]. repeat split. Qed.
Lemma taken_fid : exists f, mfind 4 (s_fid (e_state taken_e)) = Some f /\ f_ext f = true.
Proof. eexists. split; [vm_compute; reflexivity|]. reflexivity. Qed.
Lemma taken_rest : e_gravity taken_e = false /\ p_aug (e_par taken_e) = AAll /\ p_fej (e_par taken_e) = true.
Proof. repeat split. Qed.

Lemma taken_board : forall mat_quat t b, errors_positive b -> exists u' e',
  fid_UpdateEKF mat_quat (mkFU 4 2 true true true None) taken_e t b = OK (u', e').
Proof.
  intros mq t b HB. destruct taken_cam as (c & C1 & _ & _ & _ & C5).
  destruct (fid_callback mq (mkFU 4 2 true true true None) taken_e t b true taken_reachable) as (u' & e' & E & _).
  - exists c. auto.
  - intros X. exact X.
  - exact taken_fid.
  - left. reflexivity.
  - exact HB.
  - exists u', e'. exact E.
Qed.
Lemma taken_track : forall solve t px, exists u' e',
  msckf_UpdateEKF solve (msckf_updater_init 2 true 1) taken_e t [one_track (mkV3 0 0 3)] px = OK (u', e').
Proof.
  intros solve t px. destruct taken_rest as (G & A & _).
  destruct (any_runs solve taken_e t px 3 taken_reachable ltac:(lra) G A taken_clones taken_cam) as (u' & e' & E & _).
  exists u', e'. exact E.
Qed.
