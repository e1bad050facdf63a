(** A concrete filter with an IMU, a GPS antenna, a fiducial and two clones. *)
From Coq Require Import Reals List Arith Bool Lia Lra.
From Verif Require Import Base.Res Base.Mat Base.LinAlg Base.Geom Base.AMap
  Model.TypeHelper Model.Types Model.Ekf Model.Ops
  Spec.Layout Spec.History Spec.Contract Spec.Named Proofs.Invariant Proofs.Demo Proofs.Named Proofs.Sizes.
Import ListNotations.
Open Scope nat_scope.

Definition demo_regs : list op :=
  [ORegImu 1 demo_imu (demo_cov 12); ORegGps 3 demo_gps (demo_cov 3); ORegFid demo_fid (demo_cov 6); OFrame 2 7; OFrame 2 8].

Lemma demo_regs_respects : forall a root, respects (demo0 a root) demo_regs.
Proof.
  intros a root. unfold demo_regs. cbn [respects]. pose proof e9_pos.
  split. { cbn [contract]. intros _. split; [reflexivity|]. split; [apply demo_cov_arg|]. cbn. auto. }
  intros e1 _. split. { cbn [contract]. intros _. split; [reflexivity|]. split; [apply demo_cov_arg|]. cbn. auto. }
  intros e2 _. split. { cbn [contract]. intros _. split; [reflexivity|]. split; [apply demo_cov_arg|]. cbn. auto. }
  intros e3 _. split; [exact I|]. intros e4 _. split; [exact I|]. intros e5 _. exact I.
Qed.

Definition demo_e (a : AugType) (root : bool) : ekf :=
  match run (demo0 a root) demo_regs with OK e => e | UB => demo0 a root end.

Lemma demo_e_run : forall a root, run (demo0 a root) demo_regs = OK (demo_e a root).
Proof.
  intros a root. unfold demo_e.
  destruct (run_dims (demo_par a root) demo_noise v0 0 demo_regs demo_noise_arg (demo_regs_respects a root)) as [e [E _]].
  fold (demo0 a root) in E. rewrite E. reflexivity.
Qed.

Lemma demo_e_reachable : forall a root, reachable (demo_e a root).
Proof.
  intros a root. exists (demo_par a root), demo_noise, v0, 0%R, demo_regs.
  split; [apply demo_noise_arg|]. split; [apply demo_regs_respects|]. apply demo_e_run.
Qed.

Lemma demo_e_size : e_size (demo_e AAll false) = 51.
Proof. vm_compute. reflexivity. Qed.
Lemma demo_e_window : map a_frame (aug_at (demo_e AAll false) 2) = [7; 8].
Proof. vm_compute. reflexivity. Qed.
Lemma demo_e_max : e_max_len (demo_e AAll false) = 20.
Proof. vm_compute. reflexivity. Qed.
Lemma demo_e_imus : keys (s_imu (e_state (demo_e AAll false))) = [1].
Proof. vm_compute. reflexivity. Qed.
