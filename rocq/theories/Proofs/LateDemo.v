(** A filter that has one IMU and has been told a first stamp. *)
From Coq Require Import Reals List Arith Bool Lia Lra.
From Verif Require Import Base.Res Base.Mat Base.LinAlg Base.Geom Base.AMap Base.RDec Base.RMat
  Model.TypeHelper Model.Types Model.Ekf Model.Updater Model.Ops Model.ImuUpdater Model.Sensors
  Spec.Layout Spec.History Spec.Contract Spec.Late Proofs.Demo Proofs.DemoFilter Proofs.Invariant Proofs.RegRefute Proofs.Named Proofs.Late.
Import ListNotations.
Open Scope R_scope.

Definition told : ekf := snd (CalculateLocalTime (demo_e AAll false) 5).
Lemma told_gen : forall e t, reachable e -> reachable (snd (CalculateLocalTime e t)).
Proof. intros e t R. eapply (reachable_step e (OLocalTime t)); [exact R|exact I|reflexivity]. Qed.
Lemma told_reachable : reachable told.
Proof. apply told_gen, demo_e_reachable. Qed.
Lemma demo_untold : e_time_init (demo_e AAll false) = false.
Proof. vm_compute. reflexivity. Qed.
Lemma told_late_gen : forall e, e_time_init e = false -> late (snd (CalculateLocalTime e 5)) 3.
Proof. intros e H. unfold late, CalculateLocalTime. rewrite H. cbn. split; [reflexivity|lra]. Qed.
Lemma told_late : late told 3.
Proof. apply told_late_gen, demo_untold. Qed.
Lemma told_state_gen : forall e t, e_state (snd (CalculateLocalTime e t)) = e_state e.
Proof. intros e t. unfold CalculateLocalTime. destruct (e_time_init e); reflexivity. Qed.
Lemma demo_imu_held : mfind 1%nat (s_imu (e_state (demo_e AAll false))) <> None /\ length (s_imu (e_state (demo_e AAll false))) = 1%nat.
Proof. split; [vm_compute; discriminate|vm_compute; reflexivity]. Qed.
Definition moved_imu : imu_updater := mkIU 1 true true true.
Lemma late_ignored_refuted : exists e u s t acc A omg W e', reachable e /\ late e t /\ iu_moved u = true /\
  length (s_imu (e_state e)) = 1%nat /\ mfind (iu_id u) (s_imu (e_state e)) = Some s /\
  imu_UpdateEKF u e t acc A omg W = OK (u, e') /\ b_acc (s_body (e_state e')) <> b_acc (s_body (e_state e)).
Proof.
  assert (S0 : e_state told = e_state (demo_e AAll false)) by (apply told_state_gen).
  destruct demo_imu_held as [K N]. destruct (mfind 1%nat (s_imu (e_state (demo_e AAll false)))) as [s|] eqn:K1; [clear K|elim K; reflexivity].
  assert (Q1 : b_ang (s_body (e_state (demo_e AAll false))) = qid) by (vm_compute; reflexivity).
  assert (Q2 : vx (b_acc (s_body (e_state (demo_e AAll false)))) = 0) by (vm_compute; reflexivity).
  assert (Q3 : i_ang s = qid /\ i_acc_bias s = v0) by (vm_compute in K1; injection K1 as <-; split; reflexivity).
  destruct (late_overwrites moved_imu told s 3 (mkV3 1 0 0) (mzero 3 3) v0 (mzero 3 3) told_late eq_refl) as [e' [E [_ [_ [B _]]]]].
  { rewrite S0. exact N. } { rewrite S0. exact K1. }
  exists told, moved_imu, s, 3, (mkV3 1 0 0), (mzero 3 3), v0, (mzero 3 3), e'.
  split; [apply told_reachable|]. split; [apply told_late|]. split; [reflexivity|].
  split; [rewrite S0; exact N|]. split; [rewrite S0; exact K1|]. split; [exact E|].
  rewrite B, S0, Q1, (proj1 Q3), (proj2 Q3). intro X. apply (f_equal vx) in X. rewrite Q2 in X. cbn in X. lra.
Qed.
