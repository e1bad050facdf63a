(** A receiver whose updater was used with another lever arm. *)
From Coq Require Import Reals List Arith Bool Lia Lra ZArith.
From Verif Require Import Base.Res Base.Mat Base.RDec Base.RSum Base.LinAlg Base.Geom Base.AMap Base.RMat
  Model.TypeHelper Model.Types Model.GpsHelper Model.Ekf Model.Updater Model.Ops Model.GpsUpdater
  Spec.Layout Spec.History Spec.Contract Spec.Named Spec.Callback Spec.KF Spec.Unused Spec.Towards Spec.Earth Spec.FirstUse
  Proofs.Demo Proofs.DemoFilter Proofs.Invariant Proofs.Named Proofs.BlockDiag Proofs.ImuCallback Proofs.Register Proofs.GpsFrames Proofs.FirstGps.
Import ListNotations.
Open Scope nat_scope.

Definition first_par : params := mkParams AAll 1 (1/10) (1/10) GConstant 100 (1/10) (1/10) 1 100 false true.
Definition first0 : ekf := EKF_init first_par demo_noise v0 0.
Definition first_e : ekf := match RegisterGPS first0 3 demo_gps (demo_cov 3) with OK e => e | UB => first0 end.
Definition first_u : gps_updater := mkGU 3 true false (mkV3 0 0 1).

Lemma first_gen : forall e, reachable e -> exists e', RegisterGPS e 3 demo_gps (demo_cov 3) = OK e' /\ reachable e'.
Proof.
  intros e Hr. assert (C : contract e (ORegGps 3 demo_gps (demo_cov 3))).
  { cbn [contract]. intros _. pose proof e9_pos. split; [reflexivity|]. split; [apply demo_cov_arg|]. cbn. auto. }
  destruct (step_inv e (ORegGps 3 demo_gps (demo_cov 3)) (reachable_inv e Hr) C) as [e' [E _]].
  exists e'. split; [exact E|]. exact (reachable_step e _ e' Hr C E).
Qed.
Lemma first0_reachable : reachable first0.
Proof. exists first_par, demo_noise, v0, 0%R, []. split; [apply demo_noise_arg|]. split; [exact I|reflexivity]. Qed.
Lemma first_reachable : reachable first_e.
Proof. destruct (first_gen first0 first0_reachable) as [e' [E R']]. unfold first_e. rewrite E. exact R'. Qed.

Lemma untimed_start : forall e t, e_time_init e = false -> e_gravity e = false -> p_aug (e_par e) = AAll ->
  only_predicted e t (with_time (with_clock e 0 t true) 0).
Proof.
  intros e t T G A. unfold only_predicted, local_of. rewrite T. cbn [run step]. unfold CalculateLocalTime. rewrite T. cbn [bind snd].
  unfold PredictModel. cbn [e_time with_clock e_gravity].
  rewrite (proj2 (Rltb_false 0 0)) by lra. rewrite G. cbn [bind]. unfold AugmentStateIfNeeded. cbn [e_par with_time with_clock]. rewrite A. reflexivity.
Qed.

Lemma first_cov : forall i j, i < 21 -> j < 21 -> ent (e_cov first_e) i j =
  (if Nat.ltb i 18 && Nat.ltb j 18 then 1 / 100 * (if Nat.eqb i j then 1 else 0)
   else if Nat.leb 18 i && Nat.leb 18 j then 1 / 10 * (if Nat.eqb i j then 1 else 0) else 0)%R.
Proof.
  intros i j Hi Hj.
  do 21 (destruct i as [|i]; [do 21 (destruct j as [|j]; [vm_compute; reflexivity|]); lia|]). lia.
Qed.

Lemma first_spd : spd 21 (ent (e_cov first_e)).
Proof.
  apply (spd_ext 21 (diagm (fun i => if Nat.ltb i 18 then 1 / 100 else 1 / 10)%R)).
  - intros i j Hi Hj. rewrite (first_cov i j Hi Hj). unfold diagm.
    destruct (Nat.ltb_spec i 18), (Nat.ltb_spec j 18), (Nat.leb_spec 18 i), (Nat.leb_spec 18 j), (Nat.eqb_spec i j); cbn [andb]; try lia; lra.
  - apply spd_diag. intros i _. destruct (Nat.ltb i 18); lra.
Qed.

(** The filter sits at the reference with the antenna in its origin, the
    updater was used with the antenna one metre above. *)
Lemma first_case : exists e1, reachable first_e /\ p_fej (e_par first_e) = true /\
  has_gps first_e (gu_id first_u) (gu_ext first_u) /\ noise_ok (p_root (e_par first_e)) 3 (midm 3 3) /\ e_lla_init first_e = true /\
  only_predicted first_e 5 e1 /\ spd (e_size e1) (covariance e1) /\ qnorm2 (b_ang (s_body (e_state e1))) = 1%R /\
  lla_to_enu v0 (e_pos_e_in_g first_e) = OK v0 /\ enu_to_local v0 (e_ang_l_to_e first_e) = antenna e1 (gu_id first_u) /\
  gu_first first_u = false /\ g_pos (mget default_gps (gu_id first_u) (s_gps (e_state e1))) <> gu_pos first_u.
Proof.
  exists (with_time (with_clock first_e 0 5 true) 0).
  split; [apply first_reachable|]. split; [vm_compute; reflexivity|].
  split; [eexists; split; vm_compute; reflexivity|].
  split. { apply (diag_noise_ok _ _ _ (fun _ => 1%R)); [reflexivity|reflexivity|intros; lra|]. intros a b Ha Hb. reflexivity. }
  split; [vm_compute; reflexivity|].
  split; [apply untimed_start; vm_compute; reflexivity|].
  split; [exact first_spd|].
  split; [vm_compute; ring|].
  split. { change (e_pos_e_in_g first_e) with v0. apply ref_origin. unfold on_globe, v0. cbn. lra. }
  split. { unfold enu_to_local, antenna. change (b_pos (s_body (e_state (with_time (with_clock first_e 0 5 true) 0)))) with v0.
    change (b_ang (s_body (e_state (with_time (with_clock first_e 0 5 true) 0)))) with qid.
    change (g_pos (mget default_gps (gu_id first_u) (s_gps (e_state (with_time (with_clock first_e 0 5 true) 0))))) with v0.
    unfold qrot, qid, v0, vadd, vcross, vscale. cbn. f_equal; ring. }
  split; [reflexivity|].
  change (v0 <> mkV3 0 0 1). unfold v0. intros H. injection H. lra.
Qed.
