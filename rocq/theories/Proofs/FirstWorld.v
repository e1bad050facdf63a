(** A program whose receiver has been used once. *)
From Coq Require Import Reals List Arith Bool Lia Lra ZArith.
From Verif Require Import Base.Res Base.Mat Base.RDec Base.LinAlg Base.Geom Base.AMap Base.RMat
  Model.TypeHelper Model.Types Model.MathHelperMat Model.MathHelper Model.Matrix3 Model.GpsHelper Model.Ekf Model.Updater Model.Ops Model.GpsUpdater Model.Sensors
  Spec.Layout Spec.History Spec.Contract Spec.Named Spec.Callback Spec.World Spec.Earth Spec.FirstUse
  Proofs.Demo Proofs.Invariant Proofs.Scalars Proofs.BlockDiag Proofs.GpsCallback Proofs.World Proofs.StationaryFinals Proofs.RosFinals Proofs.FirstGps Proofs.FirstDemo.
Import ListNotations.
Open Scope nat_scope.

Definition used_par : GpsParams := mkGP true 1 v0 (mkV3 1 1 1).
Definition used_events : list event := [ENewGps used_par; EMsg (MGps 1 5 (mkV3 0 0 1) (midm 3 3))].

Section Used.
Variable svd : m2 -> m2 * m2.
Variable hull : list (Z * Z) -> list (Z * Z).
Variable ecef_to_lla : V3 -> V3.
Variable mat_quat : mat R -> quat.
Variable solve : mat R -> V3 -> V3.

Lemma used_gen : forall w, winv w -> w_sensors w = [] -> n_sensors (w_cnt w) = 0 -> p_fej (e_par (w_ekf w)) = true ->
  e_lla_init (w_ekf w) = true -> on_globe (e_pos_e_in_g (w_ekf w)) ->
  events_ok svd hull ecef_to_lla mat_quat solve w used_events /\
  exists w' u, wrun svd hull ecef_to_lla mat_quat solve w used_events = OK w' /\ p_fej (e_par (w_ekf w')) = true /\
    mfind 1 (w_sensors w') = Some (SGps u) /\ gu_first u = false.
Proof.
  intros w HW HS HC HJ HL HG.
  assert (PO : gps_params_ok used_par) by (intros _; cbn; lra).
  assert (NO : forall root, noise_ok root 3 (midm 3 3)).
  { intros root. apply (diag_noise_ok _ _ _ (fun _ => 1%R)); [reflexivity|reflexivity|intros; lra|]. intros a b Ha Hb. reflexivity. }
  split.
  { cbn [events_ok used_events]. split; [exact PO|]. intros w' _. split; [|auto]. exact (NO _). }
  destruct (gps_new_inv w used_par HW PO) as [q [E [I1 F1]]]. pose proof E as E0.
  unfold gps_new, new_sensor_id in E. rewrite HC in E.
  destruct (RegisterGPS _ _ _ _) as [e1|] eqn:ER; [|discriminate]. cbn [bind] in E. injection E as <-.
  unfold frame' in F1. cbn in F1.
  set (w1 := install w _) in *.
  assert (FS : mfind 1 (w_sensors w1) = Some (SGps (gps_updater_init 1 true))) by (unfold w1; cbn [install w_sensors]; rewrite HS; reflexivity).
  pose proof (wi_known _ I1 _ _ FS) as KN. cbn [known] in KN. destruct KN as [KN1 KN2].
  assert (EE : w_ekf w1 = e1) by reflexivity. rewrite EE in *.
  assert (P1 : e_par e1 = e_par (w_ekf w)) by (decompose [and] F1; congruence).
  assert (L1 : e_lla_init e1 = e_lla_init (w_ekf w)) by (decompose [and] F1; congruence).
  assert (G1 : e_pos_e_in_g e1 = e_pos_e_in_g (w_ekf w)) by (decompose [and] F1; congruence).
  assert (R1 : reachable e1) by exact (wi_reach _ I1).
  destruct (gps_total svd hull ecef_to_lla (gps_updater_init 1 true) e1 5 (mkV3 0 0 1) (midm 3 3) R1 KN2 (NO _)) as [u' [e' EU]].
  { unfold on_globe. cbn. lra. }
  { rewrite L1, HL, G1. exact HG. }
  destruct (gps_first svd hull ecef_to_lla (gps_updater_init 1 true) e1 5 (mkV3 0 0 1) (midm 3 3) u' e' R1) as [e2 [q2 [H [d [_ [_ [U _]]]]]]];
    [congruence|exact KN2|apply NO|congruence|exact EU|].
  exists (mkWorld e' (w_cnt w1) (mset 1 (SGps u') (w_sensors w1))), u'.
  assert (ED : deliver svd hull ecef_to_lla mat_quat solve w1 (MGps 1 5 (mkV3 0 0 1) (midm 3 3)) = OK (mkWorld e' (w_cnt w1) (mset 1 (SGps u') (w_sensors w1)))).
  { unfold deliver. cbn [msg_id]. rewrite FS. rewrite EE, EU. reflexivity. }
  split. { unfold used_events. cbn [wrun wstep]. rewrite E0. cbn [bind]. fold w1. rewrite ED. reflexivity. }
  split.
  { rewrite <- HJ, <- P1. f_equal. apply (wstep_par svd hull ecef_to_lla mat_quat solve w1 (EMsg (MGps 1 5 (mkV3 0 0 1) (midm 3 3)))); [exact I1|exact (NO _)|exact ED]. }
  split; [cbn [w_sensors]; rewrite mfind_mset_eq; reflexivity|]. rewrite U. reflexivity.
Qed.

Lemma used_case : exists w u, lived svd hull ecef_to_lla mat_quat solve w /\ p_fej (e_par (w_ekf w)) = true /\
  mfind 1 (w_sensors w) = Some (SGps u) /\ gu_first u = false.
Proof.
  pose proof (lived_init svd hull ecef_to_lla mat_quat solve first_par demo_noise v0 0 demo_noise_arg) as L0.
  destruct (used_gen (world_init first0)) as [O [w [u [E [J [F U]]]]]]; try reflexivity.
  - apply (lived_winv svd hull ecef_to_lla mat_quat solve). exact L0.
  - unfold on_globe. cbn. lra.
  - exists w, u. split; [|auto]. exists first_par, demo_noise, v0, 0%R, used_events. split; [exact demo_noise_arg|]. split; [exact O|exact E].
Qed.
End Used.
