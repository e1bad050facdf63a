(** States of which the vector form loses something. *)
From Coq Require Import Reals List Arith Bool Lia Lra.
From Verif Require Import Base.Res Base.Mat Base.RDec Base.LinAlg Base.Geom Base.AMap Base.RMat
  Model.TypeHelper Model.Types Model.Ekf Model.Ops Spec.Layout Spec.History Spec.Contract Spec.Correct Spec.Vector
  Proofs.MatSurgery Proofs.Refresh Proofs.Wf Proofs.Register Proofs.PlusVec Proofs.Invariant Proofs.Demo Proofs.Named Proofs.Sizes
  Proofs.RegRefute Proofs.DemoFilter Proofs.Vector Proofs.VectorBack.
Import ListNotations.
Open Scope nat_scope.

(** *** Sizes of a reachable filter *)
Lemma size_report : forall e, reachable e ->
  e_size e + 6 * window_count (e_state e) = GetStateSize (e_state e) + 6 * clone_count (e_state e) /\
  (GetStateSize (e_state e) = e_size e <-> clone_count (e_state e) = window_count (e_state e)).
Proof.
  intros e Hr. destruct (reachable_inv e Hr) as [W _]. pose proof (pre_size _ (wf_pre _ W)) as P.
  pose proof (tot_clones (e_state e)) as T. rewrite <- P in T. split; [exact T|lia].
Qed.
Lemma vector_of : forall e, reachable e ->
  (length (written (e_state e)) <= GetStateSize (e_state e) ->
     exists v, ToVector (e_state e) = OK v /\ nr v = GetStateSize (e_state e) /\ nc v = 1 /\
       (forall i a, nth_error (written (e_state e)) i = Some a -> ent v i 0 = estimate (e_state e) a) /\
       (forall i, length (written (e_state e)) <= i -> ent v i 0 = 0%R)) /\
  (GetStateSize (e_state e) < length (written (e_state e)) -> ToVector (e_state e) = UB).
Proof.
  intros e Hr. destruct (reachable_inv e Hr) as [W _].
  pose proof (pre_sorted _ (wf_pre _ W)) as HS. pose proof (pre_sizes _ (wf_pre _ W)) as HZ. split; intros H.
  - apply written_ok; assumption.
  - apply written_overflow; assumption.
Qed.
Lemma vector_length : forall e, reachable e ->
  length (written (e_state e)) + 6 * length (filter (fun x => i_int (snd x) && negb (i_ext (snd x))) (s_imu (e_state e))) = e_size e.
Proof.
  intros e Hr. destruct (reachable_inv e Hr) as [W _]. rewrite written_count; [|apply (pre_sorted _ (wf_pre _ W))].
  apply dim_size. exact W.
Qed.

(** Two clones for one camera: 45 reported, 51 needed, and the conversion writes out of bounds. *)
Lemma clones_refuted : exists e, reachable e /\ e_size e = 51 /\ GetStateSize (e_state e) = 45 /\ ToVector (e_state e) = UB.
Proof.
  exists (demo_e AAll false). split; [apply demo_e_reachable|]. split; [apply demo_e_size|].
  assert (G : GetStateSize (e_state (demo_e AAll false)) = 45) by (vm_compute; reflexivity). split; [exact G|].
  apply (vector_of _ (demo_e_reachable AAll false)). rewrite G.
  assert (L : length (written (e_state (demo_e AAll false))) = 51) by (vm_compute; reflexivity). rewrite L. lia.
Qed.

(** An IMU of which only the biases are estimated. *)
Definition biased_imu : ImuState := imu_with_bias (imu_SetIsIntrinsic true default_imu) (mkV3 1 2 3) (mkV3 4 5 6).
Definition biased_cov : mat R := scaled (1/10) 6.
Lemma biased_filter : exists e, reachable e /\ e_size e = 24 /\ clone_count (e_state e) = 0 /\
  GetStateSize (e_state e) = 24 /\ exists x, mfind 1 (s_imu (e_state e)) = Some x /\ i_int x = true /\ i_ext x = false /\
  i_acc_bias x = mkV3 1 2 3 /\ i_index_int x = 18 /\ length (written (e_state e)) = 18.
Proof.
  set (e0 := demo0 ANone false).
  assert (C0 : contract e0 (ORegImu 1 biased_imu biased_cov)).
  { intros _. split; [reflexivity|]. split; [apply scaled_arg; lra|]. pose proof e9_pos. cbn. auto. }
  destruct (step_inv e0 _ (reachable_inv _ (demo0_reachable ANone false)) C0) as [e1 [E1 I1]].
  pose proof (reachable_step _ _ _ (demo0_reachable ANone false) C0 E1) as R1. cbn [step] in E1.
  destruct (RegisterIMU_ok e0 1 biased_imu biased_cov) as [e1' [E1' [_ [S1 [N1 [_ [F1 _]]]]]]];
    [apply (reachable_inv _ (demo0_reachable ANone false))|reflexivity| |].
  { pose proof e9_pos. repeat split; cbn; auto. }
  rewrite E1 in E1'. injection E1' as <-.
  assert (SS : e_size e1 = 24).
  { rewrite (pre_size _ (wf_pre _ (proj1 I1))), S1. reflexivity. }
  exists e1. split; [exact R1|]. split; [exact SS|]. rewrite S1. split; [reflexivity|]. split; [reflexivity|].
  eexists. split; [reflexivity|]. repeat split; reflexivity.
Qed.
Lemma biases_lost : exists e x v s' x', reachable e /\ clone_count (e_state e) = 0 /\ GetStateSize (e_state e) = e_size e /\
  mfind 1 (s_imu (e_state e)) = Some x /\ i_int x = true /\ i_acc_bias x = mkV3 1 2 3 /\
  ToVector (e_state e) = OK v /\ length (written (e_state e)) < nr v /\ SetState (e_state e) v = OK s' /\ mfind 1 (s_imu s') = Some x' /\ i_acc_bias x' = v0.
Proof.
  destruct biased_filter as [e [R [Sz [C [G [x [F [X1 [X2 [X3 [X4 X5]]]]]]]]]]].
  destruct (proj1 (vector_of e R)) as [v [V1 [V2 [V3 [V4 V5]]]]]; [lia|].
  destruct (reachable_inv e R) as [W _].
  exists e, x, v, (assign v (e_state e)), (assign_imu v x).
  split; [exact R|]. split; [exact C|]. split; [congruence|]. split; [exact F|]. split; [exact X1|]. split; [exact X3|].
  split; [exact V1|]. split; [rewrite V2, X5, G; lia|]. split.
  { apply set_ok; [apply W|exact V3|]. rewrite V2. unfold GetStateSize, start_aug, start_fid, start_cam, start_gps.
    change g_body_state_size with 18. lia. }
  split.
  { unfold assign. cbn [s_imu]. rewrite find_map, F. reflexivity. }
  unfold assign_imu. rewrite X2, X1. cbn [i_acc_bias imu_with_bias]. rewrite X4. unfold segv. rewrite !V5 by lia. reflexivity.
Qed.

(** The stand-alone sum over a map of cameras gives the first camera's correction to all of them. *)
Definition two_cams : amap CamState := [(1, demo_cam); (2, demo_cam)].
Lemma cam_map_refuted : exists r m' x, nc r = 1 /\ nr r = 12 /\ (forall i, i < 6 -> ent r i 0 = 0%R) /\ ent r 6 0 = 1%R /\
  cam_map_plus_vec two_cams r = OK m' /\ mfind 2 m' = Some x /\ c_pos x = c_pos demo_cam.
Proof.
  exists (mkmat 12 1 (fun i _ => if i <? 6 then 0%R else 1%R)).
  set (r := mkmat 12 1 (fun i _ => if i <? 6 then 0%R else 1%R)).
  assert (S0 : seg3 r 0 = OK v0) by (rewrite seg3_ok by (cbn; lia); reflexivity).
  assert (S3 : seg3 r 3 = OK v0) by (rewrite seg3_ok by (cbn; lia); reflexivity).
  eexists. eexists. split; [reflexivity|]. split; [reflexivity|]. split.
  { intros i Hi. unfold r. cbn [ent]. rewrite (proj2 (Nat.ltb_lt _ _)) by exact Hi. reflexivity. }
  split; [reflexivity|]. unfold two_cams. cbn [cam_map_plus_vec]. rewrite S0, S3. cbn [bind]. split; [reflexivity|].
  split; [reflexivity|]. cbn [c_pos cam_with_pose]. cbn. unfold v0, vadd. cbn. f_equal; ring.
Qed.

(** A filter that meets the hypotheses of the round trip. *)
Lemma all_canonical_demo : all_canonical (e_state (demo_e ANone false)) /\ no_bias_only (e_state (demo_e ANone false)) /\
  length (written (e_state (demo_e ANone false))) = 39 /\ GetStateSize (e_state (demo_e ANone false)) = 39.
Proof.
  assert (Q : canonical qid).
  { split; [|split; [|left; reflexivity]]; unfold qnorm2, qid; cbn; lra. }
  assert (SI : map (fun x => i_ang (snd x)) (s_imu (e_state (demo_e ANone false))) = [qid] /\
    map (fun x => (i_ext (snd x), i_int (snd x))) (s_imu (e_state (demo_e ANone false))) = [(true, true)] /\
    s_cam (e_state (demo_e ANone false)) = [] /\
    map (fun x => f_ang (snd x)) (s_fid (e_state (demo_e ANone false))) = [qid] /\ b_ang (s_body (e_state (demo_e ANone false))) = qid).
  { vm_compute. auto. }
  destruct SI as [I1 [I2 [I3 [I4 I5]]]].
  split; [split; [rewrite I5; exact Q|split; [|split]]|split; [|split]].
  - intros id x H _. apply mfind_in in H. apply (in_map (fun x => i_ang (snd x))) in H. rewrite I1 in H. cbn in H.
    destruct H as [<-|[]]. exact Q.
  - intros id x H _. rewrite I3 in H. discriminate.
  - intros id x H _. apply mfind_in in H. apply (in_map (fun x => f_ang (snd x))) in H. rewrite I4 in H. cbn in H.
    destruct H as [<-|[]]. exact Q.
  - intros id x H _. apply mfind_in in H. apply (in_map (fun x => (i_ext (snd x), i_int (snd x)))) in H. rewrite I2 in H. cbn in H.
    destruct H as [H|[]]. injection H as H _. auto.
  - vm_compute. reflexivity.
  - vm_compute. reflexivity.
Qed.
