(** The number of error states, counted. *)
From Coq Require Import Reals List Arith Bool Lia.
From Verif Require Import Base.Res Base.Mat Base.AMap Base.LinAlg
  Model.TypeHelper Model.Types Model.Ekf Model.Ops
  Spec.Layout Spec.History Spec.Contract Spec.Named
  Proofs.Refresh Proofs.Wf Proofs.Register Proofs.Augment Proofs.Invariant Proofs.LayoutNoDup Proofs.Named.
Import ListNotations.
Open Scope nat_scope.

Lemma flat_imu_count : forall m, length (flat_map imu_labels m) =
  6 * length (filter (fun x => i_ext (snd x)) m) + 6 * length (filter (fun x => i_int (snd x)) m).
Proof.
  induction m as [|x t IH]; [reflexivity|]. cbn [flat_map filter]. rewrite app_length, IH. unfold imu_labels, six.
  destruct (i_ext (snd x)), (i_int (snd x)); rewrite ?app_length, ?map_length, ?seq_length; cbn [length app]; lia.
Qed.
Lemma flat_gps_count : forall m, length (flat_map gps_labels m) = 3 * length (filter (fun x => g_ext (snd x)) m).
Proof.
  induction m as [|x t IH]; [reflexivity|]. cbn [flat_map filter]. rewrite app_length, IH. unfold gps_labels, three.
  destruct (g_ext (snd x)); rewrite ?map_length, ?seq_length; cbn [length]; lia.
Qed.
Lemma flat_cam_count : forall m, length (flat_map cam_labels m) = 6 * length (filter (fun x => c_ext (snd x)) m).
Proof.
  induction m as [|x t IH]; [reflexivity|]. cbn [flat_map filter]. rewrite app_length, IH. unfold cam_labels, six.
  destruct (c_ext (snd x)); rewrite ?map_length, ?seq_length; cbn [length]; lia.
Qed.
Lemma flat_fid_count : forall m, length (flat_map fid_labels m) = 6 * length (filter (fun x => f_ext (snd x)) m).
Proof.
  induction m as [|x t IH]; [reflexivity|]. cbn [flat_map filter]. rewrite app_length, IH. unfold fid_labels, six.
  destruct (f_ext (snd x)); rewrite ?map_length, ?seq_length; cbn [length]; lia.
Qed.
Lemma flat_six : forall (f : nat -> nat -> label) l, length (flat_map (fun p => six (f p)) l) = 6 * length l.
Proof.
  intros f. induction l as [|p t IH]; [reflexivity|]. cbn [flat_map]. rewrite app_length, IH. unfold six.
  rewrite map_length, seq_length. cbn [length]. lia.
Qed.
Lemma flat_aug_count : forall m : amap (list AugState), length (flat_map aug_labels m) = 6 * length (flat_map snd m).
Proof.
  induction m as [|x t IH]; [reflexivity|]. cbn [flat_map]. rewrite !app_length, IH. unfold aug_labels.
  rewrite flat_six, seq_length. lia.
Qed.

Lemma dim_count : forall s, dim s = count_states s.
Proof.
  intros s. unfold dim, layout, count_states. rewrite !app_length, map_length, seq_length.
  rewrite flat_imu_count, flat_gps_count, flat_cam_count, flat_fid_count, flat_aug_count. lia.
Qed.

Lemma dims_ok : forall e, inv e ->
  nr (e_cov e) = e_size e /\ nc (e_cov e) = e_size e /\ nr (e_Q e) = e_size e /\ nc (e_Q e) = e_size e /\
  e_size e = count_states (e_state e).
Proof.
  intros e [W _]. pose proof (dim_size e W) as D. rewrite dim_count in D.
  destruct W as [? ? W3 W4 W5 W6 ?]. auto.
Qed.

Lemma run_dims : forall p q pe a l, noise_arg q -> respects (EKF_init p q pe a) l ->
  exists e, run (EKF_init p q pe a) l = OK e /\
    nr (e_cov e) = e_size e /\ nc (e_cov e) = e_size e /\ nr (e_Q e) = e_size e /\ nc (e_Q e) = e_size e /\
    e_size e = count_states (e_state e).
Proof.
  intros p q pe a l Hq Hl. destruct (run_inv l _ (init_inv p q pe a Hq) Hl) as [e [E I]].
  exists e. split; [exact E|]. apply dims_ok. exact I.
Qed.

Lemma partition_ok : forall e, reachable e ->
  index_fields_correct (e_state e) /\ NoDup (layout (e_state e)) /\ length (layout (e_state e)) = e_size e.
Proof.
  intros e Hr. pose proof (reachable_inv e Hr) as I. destruct I as [W G].
  split; [|split].
  - apply indexed_correct. apply W.
  - apply layout_NoDup. apply (pre_sorted _ (wf_pre _ W)).
  - apply (dim_size e W).
Qed.
