(** Reading sensor states. *)
From Coq Require Import Reals List Arith Bool Lia Lra.
From Verif Require Import Base.Res Base.Mat Base.RDec Base.LinAlg Base.Geom Base.AMap Base.RMat
  Model.TypeHelper Model.Types Model.MathHelperMat Model.MsckfUpdater Model.Ekf Model.Updater Model.Ops
  Spec.Layout Spec.History Spec.Contract Spec.Callback Spec.Unused Spec.Same Proofs.Refresh Proofs.Wf Proofs.Register Proofs.Invariant Proofs.Named Proofs.Same
  Proofs.Follows Proofs.MsckfCallback Proofs.Unused Proofs.Noise.
Import ListNotations.
Open Scope nat_scope.

Lemma read_clone : forall e c f t s e', GetAugState e c f t = OK (s, e') -> same_estimates e e'.
Proof.
  intros e c f t s e' H. pose proof (get_aug_same e e c f t (same_refl e)) as G. rewrite H in G. destruct G as [_ [_ G]]. exact G.
Qed.

Lemma touched : forall A (d : A) k m, mfind k m = None -> mfind k (mtouch d k m) = Some d.
Proof. intros A d k m H. unfold mtouch. rewrite H. apply mfind_mset_eq. Qed.

Lemma layout_touch : forall A (f : nat * A -> list label) k d m, f (k, d) = [] -> flat_map f (mtouch d k m) = flat_map f m.
Proof.
  intros A f k d m H. unfold mtouch. destruct (mfind k m) eqn:E; [reflexivity|].
  destruct (mset_fresh _ k d m E) as [l [r [E1 [E2 _]]]]. rewrite E2, E1. rewrite !flat_map_app. cbn [flat_map].
  rewrite H. reflexivity.
Qed.

Lemma phantom_imu : forall e id, mfind id (s_imu (e_state e)) = None -> let e1 := snd (GetImuState e id) in
  fst (GetImuState e id) = default_imu /\ mfind id (s_imu (e_state e1)) = Some default_imu /\
  e_cov e1 = e_cov e /\ layout (e_state e1) = layout (e_state e) /\
  forall st c, RegisterIMU e1 id st c = OK e1.
Proof.
  intros e id H e1. unfold e1, GetImuState. cbn [fst snd].
  split; [unfold mget; rewrite H; reflexivity|]. split; [apply touched; exact H|]. split; [reflexivity|].
  split; [unfold layout; cbn [e_state with_state state_with_imu s_imu s_gps s_cam s_fid s_aug]; rewrite (layout_touch _ imu_labels) by reflexivity; reflexivity|].
  intros st c. apply reg_imu_dup. cbn [e_state with_state state_with_imu s_imu]. rewrite touched by exact H. discriminate.
Qed.
Lemma phantom_gps : forall e id, mfind id (s_gps (e_state e)) = None -> let e1 := snd (GetGpsState e id) in
  fst (GetGpsState e id) = default_gps /\ mfind id (s_gps (e_state e1)) = Some default_gps /\
  e_cov e1 = e_cov e /\ layout (e_state e1) = layout (e_state e) /\
  forall st c, RegisterGPS e1 id st c = OK e1.
Proof.
  intros e id H e1. unfold e1, GetGpsState. cbn [fst snd].
  split; [unfold mget; rewrite H; reflexivity|]. split; [apply touched; exact H|]. split; [reflexivity|].
  split; [unfold layout; cbn [e_state with_state state_with_gps s_imu s_gps s_cam s_fid s_aug]; rewrite (layout_touch _ gps_labels) by reflexivity; reflexivity|].
  intros st c. apply reg_gps_dup. cbn [e_state with_state state_with_gps s_gps]. rewrite touched by exact H. discriminate.
Qed.
Lemma phantom_cam : forall e id, mfind id (s_cam (e_state e)) = None -> let e1 := snd (GetCamState e id) in
  fst (GetCamState e id) = default_cam /\ mfind id (s_cam (e_state e1)) = Some default_cam /\
  e_cov e1 = e_cov e /\ layout (e_state e1) = layout (e_state e) /\
  forall st c, RegisterCamera e1 id st c = OK e1.
Proof.
  intros e id H e1. unfold e1, GetCamState. cbn [fst snd].
  split; [unfold mget; rewrite H; reflexivity|]. split; [apply touched; exact H|]. split; [reflexivity|].
  split; [unfold layout; cbn [e_state with_state state_with_cam s_imu s_gps s_cam s_fid s_aug]; rewrite (layout_touch _ cam_labels) by reflexivity; reflexivity|].
  intros st c. apply reg_cam_dup. cbn [e_state with_state state_with_cam s_cam]. rewrite touched by exact H. discriminate.
Qed.

