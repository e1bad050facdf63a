(** Registering a camera and setting the maximum track length. *)
From Coq Require Import Reals List Arith Bool Lia Lra.
From Verif Require Import Base.Res Base.Mat Base.RDec Base.LinAlg Base.Geom Base.AMap Base.RMat
  Model.TypeHelper Model.Types Model.MathHelperMat Model.Ekf Model.Updater Model.Ops
  Spec.Layout Spec.History Spec.Contract.
Import ListNotations.
Open Scope nat_scope.

Definition trk (n : nat) (d : R) (r : res ekf) : res ekf := match r with OK e => OK (with_tracks e n d) | UB => UB end.

Lemma trk_refresh : forall e n d, RefreshIndices (with_tracks e n d) = trk n d (RefreshIndices e).
Proof.
  intros e n d. unfold RefreshIndices. cbv zeta. cbn [e_state e_size e_bodyQ with_tracks].
  change (is_root (with_tracks e n d)) with (is_root e).
  destruct (set_block _ _ _ _ _ _) as [Q0|]; cbn [bind]; [|reflexivity].
  destruct (refresh_imus _ _ _) as [[[im c1] Q1]|]; cbn [bind]; [|reflexivity].
  destruct (refresh_gpss _ _ _) as [[[gm c2] Q2]|]; cbn [bind]; [|reflexivity].
  destruct (refresh_cams _ _ _) as [[[cm c3] Q3]|]; cbn [bind]; [|reflexivity].
  destruct (refresh_fids _ _ _) as [[[fm c4] Q4]|]; cbn [bind]; [|reflexivity].
  destruct (refresh_augs _ _) as [am c5].
  destruct (if is_root e then _ else _) as [Q5|]; reflexivity.
Qed.

(** Registration, with the track duration left out. *)
Lemma trk_register : forall e n d id st c period, mfind id (s_cam (e_state e)) = None -> rdiv 1 (c_rate st) = OK period ->
  RegisterCamera (with_tracks e n d) id st c =
  trk n (Rmax (e_frame_period e) period * INR (n + 1)) (RegisterCamera e id st c).
Proof.
  intros e n d id st c period F P. unfold RegisterCamera. change (s_cam (e_state (with_tracks e n d))) with (s_cam (e_state e)).
  rewrite F, P. cbn [bind]. cbv zeta.
  cbn [e_primary with_periods with_tracks e_frame_period e_max_len e_min_aug e_imu_size e_gps_size e_cam_size].
  destruct (Nat.eqb (e_primary e) 0).
  all: cbn [e_cov e_size e_cam_size e_state with_state with_primary with_periods with_tracks].
  all: destruct (c_ext st); cbn [bind].
  all: try match goal with |- context [block ?a ?b ?c ?d ?e] => destruct (block a b c d e) as [blk|]; cbn [bind]; [|reflexivity] end.
  all: try match goal with |- context [InsertInMatrix ?a ?b ?c ?d ?e] => destruct (InsertInMatrix a b c d e) as [cc|]; cbn [bind]; [|reflexivity] end.
  all: rewrite <- trk_refresh; reflexivity.
Qed.

Lemma register_periods : forall e id st c e' period, mfind id (s_cam (e_state e)) = None -> rdiv 1 (c_rate st) = OK period ->
  RegisterCamera e id st c = OK e' ->
  e_frame_period e' = Rmax (e_frame_period e) period /\ e_max_len e' = e_max_len e /\
  e_track_dur e' = (Rmax (e_frame_period e) period * INR (e_max_len e + 1))%R.
Proof.
  intros e id st c e' period F P E. unfold RegisterCamera in E. rewrite F, P in E. cbn [bind] in E. cbv zeta in E.
  assert (X : forall e0 e1, RefreshIndices e0 = OK e1 -> e_frame_period e1 = e_frame_period e0 /\ e_max_len e1 = e_max_len e0 /\ e_track_dur e1 = e_track_dur e0).
  { intros e0 e1 H. unfold RefreshIndices in H. cbv zeta in H. destruct (set_block _ _ _ _ _ _) as [Q0|]; cbn [bind] in H; [|discriminate].
    destruct (refresh_imus _ _ _) as [[[im c1] Q1]|]; cbn [bind] in H; [|discriminate].
    destruct (refresh_gpss _ _ _) as [[[gm c2] Q2]|]; cbn [bind] in H; [|discriminate].
    destruct (refresh_cams _ _ _) as [[[cm c3] Q3]|]; cbn [bind] in H; [|discriminate].
    destruct (refresh_fids _ _ _) as [[[fm c4] Q4]|]; cbn [bind] in H; [|discriminate].
    destruct (refresh_augs _ _) as [am c5].
    destruct (if is_root e0 then _ else _) as [Q5|]; cbn [bind] in H; [|discriminate]. injection H as <-. auto. }
  match type of E with bind ?x _ = _ => destruct x as [e1|] eqn:B; cbn [bind] in E; [|discriminate] end.
  destruct (X _ _ E) as (X1 & X2 & X3). rewrite X1, X2, X3. clear E X X1 X2 X3.
  destruct (Nat.eqb _ 0); destruct (c_ext st); cbn [bind] in B.
  all: try match type of B with context [block ?a ?b ?c ?d ?e] => destruct (block a b c d e) as [blk|]; cbn [bind] in B; [|discriminate] end.
  all: try match type of B with context [InsertInMatrix ?a ?b ?c ?d ?e] => destruct (InsertInMatrix a b c d e) as [cc|]; cbn [bind] in B; [|discriminate] end.
  all: injection B as <-; auto.
Qed.

Lemma camera_order : forall e id st c n a b, c_rate st <> 0%R -> mfind id (s_cam (e_state e)) = None ->
  run e [OSetLen n; ORegCam id st c] = OK a -> run e [ORegCam id st c; OSetLen n] = OK b ->
  let fp := Rmax (e_frame_period e) (1 / c_rate st) in
  e_track_dur a = (fp * INR (n + 1))%R /\ e_track_dur b = (fp * INR n)%R /\
  e_max_len a = n /\ e_max_len b = n /\ a = with_tracks b n (fp * INR (n + 1))%R /\
  ((0 < c_rate st)%R -> a <> b).
Proof.
  intros e id st c n a b N F A B fp. cbn [run step] in A, B.
  pose proof (rdiv_ok 1 (c_rate st) N) as P. cbn [bind] in A. unfold SetMaxTrackLength in A at 1.
  rewrite (trk_register e n _ id st c _ F P) in A. destruct (RegisterCamera e id st c) as [e1|] eqn:R; cbn [trk bind] in *; [|discriminate].
  injection A as <-. injection B as <-. destruct (register_periods e id st c e1 _ F P R) as (H1 & H2 & H3).
  cbn [e_track_dur with_tracks SetMaxTrackLength e_max_len]. rewrite H1. fold fp.
  repeat split; try reflexivity. intros HR E. apply (f_equal e_track_dur) in E. cbn [e_track_dur with_tracks SetMaxTrackLength] in E.
  rewrite H1 in E. fold fp in E. rewrite Nat.add_1_r, S_INR in E.
  assert (0 < fp)%R. { unfold fp. eapply Rlt_le_trans; [|apply Rmax_r]. apply Rdiv_lt_0_compat; lra. }
  lra.
Qed.
