(** The noise that the simulation adds and the noise it announces. *)
From Coq Require Import Reals List Arith Bool Lia Lra.
From Verif Require Import Base.Res Base.Mat Base.RDec Base.RSum Base.LinAlg Base.Inverse Base.Geom Base.AMap Base.RMat
  Model.TypeHelper Model.Types Model.MathHelper Model.Matrix3 Model.GpsHelper Model.GpsUpdater Model.FiducialUpdater Model.MathHelperMat Model.Ekf Model.Updater Model.Ops
  Model.Sensors Model.MsckfUpdater Model.Trackers Model.TruthEngine Model.SimSensors Model.SimMain
  Spec.Layout Spec.Earth Spec.Named Spec.Chance Spec.SimNoise Proofs.GpsFrames Proofs.Chance Proofs.ChanceExists Proofs.ZeroStep Proofs.Towards Spec.Tracks Proofs.SimTracks.
Import ListNotations.
Open Scope R_scope.

Lemma coord_vadd : forall i u v, coord i (vadd u v) = coord i u + coord i v.
Proof. intros [|[|i]] u v; reflexivity. Qed.

Section Law.
Context {A : Type}.
Variable L : law A.
Hypothesis W : chances L.

Lemma mean_const : forall c, mean L (fun _ => c) = c.
Proof.
  intros c. rewrite (mean_ext L _ (fun a => c * (fun _ => 1) a)) by (intros; ring). rewrite (mean_scal L c (fun _ => 1)), (proj2 W). ring.
Qed.
Lemma spread_const : forall c g, spread L (fun _ => c) g = 0.
Proof. intros c g. unfold spread. rewrite mean_const. rewrite (mean_ext L _ (fun _ => 0)) by (intros; ring). apply mean_zero. Qed.
Lemma shifted : forall v f m C, centred L f m -> scattered L f C ->
  centred L (fun a => vadd v (f a)) (vadd v m) /\ scattered L (fun a => vadd v (f a)) C.
Proof.
  intros v f m C HM HS. split.
  - intros i Hi. rewrite (mean_ext L _ (fun a => coord i v + coord i (f a))) by (intros; apply coord_vadd).
    rewrite (mean_plus L (fun _ => coord i v)), mean_const, (HM i Hi), coord_vadd. reflexivity.
  - intros i j Hi Hj. rewrite (spread_ext L _ (fun a => coord i v + coord i (f a)) _ (fun a => coord j v + coord j (f a))) by (intros; apply coord_vadd).
    rewrite (spread_plus_l L (fun _ => coord i v)), !(spread_plus_r L _ (fun _ => coord j v)), !spread_const, (spread_sym L _ (fun _ => coord j v)), spread_const.
    rewrite (HS i j Hi Hj). ring.
Qed.
Lemma scattered_ext : forall f C C', (forall i j, (i < 3)%nat -> (j < 3)%nat -> C i j = C' i j) -> scattered L f C -> scattered L f C'.
Proof. intros f C C' E H i j Hi Hj. rewrite <- E by assumption. apply H; assumption. Qed.
Lemma announced : forall d i j, (i < 3)%nat -> (j < 3)%nat -> squares d i j = ent (square_diag d) i j.
Proof.
  intros d i j Hi Hj. unfold squares, square_diag, mdiag, v3mat. cbn [ent].
  destruct i as [|[|[|i]]]; try lia; destruct j as [|[|[|j]]]; try lia; reflexivity.
Qed.

Lemma imu_noise_said : forall t id ae we vr vr0 time acc0 omg0 ab ob, proper_draws L vr ->
  sim_imu_measure t id true ae we vr0 time = OK (acc0, omg0) ->
  GetImuAccelerometerBias t id = OK ab -> GetImuGyroscopeBias t id = OK ob ->
  exists acc omg Ca Cw, (forall a, sim_imu_message t id false ae we (vr a) time = OK (MImu id time (acc a) Ca (omg a) Cw)) /\
    centred L acc (vadd acc0 ab) /\ scattered L acc (ent Ca) /\ centred L omg (vadd omg0 ob) /\ scattered L omg (ent Cw).
Proof.
  intros t id ae we vr vr0 time acc0 omg0 ab ob D E A1 A2.
  exists (fun a => vadd acc0 (vr a ab ae)), (fun a => vadd omg0 (vr a ob we)), (square_diag ae), (square_diag we).
  split.
  - intros a. unfold sim_imu_message. unfold sim_imu_measure in *.
    destruct (bt_acc (tr_body t) time); [|discriminate]. cbn [bind] in *. destruct (bt_ang (tr_body t) time); [|discriminate]. cbn [bind] in *.
    destruct (bt_rate (tr_body t) time); [|discriminate]. cbn [bind] in *. destruct (bt_ang_acc (tr_body t) time); [|discriminate]. cbn [bind] in *.
    destruct (GetImuPosition t id); [|discriminate]. cbn [bind] in *. destruct (GetImuAngularPosition t id); [|discriminate]. cbn [bind] in *.
    rewrite A1, A2 in *. cbn [bind] in *. cbv zeta in *. injection E as <- <-. reflexivity.
  - destruct (D ab ae) as [M1 S1], (D ob we) as [M2 S2].
    destruct (shifted acc0 _ _ _ M1 S1) as [M1' S1'], (shifted omg0 _ _ _ M2 S2) as [M2' S2'].
    split; [exact M1'|]. split; [eapply scattered_ext; [|exact S1']; apply announced|]. split; [exact M2'|]. eapply scattered_ext; [|exact S2']. apply announced.
Qed.

(** The coordinates are defined wherever the reference is on the globe. *)
Lemma enu_lla_ok : forall f v ref, on_globe ref -> exists q, enu_to_ecef v ref = OK q /\ enu_to_lla f v ref = OK (f q).
Proof.
  intros f v ref G. unfold enu_to_lla, enu_to_ecef. destruct (lla_ok ref G) as [r ->]. cbn [bind]. eexists. split; reflexivity.
Qed.
Lemma gps_noise_said : forall ecef_to_lla t id le vr time p q r h, proper_draws L vr ->
  bt_pos (tr_body t) time = OK p -> bt_ang (tr_body t) time = OK q -> GetGpsPosition t id = OK r -> GetLocalHeading t = OK h ->
  on_globe (GetLocalPosition t) ->
  (forall a x, enu_to_ecef (local_to_enu (vadd (vadd p (qrot q r)) (vr a v0 le)) h) (GetLocalPosition t) = OK x -> lla_to_ecef (ecef_to_lla x) = OK x) ->
  exists lla placed C, (forall a, sim_gps_message ecef_to_lla t id false le (vr a) time = OK (MGps id time (lla a) C) /\
      exists e, lla_to_enu (lla a) (GetLocalPosition t) = OK e /\ enu_to_local e h = placed a) /\
    centred L placed (vadd p (qrot q r)) /\ scattered L placed (ent C).
Proof.
  intros f t id le vr time p q r h D T1 T2 G1 H1 G F.
  set (x0 := vadd p (qrot q r)) in *. set (x := fun a => vadd x0 (vr a v0 le)).
  exists (fun a => match enu_to_lla f (local_to_enu (x a) h) (GetLocalPosition t) with OK l => l | UB => v0 end), x, (square_diag le).
  split.
  - intros a. destruct (enu_lla_ok f (local_to_enu (x a) h) (GetLocalPosition t) G) as [e [E1 E2]]. rewrite E2. split.
    + unfold sim_gps_message. rewrite T1, T2, G1, H1. cbn [bind]. fold x0. fold (x a). rewrite E2. reflexivity.
    + exists (local_to_enu (x a) h). unfold lla_to_enu. rewrite (F a e E1). cbn [bind]. split; [apply ecef_enu_roundtrip; exact E1|].
      apply (proj1 (local_roundtrip _ _)).
  - destruct (D v0 le) as [M S]. destruct (shifted x0 _ _ _ M S) as [M' S']. split.
    + intros i Hi. change (mean L (fun a => coord i (vadd x0 (vr a v0 le))) = coord i x0). rewrite (M' i Hi), coord_vadd. destruct i as [|[|i]]; cbn; ring.
    + eapply scattered_ext; [|exact S']. apply announced.
Qed.

(** *** Boards *)
Lemma board_scatter : forall t id cam te re vr vr0 (qr : A -> V3) qr0 time b, proper_draws L vr ->
  sim_board_message t id cam true te re vr0 qr0 time = OK b ->
  exists d, (forall a, sim_board_message t id cam false te re (vr a) (qr a) time = OK (d a) /\ bd_pos_error (d a) = te /\ bd_ang_error (d a) = re /\
      bd_ang (d a) = QuatNormRand (qr a) (bd_ang b)) /\
    centred L (fun a => bd_pos (d a)) (bd_pos b) /\ scattered L (fun a => bd_pos (d a)) (squares te).
Proof.
  intros t id cam te re vr vr0 qr qr0 time b D E.
  exists (fun a => mkBoard (vr a (bd_pos b) te) (QuatNormRand (qr a) (bd_ang b)) te re). split.
  - intros a. split; [|auto]. unfold sim_board_message in *. 
    destruct (GetBoardPosition t id); [|discriminate]. cbn [bind] in *. destruct (GetBoardOrientation t id); [|discriminate]. cbn [bind] in *.
    destruct (bt_pos (tr_body t) time); [|discriminate]. cbn [bind] in *. destruct (bt_ang (tr_body t) time); [|discriminate]. cbn [bind] in *.
    destruct (GetCameraPosition t cam); [|discriminate]. cbn [bind] in *. destruct (GetCameraAngularPosition t cam); [|discriminate]. cbn [bind] in *.
    cbv zeta in *. injection E as <-. reflexivity.
  - cbn [bd_pos]. apply D.
Qed.

(** *** Turns *)
Lemma mean_le : forall f g, (forall a, f a <= g a) -> mean L f <= mean L g.
Proof.
  destruct W as [W' _]. intros f g H. clear W. revert W'. induction L as [|[w a] t IH]; intros W'; cbn; [lra|].
  assert (0 <= w) by (apply (W' w a); left; reflexivity). specialize (H a). assert (w * f a <= w * g a) by (apply Rmult_le_compat_l; assumption).
  assert (mean t f <= mean t g) by (apply IH; intros; eapply W'; right; eassumption). lra.
Qed.
Lemma mean_lt : forall f g w0 a0, (forall a, f a <= g a) -> In (w0, a0) L -> 0 < w0 -> f a0 < g a0 -> mean L f < mean L g.
Proof.
  destruct W as [W' _]. intros f g w0 a0 H I P Q. clear W. revert W' I. induction L as [|[w a] t IH]; intros W' I; [destruct I|]. cbn.
  assert (Hw : 0 <= w) by (apply (W' w a); left; reflexivity). assert (HH : w * f a <= w * g a) by (apply Rmult_le_compat_l; [exact Hw|apply H]).
  assert (Wt : forall w a, In (w, a) t -> 0 <= w) by (intros; eapply W'; right; eassumption).
  destruct I as [I|I].
  - injection I as <- <-. assert (w * f a < w * g a) by (apply Rmult_lt_compat_l; assumption).
    assert (mean t f <= mean t g). { clear -H Wt. induction t as [|[w' b] t IH]; cbn; [lra|]. assert (0 <= w') by (apply (Wt w' b); left; reflexivity).
      specialize (H b) as Hb. assert (w' * f b <= w' * g b) by (apply Rmult_le_compat_l; assumption).
      assert (mean t f <= mean t g) by (apply IH; intros; eapply Wt; right; eassumption). lra. }
    lra.
  - specialize (IH Wt I). lra.
Qed.
Definition capped (v : V3) : V3 := mkV3 (Rmin (vx v) (PI / 2)) (Rmin (vy v) (PI / 2)) (Rmin (vz v) (PI / 2)).
Lemma coord_capped : forall i v, coord i (capped v) = Rmin (coord i v) (PI / 2).
Proof. intros [|[|i]] v; reflexivity. Qed.
Lemma turns : forall (qr : A -> V3) (m : quat) i, (i < 3)%nat -> mean L (fun a => coord i (qr a)) = 0 ->
  exists turn, (forall a, QuatNormRand (qr a) m = qmul (RotVecToQuat (turn a)) m) /\
    (forall a, coord i (qr a) <= PI / 2 -> coord i (turn a) = coord i (qr a)) /\
    (forall a, PI / 2 <= coord i (qr a) -> coord i (turn a) = PI / 2) /\
    mean L (fun a => coord i (turn a)) <= 0 /\
    ((exists w a, In (w, a) L /\ 0 < w /\ PI / 2 < coord i (qr a)) -> mean L (fun a => coord i (turn a)) < 0).
Proof.
  intros qr m i Hi M. exists (fun a => capped (qr a)). split; [reflexivity|].
  split; [intros a H; rewrite coord_capped; apply Rmin_left; exact H|].
  split; [intros a H; rewrite coord_capped; apply Rmin_right; exact H|].
  assert (LE : forall a, coord i (capped (qr a)) <= coord i (qr a)) by (intros a; rewrite coord_capped; apply Rmin_l).
  split; [rewrite <- M; apply mean_le; exact LE|].
  intros (w & a & I & P & Q). rewrite <- M. apply (mean_lt _ _ w a LE I P). rewrite coord_capped, Rmin_right by lra. exact Q.
Qed.

(** *** The start *)
Lemma start_noise : forall (c : A -> sim_cfg) p d, proper_draws L (fun a => sc_vec (c a)) ->
  (forall a, sc_pos (c a) = p /\ sc_pos_error (c a) = d) ->
  let e a := Initialize (EKF_init (sim_params (c a)) (sc_noise (c a)) (sc_ref (c a)) (sc_heading (c a))) 0 (initial_state (c a)) in
  centred L (fun a => b_pos (s_body (e_state (e a)))) p /\ scattered L (fun a => b_pos (s_body (e_state (e a)))) (squares d) /\
  forall a, p_root (sc_par (c a)) = false ->
    ((forall i j, (i < 3)%nat -> (j < 3)%nat -> covariance (e a) i j = squares d i j) <-> forall i, (i < 3)%nat -> Rabs (coord i d) = 1 / 10).
Proof.
  intros c p d D H e. split; [|split].
  - intros i Hi. rewrite (mean_ext L _ (fun a => coord i (sc_vec (c a) p d))).
    + apply (D p d). exact Hi.
    + intros a. destruct (H a) as [H1 H2]. unfold e, Initialize, initial_state. cbn. rewrite H1, H2. reflexivity.
  - intros i j Hi Hj. rewrite (spread_ext L _ (fun a => coord i (sc_vec (c a) p d)) _ (fun a => coord j (sc_vec (c a) p d))).
    + apply (proj2 (D p d)); assumption.
    + intros a. destruct (H a) as [H1 H2]. unfold e, Initialize, initial_state. cbn. rewrite H1, H2. reflexivity.
    + intros a. destruct (H a) as [H1 H2]. unfold e, Initialize, initial_state. cbn. rewrite H1, H2. reflexivity.
  - intros a RT. assert (RT' : p_root (sim_params (c a)) = false) by (unfold sim_params; destruct (sc_trackers (c a)); exact RT).
    assert (C : forall i j, covariance (e a) i j = if (i =? j)%nat then 1 / 100 else 0).
    { intros i j. unfold covariance, stands_for, e, Initialize, EKF_init. cbn. rewrite RT'. cbn. unfold mscal, idm. destruct (i =? j)%nat; ring. }
    split.
    + intros E i Hi. specialize (E i i Hi Hi). rewrite C in E. unfold squares in E. rewrite Nat.eqb_refl in E.
      set (x := coord i d) in *. pose proof (Rabs_pos x) as P. assert (Q : Rabs x * Rabs x = 1 / 10 * (1 / 10)).
      { rewrite <- Rabs_mult, Rabs_pos_eq; [lra|rewrite <- E; lra]. }
      assert (Z : (Rabs x - 1 / 10) * (Rabs x + 1 / 10) = 0) by lra. apply Rmult_integral in Z. destruct Z; lra.
    + intros E i j Hi Hj. rewrite C. unfold squares. destruct (Nat.eqb_spec i j) as [<-|]; [|reflexivity]. specialize (E i Hi).
      assert (Q : coord i d * coord i d = Rabs (coord i d) * Rabs (coord i d)).
      { rewrite <- Rabs_mult. symmetry. apply Rabs_pos_eq. apply Rle_0_sqr. }
      rewrite Q, E. lra.
Qed.
End Law.

(** *** What the filter is told about a board *)
Lemma board_told : forall mat_quat u e time b u' e', fid_UpdateEKF mat_quat u e time b = OK (u', e') ->
  exists e1 H r N, KalmanUpdate e1 H r N = OK e' /\
    forall i j, (i < 6)%nat -> (j < 6)%nat -> ent N i j = told_board (bd_pos_error b) (bd_ang_error b) i j.
Proof.
  intros mq u e time b u' e' E. unfold fid_UpdateEKF in E. destruct (CalculateLocalTime e time) as [lt e0]. opn E.
  opn E. destruct x0 as [[[pp ap] u1] e2]. opn E. destruct x0 as [[jac u2] e3]. opn E. opn E. injection E as _ <-.
  eexists. exists jac. eexists. exists x0. split; [exact B3|].
  unfold board_noise in B2. opn B2. apply sb_inv in B4, B2. destruct B4 as [_ [_ [_ [_ T1]]]], B2 as [_ [_ [_ [_ T2]]]].
  intros i j Hi Hj. rewrite T2, T1. unfold in_range, told_board.
  assert (D : forall v a c, (a < 3)%nat -> (c < 3)%nat -> ent (mdiag (v3mat v)) a c = if (a =? c)%nat then coord a v else 0).
  { intros v a c Ha Hc. unfold mdiag, v3mat, diagm. cbn [ent]. destruct (Nat.eqb_spec a c) as [->|]; [|reflexivity].
    destruct c as [|[|[|c]]]; cbn; try reflexivity; lia. }
  destruct (Nat.leb_spec 3 i), (Nat.leb_spec 3 j), (Nat.ltb_spec i (3 + 3)), (Nat.ltb_spec j (3 + 3)); try lia; cbn [andb].
  - rewrite D by lia. rewrite (proj2 (Nat.ltb_ge i 3)) by lia. destruct (Nat.eqb_spec (i - 3) (j - 3)), (Nat.eqb_spec i j); try lia; reflexivity.
  - rewrite (proj2 (Nat.ltb_ge i (0 + 3))) by lia. rewrite andb_false_r. cbn [andb].
    rewrite (proj2 (Nat.eqb_neq i j)) by lia. reflexivity.
  - rewrite (proj2 (Nat.ltb_ge j (0 + 3))) by lia. rewrite !andb_false_r. rewrite (proj2 (Nat.eqb_neq i j)) by lia. reflexivity.
  - rewrite (proj2 (Nat.ltb_lt i (0 + 3))), (proj2 (Nat.ltb_lt j (0 + 3))), (proj2 (Nat.ltb_lt i 3)) by lia. cbn [Nat.leb andb]. rewrite !Nat.sub_0_r.
    apply D; lia.
Qed.
Lemma told_right : forall d i, coord i d = squares d i i <-> coord i d = 0 \/ coord i d = 1.
Proof.
  intros d i. unfold squares. rewrite Nat.eqb_refl. set (x := coord i d). split; [|intros [->| ->]; ring].
  intros E. assert (Z : x * (x - 1) = 0) by lra. apply Rmult_integral in Z. destruct Z; [left; lra|right; lra].
Qed.
Lemma told_more : forall d i, 0 <= coord i d -> (squares d i i <= coord i d <-> coord i d <= 1).
Proof.
  intros d i P. unfold squares. rewrite Nat.eqb_refl. set (x := coord i d) in *. split; intros H; [|nra].
  destruct (Rle_lt_dec x 1) as [|G]; [assumption|]. nra.
Qed.

(** *** Draws exist *)
Definition coin_draws (a : outcome) (m d : V3) : V3 :=
  mkV3 (vx m + vx d * coin 3 0 a) (vy m + vy d * coin 3 1 a) (vz m + vz d * coin 3 2 a).
Lemma coin_coord : forall i a m d, (i < 3)%nat -> coord i (coin_draws a m d) = coord i m + coord i d * coin 3 i a.
Proof. intros [|[|[|i]]] a m d H; try reflexivity. lia. Qed.
Lemma coin_proper : proper_draws (coins 3) coin_draws.
Proof.
  pose proof (coins_chances 3 ltac:(lia)) as W. intros m d. split.
  - intros i Hi. rewrite (mean_ext _ _ (fun a => coord i m + coord i d * coin 3 i a)) by (intros a; apply coin_coord; exact Hi).
    rewrite (mean_plus _ (fun _ => coord i m) (fun a => coord i d * coin 3 i a)), (mean_const _ W), (mean_scal _ (coord i d) (coin 3 i)), coin_mean. ring.
  - intros i j Hi Hj. rewrite (spread_ext _ _ (fun a => coord i m + coord i d * coin 3 i a) _ (fun a => coord j m + coord j d * coin 3 j a)) by (intros a; apply coin_coord; assumption).
    rewrite (spread_plus_l _ (fun _ => coord i m)), !(spread_plus_r _ _ (fun _ => coord j m)), !(spread_const _ W), (spread_sym _ _ (fun _ => coord j m)), (spread_const _ W).
    rewrite (spread_scal_l _ (coord i d) (coin 3 i)), (spread_scal_r _ (coord j d) _ (coin 3 j)), coin_spread by assumption.
    unfold squares. destruct (Nat.eqb_spec i j) as [->|]; ring.
Qed.

(** *** Pixels *)
Lemma c_round_near : forall x, Rabs (c_round x - x) <= 1 / 2.
Proof.
  intros x. unfold c_round. destruct (Rltb x 0).
  - destruct (base_Int_part (- x + 1 / 2)) as [H1 H2]. apply Rabs_le. lra.
  - destruct (base_Int_part (x + 1 / 2)) as [H1 H2]. apply Rabs_le. lra.
Qed.
Lemma pixel_near : forall mn mx count ne f l, Tracks.grown f -> Tracks.ascending (map sf_frame l) ->
  forall outs s' f', sim_run (sim_tracker_new mn mx count ne) f l = OK (outs, s', f') ->
  forall T p, In T (concat outs) -> In p (ft_track T) -> exists x pos,
  In x l /\ ft_true T = Some pos /\ fp_frame p = sf_frame x /\
  let px := vw_project (sf_view x) pos in
  Rabs (kp_x (fp_kp p) - fst px) <= 1 / 2 /\ Rabs (kp_y (fp_kp p) - snd px) <= 1 / 2 /\
  forall px_error, (kp_x (fp_kp p) - fst px) * (kp_x (fp_kp p) - fst px) <= Rmax px_error (1 / 2) * Rmax px_error (1 / 2) /\
    (kp_y (fp_kp p) - snd px) * (kp_y (fp_kp p) - snd px) <= Rmax px_error (1 / 2) * Rmax px_error (1 / 2).
Proof.
  intros mn mx count ne f l G As outs s' f' E T p HT Hp.
  destruct (final_truth mn mx count ne f l G As outs s' f' E T p HT Hp) as (x & pos & H1 & H2 & H3 & _ & _ & _ & K).
  exists x, pos. split; [exact H1|]. split; [exact H2|]. split; [exact H3|]. cbv zeta in *.
  assert (N : Rabs (kp_x (fp_kp p) - fst (vw_project (sf_view x) pos)) <= 1 / 2 /\ Rabs (kp_y (fp_kp p) - snd (vw_project (sf_view x) pos)) <= 1 / 2).
  { destruct (vw_project (sf_view x) pos) as [a b]. cbn [fst snd] in *. destruct ne; injection K as -> ->.
    - split; (replace (_ - _) with 0 by ring; rewrite Rabs_R0; lra).
    - split; apply c_round_near. }
  destruct N as [N1 N2]. split; [exact N1|]. split; [exact N2|]. intros pe.
  assert (S : forall d, Rabs d <= 1 / 2 -> d * d <= Rmax pe (1 / 2) * Rmax pe (1 / 2)).
  { intros d Hd. pose proof (Rmax_r pe (1 / 2)) as M. assert (Q : d * d = Rabs d * Rabs d) by (rewrite <- Rabs_mult; symmetry; apply Rabs_pos_eq, Rle_0_sqr).
    rewrite Q. apply Rmult_le_compat; try apply Rabs_pos; lra. }
  split; apply S; assumption.
Qed.

(** *** A world to measure in *)
Definition still : body_truth :=
  mkBT (fun _ => OK v0) (fun _ => OK v0) (fun _ => OK v0) (fun _ => OK qid) (fun _ => OK v0) (fun _ => OK v0).
Definition spot : V3 := mkV3 39 (-104) 1600.
Definition scene : truth :=
  set_board (set_cam (set_gps (set_imu (set_local (truth_new still 10) spot 0) 1 v0 qid v0 v0) 3 v0) 2 v0 qid default_intrinsics) 4 (mkV3 0 0 2) qid.
Definition upward : V3 -> V3 := fun x => match ecef_to_enu x spot with OK e => mkV3 39 (-104) (1600 + vz e) | UB => v0 end.
Lemma spot_globe : on_globe spot.
Proof. unfold on_globe, spot. cbn. lra. Qed.
Lemma upward_right : forall a s x, enu_to_ecef (local_to_enu (vadd (vadd v0 (qrot qid v0)) (coin_draws a v0 (mkV3 0 0 s))) 0) spot = OK x ->
  lla_to_ecef (upward x) = OK x.
Proof.
  intros a s x E. pose proof (ecef_enu_roundtrip _ _ _ E) as B. unfold upward. rewrite B.
  set (l := local_to_enu _ 0) in *. assert (Z : exists z, l = mkV3 0 0 z).
  { unfold l, local_to_enu, coin_draws, vadd, v0, qrot, qid. cbn. eexists. f_equal; try ring. }
  destruct Z as [z Hz]. rewrite Hz in *. cbn [vz].
  pose proof (vertical (mkV3 39 (-104) (1600 + z)) spot spot_globe eq_refl eq_refl) as V.
  replace (vz (mkV3 39 (-104) (1600 + z)) - vz spot) with z in V by (cbn; ring).
  unfold lla_to_enu in V. destruct (lla_to_ecef (mkV3 39 (-104) (1600 + z))) as [y|] eqn:EY; [|discriminate]. cbn [bind] in V.
  pose proof (enu_ecef_roundtrip _ _ _ V) as Y. rewrite E in Y. injection Y as ->. reflexivity.
Qed.

Lemma imu_case : exists acc0 omg0 ab ob, sim_imu_measure scene 1 true (mkV3 (1 / 100) (1 / 100) (1 / 100)) (mkV3 (1 / 100) (1 / 100) (1 / 100)) (fun _ _ => v0) 0 = OK (acc0, omg0) /\
  GetImuAccelerometerBias scene 1 = OK ab /\ GetImuGyroscopeBias scene 1 = OK ob.
Proof. do 4 eexists. split; [reflexivity|]. split; reflexivity. Qed.
Lemma gps_case : bt_pos (tr_body scene) 0 = OK v0 /\ bt_ang (tr_body scene) 0 = OK qid /\ GetGpsPosition scene 3 = OK v0 /\ GetLocalHeading scene = OK 0 /\
  on_globe (GetLocalPosition scene) /\
  forall a s x, enu_to_ecef (local_to_enu (vadd (vadd v0 (qrot qid v0)) (coin_draws a v0 (mkV3 0 0 s))) 0) (GetLocalPosition scene) = OK x -> lla_to_ecef (upward x) = OK x.
Proof. split; [reflexivity|]. split; [reflexivity|]. split; [reflexivity|]. split; [reflexivity|]. split; [exact spot_globe|exact upward_right]. Qed.
Lemma board_case : forall te re, exists b, sim_board_message scene 4 2 true te re (fun _ _ => v0) v0 0 = OK b.
Proof. intros te re. eexists. reflexivity. Qed.

Lemma board_wrong : exists t id cam te re (vr : outcome -> V3 -> V3 -> V3) (qr : outcome -> V3) time d, proper_draws (coins 3) vr /\
  (forall a, sim_board_message t id cam false te re (vr a) (qr a) time = OK (d a)) /\
  forall a, told_board (bd_pos_error (d a)) (bd_ang_error (d a)) 0 0 <> spread (coins 3) (fun a => vx (bd_pos (d a))) (fun a => vx (bd_pos (d a))).
Proof.
  set (te := mkV3 (1 / 10) (1 / 10) (1 / 10)). destruct (board_case te te) as [b E].
  destruct (board_scatter (coins 3) scene 4 2 te te coin_draws (fun _ _ => v0) (fun _ => v0) v0 0 b coin_proper E) as [d [H [_ S]]].
  exists scene, 4%nat, 2%nat, te, te, coin_draws, (fun _ => v0), 0, d. split; [exact coin_proper|]. split; [intros a; apply H|].
  intros a. destruct (H a) as [_ [-> _]]. specialize (S 0%nat 0%nat ltac:(lia) ltac:(lia)). cbn [coord] in S. rewrite S.
  unfold told_board, squares, te. cbn. lra.
Qed.
Lemma turn_case : exists w a, In (w, a) (coins 1) /\ 0 < w /\ PI / 2 < coord 0 (mkV3 (4 * coin 1 0 a) 0 0) /\
  mean (coins 1) (fun a => coord 0 (mkV3 (4 * coin 1 0 a) 0 0)) = 0.
Proof.
  exists (1 / (2 * INR 1)), (0%nat, true). split; [left; reflexivity|]. split; [cbn; lra|].
  cbn [coord vx]. split.
  - unfold coin. cbn. rewrite sqrt_1. pose proof PI_4. lra.
  - rewrite (mean_scal _ 4 (coin 1 0)), coin_mean. ring.
Qed.
Definition redrawn (c : sim_cfg) (v : V3 -> V3 -> V3) : sim_cfg :=
  mkSC (sc_par c) (sc_noise c) (sc_ref c) (sc_heading c) (sc_pos c) (sc_ang c) (sc_pos_error c) (sc_ref_error c) (sc_heading_error c) (sc_ang_error c)
    (sc_engine c) (sc_max_time c) (sc_log_rate c) (sc_imus c) (sc_trackers c) (sc_boards c) (sc_cams c) (sc_gps c) v (sc_scalar c).
Lemma start_case : forall c, proper_draws (coins 3) (fun a => sc_vec (redrawn c (coin_draws a))) /\
  forall a, sc_pos (redrawn c (coin_draws a)) = sc_pos c /\ sc_pos_error (redrawn c (coin_draws a)) = sc_pos_error c.
Proof. intros c. split; [exact coin_proper|]. intros a. split; reflexivity. Qed.
