(** The orientation of a detected board, which pushes the attitude the wrong
    way. *)
From Coq Require Import Reals List Arith Bool Lia Lra.
From Verif Require Import Base.Res Base.Mat Base.RDec Base.RSum Base.LinAlg Base.Inverse Base.Geom Base.AMap Base.RMat
  Model.TypeHelper Model.Types Model.MathHelperMat Model.MathHelper Model.Matrix3 Model.Ekf Model.Updater Model.Ops
  Model.ImuUpdater Model.FiducialUpdater Model.EigenQuat
  Spec.Layout Spec.History Spec.Contract Spec.Correct Spec.Named Spec.Same Spec.Callback Spec.KF Spec.Unused Spec.Rotation Spec.AtRest Spec.Towards
  Proofs.Refresh Proofs.Wf Proofs.Register Proofs.Invariant Proofs.Named Proofs.Same Proofs.Update Proofs.Scalars Proofs.Clock Proofs.Effects Proofs.Kalman
  Proofs.Rotations Proofs.CovGood Proofs.Follows Proofs.BlockDiag Proofs.Demo Proofs.RegRefute Proofs.RootForm
  Proofs.ImuCallback Proofs.FidCallback Proofs.Unused Proofs.ZeroStep Proofs.AtRest Proofs.RestLookup Proofs.EigenQuat Proofs.Towards Proofs.TowardsImu.
Import ListNotations.
Open Scope nat_scope.

Definition up : V3 := mkV3 0 0 1.
Lemma up_unit : vnorm2 up = 1%R.
Proof. unfold up, vnorm2, vdot. cbn. ring. Qed.
Definition about (a : R) : quat := angle_axis_quat a up.
Lemma about_unit : forall a, qnorm2 (about a) = 1%R.
Proof. intros a. unfold about, angle_axis_quat, qnorm2, up. cbn [qw qx qy qz vx vy vz]. pose proof (sin2_cos2 (/2 * a)) as H. unfold Rsqr in H. lra. Qed.
Lemma about_mul : forall a b, qmul (about a) (about b) = about (a + b).
Proof.
  intros a b. unfold about, angle_axis_quat, up, qmul. cbn [qw qx qy qz vx vy vz].
  replace (/ 2 * (a + b))%R with (/ 2 * a + / 2 * b)%R by ring. rewrite sin_plus, cos_plus. f_equal; ring.
Qed.
Lemma about_inv : forall a, qinv (about a) = about (- a).
Proof.
  intros a. rewrite qinv_conj by apply about_unit. unfold about, angle_axis_quat, up, qconj. cbn [qw qx qy qz vx vy vz].
  replace (/ 2 * - a)%R with (- (/ 2 * a))%R by ring. rewrite sin_neg, cos_neg. f_equal; ring.
Qed.
Lemma about_0 : about 0 = qid.
Proof. unfold about, angle_axis_quat, up, qid. cbn [vx vy vz]. rewrite Rmult_0_r, sin_0, cos_0. f_equal; ring. Qed.

Lemma about_len : forall a, (Rabs a <= PI)%R -> vnorm (QuatToRotVec (about a)) = Rabs a.
Proof.
  intros a Ha. rewrite rotvec_len by apply about_unit. unfold about. rewrite vnorm_qvec_aaq by apply up_unit.
  unfold angle_axis_quat. cbn [qw].
  assert (B : Rabs (sin (/ 2 * a)) = sin (/ 2 * Rabs a) /\ Rabs (cos (/ 2 * a)) = cos (/ 2 * Rabs a)).
  { assert (C : (0 <= cos (/ 2 * Rabs a))%R) by (apply cos_ge_0; pose proof (Rabs_pos a); lra).
    assert (S : (0 <= sin (/ 2 * Rabs a))%R) by (apply sin_ge_0; pose proof (Rabs_pos a); lra).
    destruct (Rle_or_lt 0 a) as [H|H].
    - rewrite (Rabs_right a) in C, S |- * by lra. split; apply Rabs_right; lra.
    - rewrite (Rabs_left a) in C, S |- * by lra. replace (/ 2 * - a)%R with (- (/ 2 * a))%R in * by ring. rewrite sin_neg, cos_neg in *.
      split; [rewrite <- Rabs_Ropp|]; apply Rabs_right; lra. }
  destruct B as [-> ->]. rewrite <- (Rmult_1_l (sin _)), <- (Rmult_1_l (cos _)).
  rewrite atan2_polar; [lra|pose proof (Rabs_pos a); lra|lra].
Qed.
Lemma about_vec : forall a, (0 < a < PI)%R -> QuatToRotVec (about (- a)) = mkV3 0 0 (- a) /\ QuatToRotVec (opposite (about (- a))) = mkV3 0 0 (- a).
Proof.
  intros a Ha. assert (S : (0 < sin (/ 2 * a))%R) by (apply sin_gt_0; lra). assert (C : (0 < cos (/ 2 * a))%R) by (apply cos_gt_0; lra).
  assert (N : vnorm (qvec (about (- a))) = sin (/ 2 * a)).
  { unfold about. rewrite vnorm_qvec_aaq by apply up_unit. replace (/ 2 * - a)%R with (- (/ 2 * a))%R by ring.
    rewrite sin_neg, Rabs_Ropp. apply Rabs_right; lra. }
  assert (A : (2 * atan2_nn (sin (/ 2 * a)) (cos (/ 2 * a)))%R = a).
  { rewrite <- (Rmult_1_l (sin _)), <- (Rmult_1_l (cos _)). rewrite atan2_polar; lra. }
  assert (W : qw (about (- a)) = cos (/ 2 * a) /\ qvec (about (- a)) = mkV3 0 0 (- sin (/ 2 * a))).
  { unfold about, angle_axis_quat, up, qvec. cbn [qw qx qy qz vx vy vz]. replace (/ 2 * - a)%R with (- (/ 2 * a))%R by ring.
    rewrite sin_neg, cos_neg. split; [reflexivity|]. f_equal; ring. }
  destruct W as [W1 W2].
  assert (W3 : qw (opposite (about (- a))) = (- cos (/ 2 * a))%R /\ qvec (opposite (about (- a))) = mkV3 0 0 (sin (/ 2 * a))).
  { destruct (about (- a)) as [w x y z]. cbn in W1, W2 |- *. unfold qvec in *. cbn in *. injection W2 as -> -> ->. subst w. split; [reflexivity|]. f_equal; ring. }
  destruct W3 as [W3 W4].
  split; unfold QuatToRotVec, quat_angle_axis.
  - rewrite N, (proj2 (Reqb_false _ _)) by lra. rewrite W1, Rltb_ff, Rabs_right, A by lra. rewrite W2. unfold vdiv. cbn [vx vy vz]. f_equal; field; lra.
  - rewrite opp_len, N, (proj2 (Reqb_false _ _)) by lra. rewrite W3, Rltb_true, Rabs_Ropp, Rabs_right, A by lra. rewrite W4. unfold vdiv. cbn [vx vy vz]. f_equal; field; lra.
Qed.

Lemma jacobian_id : forall i j, i < 3 -> j < 3 -> ent (QuaternionJacobian qid) i j = idm i j.
Proof.
  intros i j Hi Hj. unfold QuaternionJacobian. rewrite quat_rotvec_id. cbn [ent].
  assert (K : forall a b, ent (SkewSymmetric v0) a b = 0%R).
  { intros [|[|[|a]]] [|[|[|b]]]; unfold SkewSymmetric, v0; cbn; try ring; try reflexivity; try (destruct b; cbn; ring); destruct a; cbn; ring. }
  unfold madd, msub, mscal. rewrite K. unfold mm. rewrite rsum_0 by (intros; rewrite K; ring). ring.
Qed.

Lemma qmat_id : eqm 3 3 (ent (qmat qid)) idm.
Proof. intros [|[|[|i]]] [|[|[|j]]] Hi Hj; try lia; unfold qmat, qid, idm; cbn; ring. Qed.
Lemma tr_id : eqm 3 3 (ent (m3tr (qmat qid))) idm.
Proof.
  intros i j Hi Hj. unfold m3tr, tr. cbn [ent]. rewrite (qmat_id j i) by assumption. unfold idm. rewrite Nat.eqb_sym. reflexivity.
Qed.
Lemma jac_tr_id : eqm 3 3 (ent (m3tr (QuaternionJacobian qid))) idm.
Proof.
  intros i j Hi Hj. unfold m3tr, tr. cbn [ent]. rewrite jacobian_id by assumption. unfold idm. rewrite Nat.eqb_sym. reflexivity.
Qed.
Lemma m3mul_id : forall A B, eqm 3 3 (ent A) idm -> eqm 3 3 (ent B) idm -> eqm 3 3 (ent (m3mul A B)) idm.
Proof.
  intros A B HA HB. unfold m3mul. cbn [ent]. etransitivity; [apply mm_ext_l; exact HA|]. etransitivity; [apply mm_ext_r; exact HB|]. apply mm_id_l.
Qed.
Lemma m3neg_id : forall A, eqm 3 3 (ent A) idm -> eqm 3 3 (ent (m3neg A)) (mopp idm).
Proof. intros A HA i j Hi Hj. unfold m3neg, mopp. cbn [ent]. rewrite HA by assumption. reflexivity. Qed.
Lemma m3mul_neg : forall A B, eqm 3 3 (ent A) (mopp idm) -> eqm 3 3 (ent B) idm -> eqm 3 3 (ent (m3mul A B)) (mopp idm).
Proof.
  intros A B HA HB. unfold m3mul. cbn [ent]. etransitivity; [apply mm_ext_l; exact HA|]. etransitivity; [apply mm_ext_r; exact HB|]. apply mm_id_r.
Qed.
Lemma skew_0 : forall a b, ent (SkewSymmetric v0) a b = 0%R.
Proof.
  intros [|[|[|a]]] [|[|[|b]]]; unfold SkewSymmetric, v0; cbn; try ring; try reflexivity; try (destruct b; cbn; ring); destruct a; cbn; ring.
Qed.
Lemma vsub_00 : vsub v0 v0 = v0.
Proof. unfold vsub, v0. cbn. f_equal; ring. Qed.

Definition place (a : nat) : nat := if Nat.ltb a 3 then a else a + 6.

Lemma plain_jac : forall u e c f H u' e', p_fej (e_par e) = false ->
  mfind (fu_cam u) (s_cam (e_state e)) = Some c -> mfind (fu_id u) (s_fid (e_state e)) = Some f ->
  fu_ext u = false -> fu_cam_ext u = false -> e_size e = 18 ->
  c_pos c = v0 -> c_ang c = qid -> f_pos f = v0 -> f_ang f = qid ->
  b_pos (s_body (e_state e)) = v0 -> b_ang (s_body (e_state e)) = qid ->
  fid_GetMeasurementJacobian u e = OK (H, u', e') ->
  nr H = 6 /\ nc H = 18 /\ forall a k, a < 6 -> k < 18 -> ent H a k = if Nat.eqb k (place a) then (-1)%R else 0%R.
Proof.
  intros u e c f H u' e' HF K1 K2 X1 X2 HS C1 C2 F1 F2 B1 B2 E.
  unfold fid_GetMeasurementJacobian, fid_RefreshStates in E. rewrite HF in E. cbn [negb orb] in E.
  rewrite (get_cam_known _ _ _ K1) in E. unfold fid_at in E at 1. rewrite K2 in E. cbn [bind fu_cam_ext fu_ext] in E.
  rewrite X1, X2, HS, C1, C2, F1, F2, B1, B2 in E. cbv zeta in E. rewrite !vsub_00 in E.
  opn E. rename x into j1, B into E1. opn E. rename x into j2, B into E2. opn E. rename x into j3, B into E3. injection E as <- <- <-.
  apply sb_inv in E1, E2, E3. cbn [nr nc mzero] in *.
  destruct E1 as [N1 [M1 [_ [_ T1]]]], E2 as [N2 [M2 [_ [_ T2]]]], E3 as [N3 [M3 [_ [_ T3]]]].
  split; [rewrite N3, N2, N1; reflexivity|]. split; [rewrite M3, M2, M1; reflexivity|].
  intros a k Ha Hk. rewrite T3, T2, T1. unfold place.
  assert (RL : eqm 3 3 (ent (m3mul (m3tr (qmat qid)) (m3tr (qmat qid)))) idm) by (apply m3mul_id; apply tr_id).
  destruct (Nat.ltb_spec a 3) as [L|L].
  - replace (in_range a 3 3) with false by (symmetry; unfold in_range; destruct (Nat.leb_spec 3 a); [lia|reflexivity]).
    cbn [andb]. replace (in_range a 0 3) with true by (symmetry; unfold in_range; apply andb_true_iff; split; [apply Nat.leb_le|apply Nat.ltb_lt]; lia).
    cbn [andb]. destruct (in_range k 9 3) eqn:R9.
    + unfold in_range in R9. apply andb_true_iff in R9. destruct R9 as [R9 R9']. apply Nat.leb_le in R9.
      rewrite (proj2 (Nat.eqb_neq k a)) by lia. unfold m3mul at 1. cbn [ent]. unfold mm. apply rsum_0. intros i Hi.
      unfold m3mul. cbn [ent]. unfold mm. rewrite rsum_0; [ring|]. intros; rewrite skew_0; ring.
    + destruct (in_range k 0 3) eqn:R0.
      * unfold in_range in R0. apply andb_true_iff in R0. destruct R0 as [_ R0]. apply Nat.ltb_lt in R0.
        rewrite !Nat.sub_0_r. rewrite (m3neg_id _ RL) by lia. unfold mopp, idm. rewrite Nat.eqb_sym. destruct (Nat.eqb k a); ring.
      * unfold in_range in R0. apply andb_false_iff in R0. destruct R0 as [R0|R0]; [discriminate|]. apply Nat.ltb_ge in R0.
        rewrite (proj2 (Nat.eqb_neq k a)) by lia. reflexivity.
  - replace (in_range a 3 3) with true by (symmetry; unfold in_range; apply andb_true_iff; split; [apply Nat.leb_le|apply Nat.ltb_lt]; lia).
    replace (in_range a 0 3) with false by (symmetry; unfold in_range; apply andb_false_iff; right; apply Nat.ltb_ge; lia).
    cbn [andb]. destruct (in_range k 9 3) eqn:R9.
    + unfold in_range in R9. apply andb_true_iff in R9. destruct R9 as [R9 R9']. apply Nat.leb_le in R9. apply Nat.ltb_lt in R9'.
      rewrite m3mul_neg; [|apply m3mul_neg; [apply m3neg_id; exact RL|apply qmat_id]|apply jac_tr_id|lia|lia].
      unfold mopp, idm. destruct (Nat.eqb_spec (a - 3) (k - 9)), (Nat.eqb_spec k (a + 6)); try lia; ring.
    + unfold in_range in R9. apply andb_false_iff in R9. rewrite (proj2 (Nat.eqb_neq k (a + 6))); [reflexivity|].
      destruct R9 as [R9|R9]; [apply Nat.leb_gt in R9|apply Nat.ltb_ge in R9]; lia.
Qed.

(** With a covariance and a noise that are the same multiple of the identity
    the gain is half the transpose of such a Jacobian. *)
Lemma half_gain : forall P H N K p, (0 < p)%R -> eqm 18 18 P (mscal p idm) -> eqm 6 6 N (mscal p idm) ->
  (forall a k, a < 6 -> k < 18 -> H a k = if Nat.eqb k (place a) then (-1)%R else 0%R) ->
  is_gain 18 6 P H N K -> forall k a, k < 18 -> a < 6 -> K k a = (H a k / 2)%R.
Proof.
  intros P H N K p Hp HP HN HH G k a Hk Ha.
  assert (PL : forall b, b < 6 -> place b < 18) by (intros b Hb; unfold place; destruct (Nat.ltb b 3); lia).
  assert (PI' : forall b b', b < 6 -> b' < 6 -> place b = place b' -> b = b').
  { intros b b' Hb Hb'. unfold place. destruct (Nat.ltb_spec b 3), (Nat.ltb_spec b' 3); lia. }
  assert (HPm : forall b i, b < 6 -> i < 18 -> mm 18 H P b i = (p * H b i)%R).
  { intros b i Hb Hi. unfold mm. rewrite (rsum_single 18 i) by
      (auto; intros x Hx Hn; rewrite HP by assumption; unfold mscal, idm; rewrite (proj2 (Nat.eqb_neq x i) Hn); ring).
    rewrite HP by assumption. unfold mscal, idm. rewrite Nat.eqb_refl. ring. }
  assert (S : forall b b', b < 6 -> b' < 6 -> innov 18 P H N b b' = if Nat.eqb b b' then (2 * p)%R else 0%R).
  { intros b b' Hb Hb'. unfold innov, madd. rewrite HN by assumption. unfold mm at 1.
    rewrite (rsum_single 18 (place b)); [|apply PL; exact Hb|].
    - rewrite HPm by auto. unfold tr. rewrite !HH by auto. rewrite Nat.eqb_refl. unfold mscal, idm.
      destruct (Nat.eqb_spec b b') as [->|Hn]; [rewrite Nat.eqb_refl; ring|].
      rewrite (proj2 (Nat.eqb_neq (place b) (place b'))) by (intro X; apply Hn, PI'; assumption). ring.
    - intros i Hi Hn. rewrite HPm by auto. rewrite HH by auto. rewrite (proj2 (Nat.eqb_neq _ _) Hn). ring. }
  specialize (G k a Hk Ha). unfold mm at 1 in G. rewrite (rsum_single 6 a) in G; [|exact Ha|].
  2:{ intros b Hb Hn. rewrite S by assumption. rewrite (proj2 (Nat.eqb_neq _ _) Hn). ring. }
  rewrite S, Nat.eqb_refl in G by assumption. unfold mm in G. rewrite (rsum_single 18 k) in G; [|exact Hk|].
  2:{ intros i Hi Hn. rewrite HP by assumption. unfold mscal, idm. rewrite (proj2 (Nat.eqb_neq k i)) by (intro X; apply Hn; auto). ring. }
  rewrite HP in G by assumption. unfold mscal, idm, tr in G. rewrite Nat.eqb_refl in G.
  apply (Rmult_eq_reg_r (2 * p)); [|lra]. rewrite G. field.
Qed.

Definition near : R := (1 / 100)%R.
Definition seen : BoardDetection := mkBoard v0 (about 1) (mkV3 near near near) (mkV3 near near near).
Lemma seen_positive : errors_positive seen.
Proof. unfold errors_positive, seen, near. cbn. repeat split; lra. Qed.
Lemma seen_noise : forall N, board_noise seen = OK N -> eqm 6 6 (ent N) (mscal near idm).
Proof.
  intros N E. unfold board_noise in E. opn E. apply sb_inv in B, E. destruct B as [_ [_ [_ [_ T1]]]], E as [_ [_ [_ [_ T2]]]].
  intros i j Hi Hj. rewrite T2, T1.
  assert (D : forall v a b, v = mkV3 near near near -> a < 3 -> b < 3 -> ent (mdiag (v3mat v)) a b = mscal near idm a b).
  { intros v a b -> Ha Hb. unfold mdiag, v3mat, diagm, mscal, idm. cbn [ent]. destruct (Nat.eqb_spec a b) as [->|]; [|ring].
    destruct b as [|[|[|b]]]; cbn; try ring; lia. }
  unfold in_range.
  destruct (Nat.leb_spec 3 i), (Nat.leb_spec 3 j), (Nat.ltb_spec i (3 + 3)), (Nat.ltb_spec j (3 + 3)); try lia; cbn [andb].
  - rewrite D by (reflexivity || lia). unfold mscal, idm. destruct (Nat.eqb_spec (i - 3) (j - 3)), (Nat.eqb_spec i j); try lia; reflexivity.
  - rewrite (proj2 (Nat.ltb_ge i (0 + 3))) by lia. rewrite andb_false_r. cbn [andb].
    unfold mzero, mconst, mscal, idm. cbn [ent]. rewrite (proj2 (Nat.eqb_neq i j)) by lia. ring.
  - rewrite (proj2 (Nat.ltb_ge j (0 + 3))) by lia. rewrite !andb_false_r.
    unfold mzero, mconst, mscal, idm. cbn [ent]. rewrite (proj2 (Nat.eqb_neq i j)) by lia. ring.
  - rewrite (proj2 (Nat.ltb_lt i (0 + 3))), (proj2 (Nat.ltb_lt j (0 + 3))) by lia. cbn [Nat.leb andb]. rewrite !Nat.sub_0_r.
    apply D; [reflexivity|lia|lia].
Qed.

Lemma quiet_predict : forall e t e1, p_aug (e_par e) = ANone -> e_gravity e = false -> only_predicted e t e1 ->
  e_state e1 = e_state e /\ covariance e1 = covariance e /\ e_size e1 = e_size e /\ e_par e1 = e_par e.
Proof.
  intros e t e1 HA HG H. destruct (CalculateLocalTime e t) as [lt e0] eqn:E0.
  destruct (predicted_split e t lt e0 E0) as [_ P]. apply P in H.
  assert (Q : e_state e0 = e_state e /\ covariance e0 = covariance e /\ e_size e0 = e_size e /\ e_par e0 = e_par e /\ e_gravity e0 = e_gravity e).
  { unfold CalculateLocalTime in E0. destruct (e_time_init e); injection E0 as <- <-; auto. }
  destruct Q as [Q1 [Q2 [Q3 [Q4 Q5]]]]. unfold PredictModel in H. destruct (Rltb lt (e_time e0)).
  { injection H as <-. auto. }
  rewrite Q5, HG in H. cbn [bind] in H. unfold AugmentStateIfNeeded in H. cbn [with_time e_par] in H. rewrite Q4, HA in H.
  injection H as <-. cbn [with_time e_state e_size e_par]. auto.
Qed.

Lemma find_map : forall A (f : A -> A) k (m : amap A) x, mfind k m = Some x -> mfind k (map (on_snd f) m) = Some (f x).
Proof.
  intros A f k m x. induction m as [|[k' y] m IH]; [discriminate|]. cbn [mfind map on_snd fst snd].
  destruct (Nat.eqb k k'); [intros H; injection H as ->; reflexivity|exact IH].
Qed.

Lemma pushed_away : forall mat_quat e u c f t, reads_rotations mat_quat -> reachable e -> p_fej (e_par e) = false -> p_root (e_par e) = false ->
  p_aug (e_par e) = ANone -> e_gravity e = false -> e_size e = 18 -> eqm 18 18 (covariance e) (mscal near idm) ->
  mfind (fu_cam u) (s_cam (e_state e)) = Some c -> mfind (fu_id u) (s_fid (e_state e)) = Some f ->
  c_ext c = false -> f_ext f = false -> fu_ext u = false -> fu_cam_ext u = false -> fid_ready u ->
  c_pos c = v0 -> c_ang c = qid -> f_pos f = v0 -> f_ang f = qid ->
  b_pos (s_body (e_state e)) = v0 -> b_ang (s_body (e_state e)) = qid ->
  exists u' e', fid_UpdateEKF mat_quat u e t seen = OK (u', e') /\
    mfind (fu_cam u) (s_cam (e_state e')) = Some c /\ mfind (fu_id u) (s_fid (e_state e')) = Some f /\
    b_ang (s_body (e_state e')) = about (1 / 2).
Proof.
  intros mq e u c f t RR Hr HF HR HA HG HS HP K1 K2 X1 X2 X3 X4 RD C1 C2 F1 F2 B1 B2.
  destruct (fid_callback mq u e t seen false Hr) as [u' [e' [E _]]]; auto.
  { exists c. auto. } { intro X. congruence. } { exists f. split; [exact K2|congruence]. } { apply seen_positive. }
  exists u', e'. split; [exact E|].
  destruct (board_towards mq u e t seen false u' e' Hr HF RR) as [e1 [c1 [f1 [OP [K1' [K2' M]]]]]]; auto.
  { exists c. auto. } { intro X. congruence. } { exists f. split; [exact K2|congruence]. } { apply seen_positive. }
  destruct (quiet_predict e t e1 HA HG OP) as [S1 [S2 [S3 S4]]].
  rewrite S1 in K1', K2'. rewrite K1 in K1'. rewrite K2 in K2'. injection K1' as <-. injection K2' as <-.
  assert (U : qnorm2 qid = 1%R) by (unfold qnorm2, qid; cbn; ring).
  assert (BT : board_turn e1 c f = qid).
  { unfold board_turn. rewrite S1, B2, C2, F2. rewrite <- about_0, !about_inv, !about_mul. f_equal. ring. }
  rewrite S1, B2, C2, F2, BT in M. destruct M as [H [y [N [d [p [EJ [EN [ST [Y1 [Y2 [Y3 MV]]]]]]]]]]]; auto.
  { left. rewrite quat_rotvec_id. unfold vnorm, vnorm2, vdot, v0. cbn. replace (_ + _)%R with 0%R by ring. apply sqrt_0. }
  destruct MV as [D1 [D2 [D3 [K [G D4]]]]]. rewrite S3, HS in *.
  destruct (plain_jac u e1 c f H u' e1) as [J1 [J2 J3]]; try (rewrite ?S1, ?S4; assumption); try exact S3; try exact EJ.
  rewrite J1 in *. rewrite S2 in G. unfold noise_meant in G. rewrite S4, HR in G.
  pose proof (half_gain _ _ _ _ near ltac:(unfold near; lra) HP (seen_noise N EN) J3 G) as HK.
  assert (RV : QuatToRotVec (qmul p (qinv (bd_ang seen))) = mkV3 0 0 (-1)).
  { cbn [seen bd_ang]. rewrite about_inv. assert (I1 : qmul qid (about (- (1))) = about (- (1))).
    { rewrite <- about_0, about_mul. f_equal. ring. }
    assert (PB : (0 < 1 < PI)%R) by (pose proof PI2_3_2; lra).
    destruct (about_vec 1 PB) as [V1 V2]. destruct ST as [-> | ->]; [rewrite I1; exact V1|rewrite opp_mul_l, I1; exact V2]. }
  assert (DV : forall r, r < 3 -> ent d (9 + r) 0 = (- vget (mkV3 0 0 (-1)) r / 2)%R).
  { intros r Hr'. change (ent d (9 + r) 0) with (column d (9 + r)). rewrite D4 by lia. unfold mv.
    rewrite (rsum_single 6 (3 + r)); [|lia|].
    - rewrite HK by lia. rewrite J3 by lia. unfold place. rewrite (proj2 (Nat.ltb_ge (3 + r) 3)) by lia.
      replace (3 + r + 6) with (9 + r) by lia. rewrite Nat.eqb_refl. destruct (Y3 r Hr') as [_ ->]. rewrite RV. field.
    - intros i Hi Hn. rewrite HK by lia. rewrite J3 by lia. rewrite (proj2 (Nat.eqb_neq (9 + r) (place i))); [field|].
      unfold place. destruct (Nat.ltb_spec i 3); lia. }
  assert (SG : segv d 9 = mkV3 0 0 (1 / 2)).
  { unfold segv. pose proof (DV 0 ltac:(lia)) as V0. pose proof (DV 1 ltac:(lia)) as V1. pose proof (DV 2 ltac:(lia)) as V2.
    cbn [Nat.add vget vx vy vz] in V0, V1, V2. cbn [Nat.add]. rewrite V0, V1, V2. f_equal; field. }
  rewrite D3, S1. cbn [correct s_cam s_fid s_body correct_body b_ang].
  split; [rewrite (find_map _ _ _ _ _ K1); unfold correct_cam; rewrite X1; reflexivity|].
  split; [rewrite (find_map _ _ _ _ _ K2); unfold correct_fid; rewrite X2; reflexivity|].
  rewrite SG, B2.
  assert (VN : vnorm (mkV3 0 0 (1 / 2)) = (1 / 2)%R).
  { unfold vnorm, vnorm2, vdot. cbn [vx vy vz]. replace (_ + _)%R with ((1 / 2) * (1 / 2))%R by field. apply sqrt_square. lra. }
  rewrite RotVec_big by (rewrite VN; lra). rewrite VN.
  replace (vdiv (mkV3 0 0 (1 / 2)) (1 / 2)) with up by (unfold vdiv, up; cbn; f_equal; field).
  fold (about (1 / 2)). rewrite <- about_0, about_mul. f_equal. ring.
Qed.

Lemma away : forall e e' c f, b_ang (s_body (e_state e)) = qid -> b_ang (s_body (e_state e')) = about (1 / 2) ->
  c_ang c = qid -> f_ang f = qid -> (off_by e c f (bd_ang seen) < off_by e' c f (bd_ang seen))%R.
Proof.
  intros e e' c f H1 H2 H3 H4. unfold off_by, board_turn. rewrite H1, H2, H3, H4. cbn [seen bd_ang].
  rewrite <- about_0, !about_inv, !about_mul. pose proof PI2_3_2.
  rewrite !about_len; unfold Rabs; repeat destruct (Rcase_abs _); lra.
Qed.

(** *** A filter with one camera and one board, both calibrated *)
Definition held (e e' : ekf) : Prop :=
  e_cov e' = e_cov e /\ e_size e' = e_size e /\ e_par e' = e_par e /\ e_gravity e' = e_gravity e.
Lemma refresh_held : forall e e', RefreshIndices e = OK e' -> held e e'.
Proof.
  intros e e' H. unfold RefreshIndices in H. cbv zeta in H. opn H. opn H. destruct x0 as [[im c1] Q1]. opn H. destruct x0 as [[gm c2] Q2].
  opn H. destruct x0 as [[cm c3] Q3]. opn H. destruct x0 as [[fm c4] Q4]. destruct (refresh_augs _ _) as [am c5]. opn H.
  injection H as <-. repeat split.
Qed.
Lemma cam_held : forall e id st c e', mfind id (s_cam (e_state e)) = None -> c_ext st = false -> RegisterCamera e id st c = OK e' -> held e e'.
Proof.
  intros e id st c e' H1 H2 H. unfold RegisterCamera in H. rewrite H1 in H. cbv zeta in H. opn H. rewrite H2 in H. cbn [bind] in H.
  apply refresh_held in H. destruct H as [A [B' [C D]]]. revert A B' C D. destruct (Nat.eqb _ 0); intros A B' C D; repeat split; assumption.
Qed.
Lemma fid_held : forall e st c e', mfind (f_id st) (s_fid (e_state e)) = None -> f_ext st = false -> RegisterFiducial e st c = OK e' -> held e e'.
Proof.
  intros e st c e' H1 H2 H. unfold RegisterFiducial in H. rewrite H1 in H. cbv zeta in H. rewrite H2 in H. cbn [bind] in H.
  apply refresh_held in H. exact H.
Qed.

Definition fixed_fid : FidState := mkFid v0 qid e9 e9 0 0 4 false.
Lemma calibrated : forall e, reachable e -> e_size e = 18 -> s_cam (e_state e) = [] -> s_fid (e_state e) = [] ->
  exists e' c f, run e [ORegCam 2 default_cam (demo_cov 0); ORegFid fixed_fid (demo_cov 0)] = OK e' /\ reachable e' /\ held e e' /\
    mfind 2 (s_cam (e_state e')) = Some c /\ mfind 4 (s_fid (e_state e')) = Some f /\
    c_ext c = false /\ f_ext f = false /\ c_pos c = v0 /\ c_ang c = qid /\ f_pos f = v0 /\ f_ang f = qid /\
    b_pos (s_body (e_state e')) = b_pos (s_body (e_state e)) /\ b_ang (s_body (e_state e')) = b_ang (s_body (e_state e)).
Proof.
  intros e Hr HS EC EF. pose proof (reachable_inv e Hr) as I.
  assert (N1 : mfind 2 (s_cam (e_state e)) = None) by (rewrite EC; reflexivity).
  destruct (RegisterCamera_ok e 2 default_cam (demo_cov 0) (proj1 I) N1) as [e1 [E1 [W1 [S1 _]]]].
  { unfold cam_reg_ok. cbn. repeat split; try lia; try discriminate. apply R1_neq_R0. }
  assert (R1 : reachable e1).
  { eapply (reachable_step e (ORegCam 2 default_cam (demo_cov 0))); [exact Hr| |exact E1].
    intros _. split; [reflexivity|]. split; [apply (demo_cov_arg _ 0)|]. cbn. split; [intro; discriminate|lra]. }
  pose proof (cam_held e 2 default_cam (demo_cov 0) e1 N1 eq_refl E1) as L1.
  assert (N2 : mfind (f_id fixed_fid) (s_fid (e_state e1)) = None) by (rewrite S1; cbn [ix_state state_with_cam s_fid]; rewrite EF; reflexivity).
  destruct (RegisterFiducial_ok e1 fixed_fid (demo_cov 0) W1 N2) as [e2 [E2 [W2 [S2 _]]]].
  { unfold fid_reg_ok. cbn. repeat split; try lia; try discriminate. }
  assert (R2 : reachable e2).
  { eapply (reachable_step e1 (ORegFid fixed_fid (demo_cov 0))); [exact R1| |exact E2].
    intros _. split; [reflexivity|]. split; [apply (demo_cov_arg _ 0)|]. cbn. intro; discriminate. }
  pose proof (fid_held e1 fixed_fid (demo_cov 0) e2 N2 eq_refl E2) as L2.
  assert (C2 : exists c, s_cam (e_state e2) = [(2, c)] /\ c_ext c = false /\ c_pos c = v0 /\ c_ang c = qid).
  { rewrite S2. cbn [ix_state state_with_fid s_cam]. rewrite S1. cbn [ix_state state_with_cam s_cam]. rewrite EC. cbn. eexists. repeat split. }
  assert (F2 : exists f, s_fid (e_state e2) = [(4, f)] /\ f_ext f = false /\ f_pos f = v0 /\ f_ang f = qid).
  { rewrite S2. cbn [ix_state state_with_fid s_fid]. rewrite S1. cbn [ix_state state_with_cam s_fid]. rewrite EF. cbn. eexists. repeat split. }
  destruct C2 as [c [C1 [C2 [C3 C4]]]], F2 as [f [F1 [F2 [F3 F4]]]]. exists e2, c, f.
  split; [cbn [run step]; rewrite E1; cbn [bind]; rewrite E2; reflexivity|]. split; [exact R2|].
  split; [unfold held in *; decompose [and] L1; decompose [and] L2; repeat split; congruence|].
  split; [rewrite C1; reflexivity|]. split; [rewrite F1; reflexivity|]. repeat (split; [assumption|]).
  rewrite S2. cbn [ix_state state_with_fid s_body body_with_index b_pos b_ang]. rewrite S1. cbn. split; reflexivity.
Qed.

Theorem board_away : exists mat_quat e u t b u' e' c f, reads_rotations mat_quat /\ reachable e /\ p_fej (e_par e) = false /\
  has_cam e (fu_cam u) false /\ has_fid e (fu_id u) false /\ fu_first u = true /\ errors_positive b /\
  mfind (fu_cam u) (s_cam (e_state e)) = Some c /\ mfind (fu_id u) (s_fid (e_state e)) = Some f /\
  qnorm2 (bd_ang b) = 1%R /\ bd_pos b = board_place e c f /\
  fid_UpdateEKF mat_quat u e t b = OK (u', e') /\
  mfind (fu_cam u) (s_cam (e_state e')) = Some c /\ mfind (fu_id u) (s_fid (e_state e')) = Some f /\
  (off_by e c f (bd_ang b) < off_by e' c f (bd_ang b))%R.
Proof.
  destruct (calibrated (demo0 ANone false) (demo0_reachable ANone false) eq_refl eq_refl eq_refl)
    as [e [c [f [_ [Hr [[L1 [L2 [L3 L4]]] [K1 [K2 [X1 [X2 [C1 [C2 [F1 [F2 [B1 B2]]]]]]]]]]]]]]].
  pose (u := fid_updater_init 4 2 false false).
  assert (HC : eqm 18 18 (covariance e) (mscal near idm)).
  { unfold covariance. rewrite L1, L2, L3. exact (demo0_cov ANone false). }
  change (b_pos (s_body (e_state (demo0 ANone false)))) with v0 in B1. change (b_ang (s_body (e_state (demo0 ANone false)))) with qid in B2.
  destruct (pushed_away eigen_mat_quat e u c f 0 eigen_reads Hr) as [u' [e' [E [K1' [K2' BA]]]]]; auto;
    try (rewrite L3; reflexivity); try (rewrite L4; reflexivity); try (rewrite L2; reflexivity).
  { left. reflexivity. }
  exists eigen_mat_quat, e, u, 0%R, seen, u', e', c, f.
  split; [exact eigen_reads|]. split; [exact Hr|]. split; [rewrite L3; reflexivity|].
  split; [exists c; auto|]. split; [exists f; auto|]. split; [reflexivity|]. split; [apply seen_positive|].
  split; [exact K1|]. split; [exact K2|]. split; [apply about_unit|].
  split.
  { unfold board_place. rewrite B1, B2, C1, C2, F1. cbn [seen bd_pos]. rewrite !vsub_00.
    assert (Z : qrot (qinv qid) v0 = v0).
    { rewrite <- about_0, about_inv, Ropp_0, about_0. unfold qrot, qid, v0, vadd, vscale, vcross, qvec. cbn. f_equal; ring. }
    rewrite Z, vsub_00. symmetry. exact Z. }
  split; [exact E|]. split; [exact K1'|]. split; [exact K2'|]. apply away; assumption.
Qed.
