(** The inertial measurement and stationary Jacobians against the derivatives
    of what they linearise. *)
From Coq Require Import Reals List Arith Bool Lia Lra.
From Verif Require Import Base.Res Base.Mat Base.RDec Base.RSum Base.LinAlg Base.Geom Base.AMap Base.RMat
  Model.TypeHelper Model.Types Model.MathHelper Model.Matrix3 Model.Ekf Model.Updater Model.ImuUpdater
  Spec.Rotation Spec.Deriv Spec.DerivImu Spec.Correct
  Proofs.Effects Proofs.Rotations Proofs.Deriv Proofs.RotDeriv Proofs.Jacobians Proofs.JacWrong Proofs.Triangulation
  Proofs.Demo.
Import ListNotations.
Open Scope R_scope.

Lemma turning : forall f k w r d, f 0 = 0 -> moves f r -> vmoves w d ->
  vmoves (fun t => turn (f t) k (w t)) (vadd (vscale r (vcross k (w 0))) d).
Proof.
  intros f k w r d F0 Hf Hw. unfold turn.
  assert (C : moves (fun t => cos (f t)) 0).
  { eapply dl_eq; [|apply (dl_cos f 0 r Hf)]. rewrite F0, sin_0. ring. }
  assert (S : moves (fun t => sin (f t)) r).
  { eapply dl_eq; [|apply (dl_sin f 0 r Hf)]. rewrite F0, cos_0. ring. }
  pose proof (moves_dot (fun _ => k) w v0 d (vmoves_const k) Hw) as D.
  assert (K : moves (fun t => (1 - cos (f t)) * vdot k (w t)) 0).
  { eapply dl_eq; [|apply dl_mult; [apply dl_minus; [apply dl_const|exact C]|exact D]]. cbv beta. rewrite F0, cos_0. ring. }
  eapply vmoves_eq; [|apply vmoves_add; [apply vmoves_add; [apply vmoves_scale; [exact C|exact Hw]|apply vmoves_scale; [exact S|apply vmoves_cross; [apply vmoves_const|exact Hw]]]|apply vmoves_scale; [exact K|apply vmoves_const]]].
  cbv beta. rewrite F0, cos_0, sin_0. destruct d as [d1 d2 d3]. unfold vadd, vscale, vcross, v0. cbn [vx vy vz]. f_equal; ring.
Qed.

Lemma aaq_neg : forall t k, qconj (angle_axis_quat t k) = angle_axis_quat (- t) k.
Proof.
  intros t k. unfold angle_axis_quat, qconj. cbn [qw qx qy qz].
  
  replace (/ 2 * - t) with (- (/ 2 * t)) by ring.
  rewrite cos_neg, sin_neg. f_equal; ring.
Qed.

(** A frame turned from the right about [k] at rate [r], looking at [w]. *)
Lemma seen_turning : forall q k r w d, qnorm2 q = 1 -> vnorm2 k = 1 -> vmoves w d ->
  vmoves (fun t => qrot (qinv (qmul q (angle_axis_quat (r * t) k))) (w t))
    (vadd (vcross (qrot (qinv q) (w 0)) (vscale r k)) (qrot (qinv q) d)).
Proof.
  intros q k r w d Hq Hk Hw.
  assert (Hu : qnorm2 (qinv q) = 1) by (apply qinv_unit; exact Hq).
  assert (F : moves (fun t => - (r * t)) (- r)).
  { eapply dl_eq; [|apply dl_opp; apply (dl_mult (fun _ => r)); [apply dl_const|apply dl_id]]. ring. }
  assert (F0 : - (r * 0) = 0) by ring.
  pose proof (turning (fun t => - (r * t)) k _ _ _ F0 F (vmoves_mat (qmat (qinv q)) _ _ Hw)) as D.
  eapply vmoves_loc; [|eapply vmoves_eq; [|exact D]].
  - exists 1. split; [lra|]. intros t _. cbv beta.
    assert (Ha : qnorm2 (angle_axis_quat (r * t) k) = 1) by (apply aaq_unit; exact Hk).
    assert (E : qinv (qmul q (angle_axis_quat (r * t) k)) = qmul (angle_axis_quat (- (r * t)) k) (qinv q)).
    { rewrite (qinv_conj (qmul _ _)) by (rewrite qnorm2_mul, Hq, Ha; ring).
      rewrite (qinv_conj q) by exact Hq. rewrite <- aaq_neg. apply q_eq; unfold qmul, qconj; cbn [qw qx qy qz]; ring. }
    rewrite E, qrot_mul, rodrigues, qmat_vec by (first [assumption|apply aaq_unit; exact Hk]). reflexivity.
  - rewrite !qmat_vec by exact Hu. f_equal. set (a := qrot _ (w 0)). unfold vcross, vscale. cbn [vx vy vz]. f_equal; ring.
Qed.

(** *** Rows of the measurement Jacobian *)
Lemma imu_pred : forall u e, let s := imu_of e (iu_id u) in let b := s_body (e_state e) in
  segv (fst (imu_PredictMeasurement u e)) 0 =
    vadd (i_acc_bias s) (qrot (qinv (i_ang s))
      (vadd (vadd (vadd (b_acc b) (vcross (b_ang_acc b) (i_pos s)))
               (vcross (b_ang_vel b) (vcross (b_ang_vel b) (i_pos s))))
         (vscale 2 (vcross (b_ang_vel b) (b_vel b))))) /\
  segv (fst (imu_PredictMeasurement u e)) 3 =
    vadd (i_omg_bias s) (qrot (qinv (i_ang s)) (qrot (qinv (b_ang b)) (b_ang_vel b))).
Proof.
  intros u e s b. unfold imu_PredictMeasurement, GetImuState. cbn [fst e_state with_state s_body].
  split; unfold segv, stack2; cbn [ent Nat.ltb Nat.leb Nat.add Nat.sub]; rewrite vget_eta; reflexivity.
Qed.

Lemma m3tr_skew : forall v x, mat_vec (m3tr (SkewSymmetric v)) x = vopp (vcross v x).
Proof.
  intros [a b c] [x y z]. unfold mat_vec, m3tr, SkewSymmetric, of_list, tr, vopp, vcross. cbn. f_equal; ring.
Qed.

Lemma vadd_0_l : forall v, vadd v0 v = v.
Proof. intros [a b c]. unfold vadd, v0. cbn. f_equal; ring. Qed.
Lemma vadd_0_r' : forall v, vadd v v0 = v.
Proof. intros [a b c]. unfold vadd, v0. cbn. f_equal; ring. Qed.

Lemma vadd_assoc3 : forall a b c, vadd (vadd a b) c = vadd a (vadd b c).
Proof. intros a b c. unfold vadd. cbn [vx vy vz]. f_equal; ring. Qed.

Tactic Notation "getb" hyp(H) ident(j) ident(B) := match type of H with context [set_block ?m ?a ?b 3 3 ?v] =>
  destruct (set_block m a b 3 3 v) as [j|] eqn:B; [cbn [bind] in H|discriminate H] end.

Lemma imu_rows : forall u e jac e' x,
  imu_GetMeasurementJacobian u e = OK (jac, e') ->
  let s := imu_of e (iu_id u) in let b := s_body (e_state e) in
  (iu_ext u = true -> (18 <= i_index_ext s)%nat) ->
  (iu_int u = true -> (18 <= i_index_int s)%nat) ->
  (iu_ext u = true -> iu_int u = true ->
     (i_index_ext s + 6 <= i_index_int s \/ i_index_int s + 6 <= i_index_ext s)%nat) ->
  let w := b_ang_vel b in let p := i_pos s in
  let ri := mat_vec (qmat (qinv (i_ang s))) in let rb := mat_vec (qmat (qinv (b_ang b))) in
  let dw := slice x 12 in let da := slice x 15 in
  let dp := slice x (i_index_ext s) in let dt := slice x (i_index_ext s + 3) in
  rows3 jac x 0 =
    vadd (vadd (vadd (vadd (ri (rb (slice x 6)))
      (ri (vadd (vcross w (vopp (vcross p dw))) (vopp (vcross (vcross w p) dw)))))
      (vopp (ri (vcross p da))))
      (if iu_ext u then
         vadd (ri (vadd (vcross (b_ang_acc b) dp) (vcross w (vcross w dp))))
           (vcross (qrot (qinv (i_ang s)) (vadd (vadd (vcross (b_ang_acc b) p) (vcross w (vcross w p)))
                (qrot (qinv (b_ang b)) (b_acc b)))) dt)
       else v0))
      (if iu_int u then slice x (i_index_int s) else v0) /\
  rows3 jac x 3 =
    vadd (vadd (ri (rb dw))
      (if iu_ext u then vcross (qrot (qmul (qinv (i_ang s)) (qinv (b_ang b))) w) dt else v0))
      (if iu_int u then slice x (i_index_int s + 3) else v0).
Proof.
  intros u e jac e' x H s b Hx Hi Hd w p ri rb dw da dp dt.
  unfold imu_GetMeasurementJacobian, GetImuState in H.
  change (mget default_imu (iu_id u) (s_imu (e_state e))) with s in H.
  cbn [e_state with_state s_body] in H. fold b w p in H.
  match type of H with context [mzero 6 ?k] => set (n := k) in H end.
  getb H j1 B1. getb H j2 B2. getb H j3 B3. getb H j4 B4.
  assert (A0 : rows3 j4 x 0 = vadd (vadd (ri (rb (slice x 6)))
      (ri (vadd (vcross w (vopp (vcross p dw))) (vopp (vcross (vcross w p) dw)))))
      (vopp (ri (vcross p da)))).
  { rewrite (rows3_other _ _ _ _ _ x 0 B4) by lia.
    rewrite (rows3_block _ _ _ _ _ x B3) by (intros; zi).
    rewrite (rows3_block _ _ _ _ _ x B2) by (intros; zi).
    rewrite (rows3_block _ _ _ _ _ x B1) by (intros; zi).
    rewrite rows3_zero, vadd_0_l, !m3mul_vec, m3add_vec, !m3mul_vec, !m3tr_skew, m3neg_vec, !skew_cross. reflexivity. }
  assert (A3 : rows3 j4 x 3 = ri (rb dw)).
  { rewrite (rows3_block _ _ _ _ _ x B4) by (intros; zi).
    rewrite (rows3_other _ _ _ _ _ x 3 B3), (rows3_other _ _ _ _ _ x 3 B2), (rows3_other _ _ _ _ _ x 3 B1) by lia.
    rewrite rows3_zero, vadd_0_l, m3mul_vec. reflexivity. }
  assert (Z4 : forall i c, (18 <= c)%nat -> zero_in j4 i c) by (intros; zi).
  destruct (iu_ext u) eqn:Ex.
  - specialize (Hx eq_refl). rewrite Nat.add_0_r in H. getb H j5 B5. getb H j6 B6. getb H j7 B7.
    assert (D0 : rows3 j7 x 0 = vadd (rows3 j4 x 0) (vadd (ri (vadd (vcross (b_ang_acc b) dp) (vcross w (vcross w dp))))
           (vcross (qrot (qinv (i_ang s)) (vadd (vadd (vcross (b_ang_acc b) p) (vcross w (vcross w p)))
                (qrot (qinv (b_ang b)) (b_acc b)))) dt))).
    { rewrite (rows3_other _ _ _ _ _ x 0 B7) by lia.
      rewrite (rows3_block _ _ _ _ _ x B6) by (intros; eapply zero_block; [exact B5|right; right; lia|apply Z4; lia]).
      rewrite (rows3_block _ _ _ _ _ x B5) by (intros; apply Z4; lia).
      rewrite m3mul_vec, m3add_vec, m3mul_vec, !skew_cross. apply vadd_assoc3. }
    assert (D3 : rows3 j7 x 3 = vadd (rows3 j4 x 3) (vcross (qrot (qmul (qinv (i_ang s)) (qinv (b_ang b))) w) dt)).
    { rewrite (rows3_block _ _ _ _ _ x B7)
        by (intros; eapply zero_block; [exact B6|left; lia|eapply zero_block; [exact B5|left; lia|apply Z4; lia]]).
      rewrite (rows3_other _ _ _ _ _ x 3 B6), (rows3_other _ _ _ _ _ x 3 B5) by lia. rewrite skew_cross. reflexivity. }
    rewrite A0 in D0. rewrite A3 in D3.
    assert (Z7 : iu_int u = true -> forall i c, (i_index_int s <= c)%nat -> (c + 3 <= i_index_int s + 6)%nat -> zero_in j7 i c).
    { intros Ei i c C1 C2. specialize (Hd eq_refl Ei). specialize (Hi Ei).
      eapply zero_block; [exact B7|right; lia|]. eapply zero_block; [exact B6|right; lia|].
      eapply zero_block; [exact B5|right; lia|]. apply Z4; lia. }
    destruct (iu_int u) eqn:Ei.
    + specialize (Hi eq_refl). specialize (Z7 eq_refl). rewrite Nat.add_0_r in H. getb H j8 B8. getb H j9 B9.
      injection H as <- <-. split.
      * rewrite (rows3_other _ _ _ _ _ x 0 B9) by lia. rewrite (rows3_block _ _ _ _ _ x B8) by (intros; apply Z7; lia).
        rewrite D0, m3id_vec. reflexivity.
      * rewrite (rows3_block _ _ _ _ _ x B9) by (intros; eapply zero_block; [exact B8|left; lia|apply Z7; lia]).
        rewrite (rows3_other _ _ _ _ _ x 3 B8) by lia. rewrite D3, m3id_vec. reflexivity.
    + injection H as <- <-. rewrite D0, D3, !vadd_0_r'. split; reflexivity.
  - cbn [bind] in H. destruct (iu_int u) eqn:Ei.
    + specialize (Hi eq_refl). rewrite Nat.add_0_r in H. getb H j8 B8. getb H j9 B9.
      injection H as <- <-. split.
      * rewrite (rows3_other _ _ _ _ _ x 0 B9) by lia. rewrite (rows3_block _ _ _ _ _ x B8) by (intros; apply Z4; lia).
        rewrite A0, m3id_vec, vadd_0_r'. reflexivity.
      * rewrite (rows3_block _ _ _ _ _ x B9) by (intros; eapply zero_block; [exact B8|left; lia|apply Z4; lia]).
        rewrite (rows3_other _ _ _ _ _ x 3 B8) by lia. rewrite A3, m3id_vec, vadd_0_r'. reflexivity.
    + injection H as <- <-. rewrite A0, A3, !vadd_0_r'. split; reflexivity.
Qed.

(** *** What they leave out *)
Lemma vmoves_unique : forall f a b, vmoves f a -> vmoves f b -> a = b.
Proof.
  intros f [a1 a2 a3] [b1 b2 b3] (A & B & C) (A' & B' & C'). cbn [vx vy vz] in *.
  f_equal; eapply moves_unique; eassumption.
Qed.
Lemma vadd_cancel : forall a b, vadd a b = a -> b = v0.
Proof.
  intros [a1 a2 a3] [b1 b2 b3] H. unfold vadd in H. cbn [vx vy vz] in H. apply (f_equal vx) in H as H1.
  apply (f_equal vy) in H as H2. apply (f_equal vz) in H as H3. cbn [vx vy vz] in *. unfold v0. f_equal; lra.
Qed.
Lemma gap_iff : forall f a g, vmoves f (vadd a g) -> (vmoves f a <-> g = v0).
Proof.
  intros f a g H. split.
  - intros D. apply (vadd_cancel a). exact (vmoves_unique _ _ _ H D).
  - intros ->. rewrite vadd_0_r' in H. exact H.
Qed.

Lemma turned_seen : forall q d w dw, turned_at q d -> vmoves w dw ->
  vmoves (fun t => qrot (qinv (q t)) (w t))
    (vadd (vcross (mat_vec (qmat (qinv (q 0))) (w 0)) d) (mat_vec (qmat (qinv (q 0))) dw)).
Proof.
  intros q d w dw (Hq & k & r & Hk & Hd & E) Hw.
  pose proof (seen_turning (q 0) k r w dw Hq Hk Hw) as D.
  rewrite !qmat_vec by (apply qinv_unit; exact Hq). rewrite <- Hd.
  eapply vmoves_loc; [|exact D]. exists 1. split; [lra|]. intros t _. cbv beta. rewrite (E t). reflexivity.
Qed.

Lemma mv_add : forall M a b, mat_vec M (vadd a b) = vadd (mat_vec M a) (mat_vec M b).
Proof. intros M a b. unfold mat_vec, vadd. cbn [vx vy vz]. f_equal; ring. Qed.
Lemma mv_sub : forall M a b, mat_vec M (vsub a b) = vsub (mat_vec M a) (mat_vec M b).
Proof. intros M a b. unfold mat_vec, vsub. cbn [vx vy vz]. f_equal; ring. Qed.
Lemma mv_0 : forall M, mat_vec M v0 = v0.
Proof. intros M. unfold mat_vec, v0. cbn [vx vy vz]. f_equal; ring. Qed.
Lemma cross_0 : forall a, vcross a v0 = v0.
Proof. intros a. unfold vcross, v0. cbn [vx vy vz]. f_equal; ring. Qed.
Lemma collect : forall M p1 p2 p3 p4 z1 g z2 d k,
  vadd (vadd (vadd (vadd (vadd (mat_vec M p1) (mat_vec M p2)) (vopp (mat_vec M p3)))
     (vadd (mat_vec M p4) (vcross (mat_vec M z1) d))) k) (vadd (mat_vec M g) (vcross (mat_vec M z2) d)) =
  vadd k (vadd (vcross (mat_vec M (vadd z1 z2)) d) (mat_vec M (vadd (vadd (vsub (vadd p1 p2) p3) p4) g))).
Proof.
  intros. rewrite !mv_add, mv_sub, mv_add.
  generalize (mat_vec M p1) (mat_vec M p2) (mat_vec M p3) (mat_vec M p4) (mat_vec M z1) (mat_vec M z2) (mat_vec M g).
  intros. unfold vadd, vsub, vopp, vcross. cbn [vx vy vz]. f_equal; ring.
Qed.

Lemma imu_accel : forall u c jac e' x,
  imu_GetMeasurementJacobian u (c 0) = OK (jac, e') -> imu_apart u (imu_of (c 0) (iu_id u)) ->
  imu_rates u c x ->
  vmoves (fun t => segv (fst (imu_PredictMeasurement u (c t))) 0) (vadd (rows3 jac x 0) (accel_gap u (c 0) x)).
Proof.
  intros u c jac e' x HJ (P1 & P2 & P3) (Hv & Ha & Hb & Hw & Hal & Hp & Hi & Hba & Hbo).
  destruct (imu_rows _ _ _ _ x HJ P1 P2 P3) as [E _]. cbv zeta in E. rewrite E. clear E HJ P1 P2 P3.
  set (s := imu_of (c 0) (iu_id u)) in *. set (b := s_body (e_state (c 0))) in *.
  pose proof (vmoves_cross _ _ _ _ Hal Hp) as D1.
  pose proof (vmoves_cross _ _ _ _ Hw (vmoves_cross _ _ _ _ Hw Hp)) as D2.
  pose proof (vmoves_scale (fun _ => 2) _ 0 _ (dl_const 2 0) (vmoves_cross _ _ _ _ Hw Hv)) as D3.
  pose proof (vmoves_add _ _ _ _ (vmoves_add _ _ _ _ (vmoves_add _ _ _ _ Ha D1) D2) D3) as D4. cbv beta in D4.
  pose proof (vmoves_add _ _ _ _ Hba (turned_seen _ _ _ _ Hi D4)) as D5. cbv beta in D5.
  eapply vmoves_loc; [|eapply vmoves_eq; [|exact D5]].
  { exists 1. split; [lra|]. intros t _. destruct (imu_pred u (c t)) as [A _]. symmetry. exact A. }
  clear D1 D2 D3 D4 D5. fold s b. unfold accel_gap. fold s b. cbv zeta.
  destruct Hb as (Hb & _). destruct Hi as (Hi & _). fold s in Hi. fold b in Hb.
  rewrite <- !(qmat_vec (qinv (i_ang s))), <- !(qmat_vec (qinv (b_ang b))) by (apply qinv_unit; assumption).
  set (Mi := qmat (qinv (i_ang s))). set (Mb := qmat (qinv (b_ang b))).
  set (k := if iu_int u then slice x (i_index_int s) else v0).
  change (if_on (iu_int u) x (i_index_int s)) with k.
  set (z1 := vadd (vadd (vcross (b_ang_acc b) (i_pos s)) (vcross (b_ang_vel b) (vcross (b_ang_vel b) (i_pos s))))
                  (mat_vec Mb (b_acc b))).
  set (dt := if_on (iu_ext u) x (i_index_ext s + 3)). set (dp := if_on (iu_ext u) x (i_index_ext s)).
  set (p4 := vadd (vcross (b_ang_acc b) dp) (vcross (b_ang_vel b) (vcross (b_ang_vel b) dp))).
  assert (EX : (if iu_ext u then vadd (mat_vec Mi (vadd (vcross (b_ang_acc b) (slice x (i_index_ext s)))
        (vcross (b_ang_vel b) (vcross (b_ang_vel b) (slice x (i_index_ext s)))))) (vcross (mat_vec Mi z1) (slice x (i_index_ext s + 3))) else v0) =
        vadd (mat_vec Mi p4) (vcross (mat_vec Mi z1) dt)).
  { unfold p4, dp, dt, if_on. destruct (iu_ext u); [reflexivity|].
    rewrite !cross_0, vadd_0_l, mv_0, vadd_0_l. reflexivity. }
  rewrite EX, collect. clearbody dt dp k. clear EX. unfold z1, p4. clear z1 p4. clearbody Mi.
  generalize (mat_vec Mb (slice x 6)) (mat_vec Mb (b_acc b)). intros m6 ma.
  f_equal. f_equal; [f_equal|]; apply (f_equal (mat_vec Mi)).
  - clear. unfold vadd, vsub, vcross, vscale. cbn [vx vy vz]. f_equal; ring.
  - clear. generalize (slice x 3) (slice x 6) (slice x 12) (slice x 15). intros x3 x6 x12 x15.
    unfold vadd, vsub, vopp, vcross, vscale. cbn [vx vy vz]. f_equal; ring.
Qed.

Lemma imu_gyro : forall u c jac e' x,
  imu_GetMeasurementJacobian u (c 0) = OK (jac, e') -> imu_apart u (imu_of (c 0) (iu_id u)) ->
  imu_rates u c x ->
  vmoves (fun t => segv (fst (imu_PredictMeasurement u (c t))) 3) (vadd (rows3 jac x 3) (gyro_gap u (c 0) x)).
Proof.
  intros u c jac e' x HJ (P1 & P2 & P3) (Hv & Ha & Hb & Hw & Hal & Hp & Hi & Hba & Hbo).
  destruct (imu_rows _ _ _ _ x HJ P1 P2 P3) as [_ E]. cbv zeta in E. rewrite E. clear E HJ P1 P2 P3.
  set (s := imu_of (c 0) (iu_id u)) in *. set (b := s_body (e_state (c 0))) in *.
  pose proof (vmoves_add _ _ _ _ Hbo (turned_seen _ _ _ _ Hi (turned_seen _ _ _ _ Hb Hw))) as D5. cbv beta in D5.
  eapply vmoves_loc; [|eapply vmoves_eq; [|exact D5]].
  { exists 1. split; [lra|]. intros t _. destruct (imu_pred u (c t)) as [_ A]. symmetry. exact A. }
  clear D5. fold s b. unfold gyro_gap. fold s b. cbv zeta.
  destruct Hb as (Hb & _). destruct Hi as (Hi & _). fold s in Hi. fold b in Hb.
  rewrite qrot_mul by (apply qinv_unit; assumption).
  rewrite <- !(qmat_vec (qinv (i_ang s))), <- !(qmat_vec (qinv (b_ang b))) by (apply qinv_unit; assumption).
  set (Mi := qmat (qinv (i_ang s))). set (Mb := qmat (qinv (b_ang b))).
  unfold if_on. destruct (iu_ext u), (iu_int u).
  all: unfold mat_vec, vadd, vsub, vopp, vcross, vscale, v0; cbn [vx vy vz]; f_equal; ring.
Qed.

Lemma imu_right : forall u c jac e' x,
  imu_GetMeasurementJacobian u (c 0) = OK (jac, e') -> imu_apart u (imu_of (c 0) (iu_id u)) ->
  imu_rates u c x ->
  (vmoves (fun t => segv (fst (imu_PredictMeasurement u (c t))) 0) (rows3 jac x 0) <-> accel_gap u (c 0) x = v0) /\ (vmoves (fun t => segv (fst (imu_PredictMeasurement u (c t))) 3) (rows3 jac x 3) <-> gyro_gap u (c 0) x = v0).
Proof.
  intros u c jac e' x HJ P H. split; apply gap_iff.
  - exact (imu_accel _ _ _ _ _ HJ P H).
  - exact (imu_gyro _ _ _ _ _ HJ P H).
Qed.

(** *** At rest *)
Lemma zero_rows : forall u e jac e' x,
  GetZeroAccelerationJacobian u e = OK (jac, e') ->
  let s := imu_of e (iu_id u) in let b := s_body (e_state e) in
  imu_apart u s ->
  let g := qrot (qmul (qinv (i_ang s)) (qinv (b_ang b))) g_gravity in
  rows3 jac x 0 =
    vadd (vadd (vopp (vcross g (mat_vec (mtrans (QuaternionJacobian (b_ang b))) (slice x 9))))
      (if iu_ext u then vopp (vcross g (slice x (i_index_ext s))) else v0))
      (if iu_int u then vopp (slice x (i_index_int s)) else v0) /\
  (iu_int u = true -> rows3 jac x 3 = vopp (slice x (i_index_int s + 3))).
Proof.
  intros u e jac e' x H s b (Hx & Hi & Hd) g.
  unfold GetZeroAccelerationJacobian, GetImuState in H.
  change (mget default_imu (iu_id u) (s_imu (e_state e))) with s in H.
  cbn [e_state with_state state_with_imu s_body] in H. fold b in H. fold g in H.
  match type of H with context [mzero ?m ?k] => set (n := k) in H; set (rws := m) in H end.
  getb H j1 B1.
  assert (A0 : rows3 j1 x 0 = vopp (vcross g (mat_vec (mtrans (QuaternionJacobian (b_ang b))) (slice x 9)))).
  { rewrite (rows3_block _ _ _ _ _ x B1) by (intros; zi).
    rewrite rows3_zero, vadd_0_l, m3mul_vec, m3neg_vec, skew_cross. reflexivity. }
  assert (A3 : rows3 j1 x 3 = v0).
  { rewrite (rows3_other _ _ _ _ _ x 3 B1) by lia. apply rows3_zero. }
  assert (Z1 : forall i c, (18 <= c)%nat -> zero_in j1 i c) by (intros; zi).
  assert (T : exists j2, (if iu_ext u then set_block j1 0 (i_index_ext s) 3 3 (m3neg (SkewSymmetric g)) else OK j1) = OK j2 /\
     rows3 j2 x 0 = vadd (rows3 j1 x 0) (if iu_ext u then vopp (vcross g (slice x (i_index_ext s))) else v0) /\
     rows3 j2 x 3 = v0 /\
     (iu_int u = true -> forall i c, (i_index_int s <= c)%nat -> (c + 3 <= i_index_int s + 6)%nat -> zero_in j2 i c)).
  { destruct (iu_ext u) eqn:Ex.
    - getb H j2 B2. exists j2. split; [reflexivity|]. specialize (Hx eq_refl).
      split; [|split].
      + rewrite (rows3_block _ _ _ _ _ x B2) by (intros; apply Z1; lia). rewrite m3neg_vec, skew_cross. reflexivity.
      + rewrite (rows3_other _ _ _ _ _ x 3 B2) by lia. exact A3.
      + intros Ei i c C1 C2. specialize (Hd eq_refl Ei). specialize (Hi Ei).
        eapply zero_block; [exact B2|right; lia|]. apply Z1. lia.
    - exists j1. split; [reflexivity|]. rewrite vadd_0_r'. split; [reflexivity|]. split; [exact A3|].
      intros Ei i c C1 C2. specialize (Hi Ei). apply Z1. lia. }
  destruct T as (j2 & E2 & R0 & R3 & Z2). rewrite E2 in H. cbn [bind] in H. rewrite A0 in R0.
  destruct (iu_int u) eqn:Ei.
  - specialize (Hi eq_refl). specialize (Z2 eq_refl). rewrite Nat.add_0_r in H. getb H j3 B3. getb H j4 B4.
    injection H as <- <-. split; [|intros _].
    + rewrite (rows3_other _ _ _ _ _ x 0 B4) by lia. rewrite (rows3_block _ _ _ _ _ x B3) by (intros; apply Z2; lia).
      rewrite R0, m3neg_vec, m3id_vec. reflexivity.
    + rewrite (rows3_block _ _ _ _ _ x B4) by (intros; eapply zero_block; [exact B3|left; lia|apply Z2; lia]).
      rewrite (rows3_other _ _ _ _ _ x 3 B3) by lia. rewrite R3, m3neg_vec, m3id_vec, vadd_0_l. reflexivity.
  - injection H as <- <-. rewrite R0, vadd_0_r'. split; [reflexivity|discriminate].
Qed.

Lemma rest_seen : forall u e acc omg, let s := imu_of e (iu_id u) in
  segv (zero_resid u e s acc omg) 0 = vopp (vsub (vsub acc (i_acc_bias s))
     (qrot (qmul (qinv (i_ang s)) (qinv (b_ang (s_body (e_state e))))) g_gravity)) /\
  (iu_int u = true -> segv (zero_resid u e s acc omg) 3 = vopp (vsub omg (i_omg_bias s))).
Proof.
  intros u e acc omg s. unfold zero_resid. set (r0 := vopp _). destruct (iu_int u).
  - split; [|intros _]; unfold segv, stack2; cbn [ent Nat.ltb Nat.leb Nat.add Nat.sub]; rewrite vget_eta; reflexivity.
  - split; [|discriminate]. unfold segv, v3mat. cbn [ent]. destruct r0. reflexivity.
Qed.

Lemma rest_right : forall u c jac e' x acc omg,
  GetZeroAccelerationJacobian u (c 0) = OK (jac, e') -> imu_apart u (imu_of (c 0) (iu_id u)) ->
  imu_rates u c x ->
  let shown t i := vopp (segv (zero_resid u (c t) (imu_of (c t) (iu_id u)) acc omg) i) in
  (vmoves (fun t => shown t 0%nat) (rows3 jac x 0) <-> rest_gap u (c 0) x = v0) /\
  (iu_int u = true -> vmoves (fun t => shown t 3%nat) (rows3 jac x 3)).
Proof.
  intros u c jac e' x acc omg HJ P (Hv & Ha & Hb & Hw & Hal & Hp & Hi & Hba & Hbo) shown.
  destruct (zero_rows _ _ _ _ x HJ P) as [E F]. cbv zeta in E, F. clear HJ P.
  set (s := imu_of (c 0) (iu_id u)) in *. set (b := s_body (e_state (c 0))) in *. split.
  - apply gap_iff. rewrite E. clear E F.
    pose proof (turned_seen _ _ _ _ Hi (turned_seen _ _ _ _ Hb (vmoves_const g_gravity))) as D. cbv beta in D.
    pose proof (vmoves_sub _ _ _ _ (vmoves_sub _ _ _ _ (vmoves_const acc) Hba) D) as D2. cbv beta in D2.
    eapply vmoves_loc; [|eapply vmoves_eq; [|exact D2]].
    { exists 1. split; [lra|]. intros t _. unfold shown. destruct (rest_seen u (c t) acc omg) as [A _]. rewrite A.
      assert (Q : qrot (qmul (qinv (i_ang (imu_of (c t) (iu_id u)))) (qinv (b_ang (s_body (e_state (c t)))))) g_gravity =
        qrot (qinv (i_ang (imu_of (c t) (iu_id u)))) (qrot (qinv (b_ang (s_body (e_state (c t))))) g_gravity)).
      { apply qrot_mul; apply qinv_unit.
        - destruct Hi as (U & k & r & Hk & _ & ->). rewrite qnorm2_mul, U, aaq_unit by exact Hk. ring.
        - destruct Hb as (U & k & r & Hk & _ & ->). rewrite qnorm2_mul, U, aaq_unit by exact Hk. ring. }
      rewrite Q. set (a := vsub _ _). destruct a as [a1 a2 a3]. unfold vopp. cbn [vx vy vz]. f_equal; ring. }
    clear D D2 shown. fold s b. unfold rest_gap. fold s b. cbv zeta.
    destruct Hb as (Hb & _). destruct Hi as (Hi & _). fold s in Hi. fold b in Hb.
    assert (Ui : qnorm2 (qinv (i_ang s)) = 1) by (apply qinv_unit; exact Hi).
    assert (Ub : qnorm2 (qinv (b_ang b)) = 1) by (apply qinv_unit; exact Hb).
    rewrite qrot_mul by assumption. rewrite mv_0, vadd_0_r'. rewrite !(qmat_vec (qinv (i_ang s))), !(qmat_vec (qinv (b_ang b))) by assumption.
    rewrite (qrot_cross (qinv (i_ang s))) by assumption.
    set (g := qrot (qinv (i_ang s)) (qrot (qinv (b_ang b)) g_gravity)).
    generalize (mat_vec (mtrans (QuaternionJacobian (b_ang b))) (slice x 9)) (qrot (qinv (i_ang s)) (slice x 9)).
    clearbody g. unfold if_on. intros j9 r9. destruct (iu_ext u), (iu_int u); clear;
    unfold vadd, vsub, vopp, vcross, v0; cbn [vx vy vz]; f_equal; ring.
  - intros Ei. rewrite (F Ei).
    pose proof (vmoves_sub _ _ _ _ (vmoves_const omg) Hbo) as D. unfold if_on in D. rewrite Ei in D. cbv beta in D.
    eapply vmoves_loc; [|eapply vmoves_eq; [|exact D]].
    { exists 1. split; [lra|]. intros t _. unfold shown. destruct (rest_seen u (c t) acc omg) as [_ A]. rewrite (A Ei).
      set (a := vsub _ _). destruct a as [a1 a2 a3]. unfold vopp. cbn [vx vy vz]. f_equal; ring. }
    fold s. unfold vsub, vopp, v0. cbn [vx vy vz]. f_equal; ring.
Qed.
