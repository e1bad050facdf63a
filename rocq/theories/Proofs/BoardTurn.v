(** The orientation rows of the fiducial Jacobian. *)
From Coq Require Import Reals List Arith Bool Lia Lra.
From Verif Require Import Base.Res Base.Mat Base.RDec Base.RSum Base.LinAlg Base.Geom Base.AMap Base.RMat
  Model.TypeHelper Model.Types Model.MathHelper Model.Matrix3 Model.Ekf Model.Updater Model.ImuUpdater Model.FiducialUpdater
  Spec.Rotation Spec.Deriv Spec.DerivImu Spec.AtRest Spec.Towards Spec.DerivBoard
  Proofs.Effects Proofs.Rotations Proofs.Deriv Proofs.RotDeriv Proofs.Jacobians Proofs.JacWrong Proofs.CamJacobians Proofs.FidJacobians
  Proofs.ImuJacobians Proofs.RestLookup Proofs.AtRest Proofs.TowardsImu Proofs.Finals Proofs.ImuJacDemo.
Import ListNotations.
Open Scope R_scope.

(** *** Rates of products *)
Lemma scaled_moves : forall g v d L, v 0 = 0 -> moves v d -> (forall eps, 0 < eps -> near (fun t => Rabs (g t - L) < eps)) ->
  moves (fun t => g t * v t) (L * d).
Proof.
  intros g v d L V0 M G.
  assert (Z : moves (fun t => (g t - L) * v t) 0).
  { intros eps He. assert (P : 0 < eps / (Rabs d + 1)) by (apply Rdiv_lt_0_compat; [exact He|pose proof (Rabs_pos d); lra]).
    destruct (G _ P) as [h1 [H1 G1]]. destruct (M 1 Rlt_0_1) as [h2 M2].
    assert (H : 0 < Rmin h1 h2) by (apply Rmin_glb_lt; [exact H1|apply cond_pos]).
    exists (mkposreal _ H). cbn [pos]. intros h Hn Hh. rewrite Rplus_0_l, V0, Rmult_0_r, !Rminus_0_r.
    assert (A1 : Rabs h < h1) by (eapply Rlt_le_trans; [exact Hh|apply Rmin_l]).
    assert (A2 : Rabs h < h2) by (eapply Rlt_le_trans; [exact Hh|apply Rmin_r]).
    specialize (G1 h A1). specialize (M2 h Hn A2). rewrite Rplus_0_l, V0, Rminus_0_r in M2.
    replace ((g h - L) * v h / h) with ((g h - L) * (v h / h)) by (field; exact Hn). rewrite Rabs_mult.
    assert (B : Rabs (v h / h) < Rabs d + 1) by (pose proof (Rabs_triang_inv (v h / h) d); lra).
    pose proof (Rabs_pos (g h - L)). pose proof (Rabs_pos (v h / h)). pose proof (Rabs_pos d).
    apply Rle_lt_trans with (Rabs (g h - L) * (Rabs d + 1)); [apply Rmult_le_compat_l; lra|].
    apply Rlt_le_trans with (eps / (Rabs d + 1) * (Rabs d + 1)); [apply Rmult_lt_compat_r; lra|]. right. field. lra. }
  pose proof (dl_plus _ _ 0 _ _ (dl_mult _ _ 0 _ _ (dl_const L 0) M) Z) as Q. eapply dl_eq; [|eapply dl_ext; [|exact Q]].
  - cbv beta. ring.
  - intros t. cbv beta. ring.
Qed.

Definition qmoves (q : R -> quat) (d : quat) : Prop :=
  moves (fun t => qw (q t)) (qw d) /\ moves (fun t => qx (q t)) (qx d) /\ moves (fun t => qy (q t)) (qy d) /\ moves (fun t => qz (q t)) (qz d).
Definition qadd (a b : quat) : quat := mkQ (qw a + qw b) (qx a + qx b) (qy a + qy b) (qz a + qz b).
Lemma qmoves_mul : forall p q a b, qmoves p a -> qmoves q b -> qmoves (fun t => qmul (p t) (q t)) (qadd (qmul a (q 0)) (qmul (p 0) b)).
Proof.
  intros p q a b (A1 & A2 & A3 & A4) (B1 & B2 & B3 & B4).
  unfold qmoves, qmul, qadd, moves in *. cbn [qw qx qy qz]. repeat split.
  all: eapply dl_eq; [|repeat first [apply dl_minus|apply dl_plus]; apply dl_mult; eassumption]; cbv beta; ring.
Qed.
Lemma qmoves_const : forall q, qmoves (fun _ => q) (mkQ 0 0 0 0).
Proof. intros q. repeat split; cbn [qw qx qy qz]; apply dl_const. Qed.
Lemma qmoves_conj : forall q d, qmoves q d -> qmoves (fun t => qconj (q t)) (qconj d).
Proof. intros q d (A & B & C & D). repeat split; cbn [qconj qw qx qy qz]; try assumption; apply dl_opp; assumption. Qed.
Lemma qmoves_ext : forall p q d, (forall t, p t = q t) -> qmoves p d -> qmoves q d.
Proof. intros p q d H (A & B & C & D). repeat split; (eapply dl_ext; [|eassumption]); intros t; cbv beta; rewrite H; reflexivity. Qed.

Definition pure (v : V3) : quat := mkQ 0 (vx v) (vy v) (vz v).
Lemma turned_moves : forall q d, turned_at q d -> qmoves q (qmul (q 0) (pure (vscale (/ 2) d))) /\ forall t, qnorm2 (q t) = 1.
Proof.
  intros q d [U [k [r [K [<- E]]]]].
  assert (A : qmoves (fun t => angle_axis_quat (r * t) k) (pure (vscale (/ 2) (vscale r k)))).
  { assert (M : moves (fun t => / 2 * (r * t)) (/ 2 * r)).
    { eapply dl_eq; [|apply dl_mult; [apply dl_const|apply dl_mult; [apply dl_const|apply dl_id]]]. cbv beta. ring. }
    unfold angle_axis_quat, pure, qmoves. cbn [qw qx qy qz vscale vx vy vz].
    assert (S : moves (fun t => sin (/ 2 * (r * t))) (/ 2 * r)).
    { eapply dl_eq; [|apply dl_sin; exact M]. cbv beta. rewrite !Rmult_0_r, cos_0. ring. }
    repeat split.
    - eapply dl_eq; [|apply dl_cos; exact M]. cbv beta. rewrite !Rmult_0_r, sin_0. ring.
    - eapply dl_eq; [|apply dl_mult; [exact S|apply dl_const]]. cbv beta. ring.
    - eapply dl_eq; [|apply dl_mult; [exact S|apply dl_const]]. cbv beta. ring.
    - eapply dl_eq; [|apply dl_mult; [exact S|apply dl_const]]. cbv beta. ring. }
  split.
  - eapply qmoves_ext; [intros t; symmetry; apply E|]. pose proof (qmoves_mul _ _ _ _ (qmoves_const (q 0)) A) as Q. cbv beta in Q.
    replace (qadd (qmul (mkQ 0 0 0 0) (angle_axis_quat (r * 0) k)) (qmul (q 0) (pure (vscale (/ 2) (vscale r k)))))
      with (qmul (q 0) (pure (vscale (/ 2) (vscale r k)))) in Q; [exact Q|].
    destruct (qmul (q 0) _) as [a b c e]. unfold qadd, qmul. cbn [qw qx qy qz]. f_equal; ring.
  - intros t. rewrite E. apply unit_mul; [exact U|]. apply aaq_unit. exact K.
Qed.

(** *** The rotation vector near the identity *)
Lemma atan_le : forall x, 0 < x -> atan x <= x.
Proof.
  intros x H. destruct (MVT_cor2 atan (fun c => / (1 + c ^ 2)) 0 x H) as [c [E C]].
  { intros c _. apply derivable_pt_lim_atan. }
  rewrite atan_0, !Rminus_0_r in E. rewrite E.
  assert (B : / (1 + c ^ 2) <= 1) by (rewrite <- Rinv_1; apply Rinv_le_contravar; nra). nra.
Qed.

Definition stretch (q : quat) : R :=
  if Reqb (vnorm (qvec q)) 0 then 2 else 2 * atan2_nn (vnorm (qvec q)) (qw q) / vnorm (qvec q).
Lemma rotvec_stretch : forall q, 0 < qw q -> QuatToRotVec q = vscale (stretch q) (qvec q).
Proof.
  intros q W. unfold QuatToRotVec, quat_angle_axis, stretch. destruct (Reqb (vnorm (qvec q)) 0) eqn:E.
  - apply Reqb_spec in E. apply vnorm_zero in E. rewrite E. unfold vscale, v0. cbn [vx vy vz]. f_equal; ring.
  - apply Reqb_false in E. rewrite Rltb_ff, Rabs_right by lra. unfold vdiv, vscale. cbn [vx vy vz]. f_equal; field; exact E.
Qed.
Lemma stretch_near : forall q, qnorm2 q = 1 -> 0 < qw q -> 2 <= stretch q <= 2 / qw q.
Proof.
  intros q U W. unfold stretch. destruct (Reqb (vnorm (qvec q)) 0) eqn:E.
  - apply Reqb_spec in E. apply vnorm_zero in E. assert (Q : qw q = 1).
    { destruct q as [w x y z]. unfold qvec in E. cbn [qx qy qz qw] in *. injection E as -> -> ->. unfold qnorm2 in U. cbn [qx qy qz qw] in U. nra. }
    rewrite Q. lra.
  - apply Reqb_false in E. pose proof (vnorm_nonneg (qvec q)) as P. set (n := vnorm (qvec q)) in *. set (w := qw q) in *.
    assert (N : w * w + n * n = 1).
    { unfold n. rewrite vnorm_sq. rewrite <- U. unfold vnorm2, vdot, qvec, qnorm2, w. cbn [vx vy vz]. ring. }
    assert (S : n = sin (atan2_nn n w)) by (symmetry; apply (atan2_cos_sin n w); lra).
    assert (A : atan2_nn n w = atan (n / w)) by (unfold atan2_nn; rewrite Rltb_true by exact W; reflexivity).
    assert (D : 0 < n / w) by (apply Rdiv_lt_0_compat; lra).
    assert (B : 0 < atan (n / w)) by (rewrite <- atan_0; apply atan_increasing; exact D).
    pose proof (sin_lt_x _ B) as L1. pose proof (atan_le _ D) as L2. rewrite A in S |- *. rewrite <- S in L1.
    assert (n <> 0) by lra. split.
    + apply (Rmult_le_reg_r n); [lra|]. unfold Rdiv. rewrite Rmult_assoc, Rinv_l by lra. lra.
    + apply (Rmult_le_reg_r n); [lra|]. unfold Rdiv at 1. rewrite Rmult_assoc, Rinv_l by lra.
      replace (2 / w * n) with (2 * (n / w)) by (field; lra). lra.
Qed.
Lemma log_moves : forall q d, near (fun t => qnorm2 (q t) = 1) -> q 0 = qid -> qmoves q d ->
  vmoves (fun t => QuatToRotVec (q t)) (vscale 2 (qvec d)).
Proof.
  intros q d U Q0 (M1 & M2 & M3 & M4).
  assert (W : forall m, m < 1 -> near (fun t => m < qw (q t))) by (intros m Hm; eapply moves_gt; [exact M1|rewrite Q0; exact Hm]).
  assert (G : forall eps, 0 < eps -> near (fun t => Rabs (stretch (q t) - 2) < eps)).
  { intros eps He. assert (B : 2 / (2 + eps) < 1) by (apply (Rmult_lt_reg_r (2 + eps)); [lra|]; unfold Rdiv; rewrite Rmult_assoc, Rinv_l by lra; lra).
    assert (B' : 0 < 2 / (2 + eps)) by (apply Rdiv_lt_0_compat; lra).
    destruct (W _ B) as [h1 [H1 W1]], U as [h2 [H2 U2]]. exists (Rmin h1 h2). split; [apply Rmin_glb_lt; assumption|].
    intros t Ht. assert (W2 := W1 t (Rlt_le_trans _ _ _ Ht (Rmin_l _ _))). assert (U3 := U2 t (Rlt_le_trans _ _ _ Ht (Rmin_r _ _))).
    destruct (stretch_near (q t) U3 ltac:(lra)) as [S1 S2]. rewrite Rabs_right by lra.
    assert (2 / qw (q t) < 2 + eps); [|lra].
    apply (Rmult_lt_reg_r (qw (q t))); [lra|]. unfold Rdiv at 1. rewrite Rmult_assoc, Rinv_l by lra.
    apply (Rmult_lt_compat_l (2 + eps)) in W2; [|lra]. replace ((2 + eps) * (2 / (2 + eps))) with 2 in W2 by (field; lra). lra. }
  assert (L : near (fun t => QuatToRotVec (q t) = vscale (stretch (q t)) (qvec (q t)))).
  { destruct (W 0 ltac:(lra)) as [h [H1 H2]]. exists h. split; [exact H1|]. intros t Ht. apply rotvec_stretch. apply H2. exact Ht. }
  assert (R : vmoves (fun t => vscale (stretch (q t)) (qvec (q t))) (vscale 2 (qvec d))).
  { unfold vmoves, vscale, qvec. cbn [vx vy vz]. repeat split; apply scaled_moves; try assumption; rewrite Q0; reflexivity. }
  destruct L as [h [H1 H2]]. destruct R as (R1 & R2 & R3).
  repeat split; (eapply moves_loc; [exists h; split; [exact H1|intros t Ht; cbv beta; rewrite (H2 t Ht); reflexivity]|assumption]).
Qed.
Lemma rotvec_opposite : forall q, 0 < qw q -> QuatToRotVec (opposite q) = QuatToRotVec q.
Proof.
  intros q W. unfold QuatToRotVec, quat_angle_axis. rewrite opp_len.
  assert (O : qw (opposite q) = - qw q) by reflexivity. rewrite O, Rabs_Ropp.
  destruct (Reqb (vnorm (qvec q)) 0) eqn:E; [reflexivity|]. apply Reqb_false in E.
  rewrite Rltb_true, (Rltb_ff (qw q)) by lra. unfold vdiv, qvec, opposite. cbn [vx vy vz qx qy qz]. f_equal; field; exact E.
Qed.

(** *** The turn of the board as seen *)
Lemma qmul_assoc' : forall a b c, qmul (qmul a b) c = qmul a (qmul b c).
Proof. intros [a b c d] [e f g h] [i j k l]. unfold qmul. cbn [qw qx qy qz]. f_equal; ring. Qed.
Lemma conj_mul : forall a b, qconj (qmul a b) = qmul (qconj b) (qconj a).
Proof. intros [a b c d] [e f g h]. unfold qmul, qconj. cbn [qw qx qy qz]. f_equal; ring. Qed.
Lemma conj_conj : forall a, qconj (qconj a) = a.
Proof. intros [a b c d]. unfold qconj. cbn [qw qx qy qz]. f_equal; ring. Qed.
Lemma conj_pure : forall v, qconj (pure v) = pure (vopp v).
Proof. intros v. unfold qconj, pure, vopp. cbn [qw qx qy qz vx vy vz]. f_equal; ring. Qed.
Lemma conj_l : forall q, qnorm2 q = 1 -> qmul (qconj q) q = qid.
Proof. intros q H. destruct (qmul_conj q) as [-> _]. rewrite H. reflexivity. Qed.
Lemma conj_r : forall q, qnorm2 q = 1 -> qmul q (qconj q) = qid.
Proof. intros q H. destruct (qmul_conj q) as [_ ->]. rewrite H. reflexivity. Qed.
Lemma qid_l : forall q, qmul qid q = q.
Proof. intros [a b c d]. unfold qmul, qid. cbn [qw qx qy qz]. f_equal; ring. Qed.
Lemma qid_r : forall q, qmul q qid = q.
Proof. intros [a b c d]. unfold qmul, qid. cbn [qw qx qy qz]. f_equal; ring. Qed.
Lemma conj_unit : forall q, qnorm2 q = 1 -> qnorm2 (qconj q) = 1.
Proof. intros q H. rewrite <- (qinv_conj q H). apply qinv_unit. exact H. Qed.
Lemma qadd_mul : forall a b c, qmul (qadd a b) c = qadd (qmul a c) (qmul b c).
Proof. intros [a b c d] [e f g h] [i j k l]. unfold qmul, qadd. cbn [qw qx qy qz]. f_equal; ring. Qed.
Lemma sandwich : forall q v, qnorm2 q = 1 -> qmul (qmul q (pure v)) (qconj q) = pure (qrot q v).
Proof.
  intros q v U. rewrite qrot_hrot by exact U. destruct q as [w x y z], v as [a b c].
  unfold qmul, pure, qconj, hrot, qvec, vadd, vcross, vscale, vdot. cbn [qw qx qy qz vx vy vz]. f_equal; ring.
Qed.

Lemma product_rate : forall C B F c b f, turned_at C c -> turned_at B b -> turned_at F f ->
  let P t := qmul (qmul (qinv (C t)) (qinv (B t))) (F t) in
  (forall t, qnorm2 (P t) = 1) /\
  exists d, qmoves (fun t => qmul (P t) (qconj (P 0))) d /\
    vscale 2 (qvec d) = vadd (vopp (vadd c (qrot (qinv (C 0)) b))) (qrot (P 0) f).
Proof.
  intros C B F c b f TC TB TF P. destruct (turned_moves C c TC) as [MC UC], (turned_moves B b TB) as [MB UB], (turned_moves F f TF) as [MF UF].
  assert (UP : forall t, qnorm2 (P t) = 1) by (intros t; unfold P; repeat apply unit_mul; try apply qinv_unit; auto).
  split; [exact UP|].
  assert (M : qmoves P (qadd (qmul (qadd (qmul (qconj (qmul (C 0) (pure (vscale (/ 2) c)))) (qconj (B 0)))
                                  (qmul (qconj (C 0)) (qconj (qmul (B 0) (pure (vscale (/ 2) b)))))) (F 0))
                            (qmul (qmul (qconj (C 0)) (qconj (B 0))) (qmul (F 0) (pure (vscale (/ 2) f)))))).
  { apply (qmoves_ext (fun t => qmul (qmul (qconj (C t)) (qconj (B t))) (F t))).
    - intros t. unfold P. rewrite !qinv_conj by auto. reflexivity.
    - apply (qmoves_mul _ _ _ _ (qmoves_mul _ _ _ _ (qmoves_conj _ _ MC) (qmoves_conj _ _ MB)) MF). }
  pose proof (qmoves_mul _ _ _ _ M (qmoves_const (qconj (P 0)))) as Q. cbv beta in Q. eexists. split; [exact Q|].
  assert (Z : forall a, qadd a (qmul (P 0) (mkQ 0 0 0 0)) = a).
  { intros [a1 a2 a3 a4]. unfold qadd, qmul. cbn [qw qx qy qz]. f_equal; ring. }
  rewrite Z, !qadd_mul.
  assert (E1 : qmul (qmul (qmul (qconj (qmul (C 0) (pure (vscale (/ 2) c)))) (qconj (B 0))) (F 0)) (qconj (P 0)) = pure (vscale (- / 2) c)).
  { rewrite conj_mul, conj_pure. rewrite (qmul_assoc' (pure _)), (qmul_assoc' (pure _)).
    replace (qmul (qmul (qconj (C 0)) (qconj (B 0))) (F 0)) with (P 0) by (unfold P; rewrite !qinv_conj by auto; reflexivity).
    rewrite qmul_assoc', conj_r, qid_r by auto. unfold pure, vopp, vscale. cbn [vx vy vz]. f_equal; ring. }
  assert (E2 : qmul (qmul (qmul (qconj (C 0)) (qconj (qmul (B 0) (pure (vscale (/ 2) b))))) (F 0)) (qconj (P 0)) =
               pure (qrot (qinv (C 0)) (vscale (- / 2) b))).
  { rewrite conj_mul, conj_pure. unfold P. rewrite !conj_mul, !qinv_conj, !conj_conj by auto.
    replace (vopp (vscale (/ 2) b)) with (vscale (- / 2) b) by (unfold vopp, vscale; cbn [vx vy vz]; f_equal; ring).
    rewrite <- (sandwich (qconj (C 0))) by (apply conj_unit; auto). rewrite conj_conj.
    rewrite !qmul_assoc'. f_equal. f_equal.
    rewrite <- (qmul_assoc' (F 0) (qconj (F 0))), conj_r, qid_l by auto.
    rewrite <- (qmul_assoc' (qconj (B 0)) (B 0)), conj_l, qid_l by auto. reflexivity. }
  assert (E3 : qmul (qmul (qmul (qconj (C 0)) (qconj (B 0))) (qmul (F 0) (pure (vscale (/ 2) f)))) (qconj (P 0)) =
               pure (qrot (P 0) (vscale (/ 2) f))).
  { rewrite <- sandwich by auto. f_equal. rewrite <- qmul_assoc'. f_equal. unfold P. rewrite !qinv_conj by auto. reflexivity. }
  rewrite E1, E2, E3.
  assert (QS : forall q k v, qrot q (vscale k v) = vscale k (qrot q v)).
  { intros q k [v1 v2 v3]. unfold qrot, vadd, vcross, vscale, qvec. cbn [vx vy vz]. f_equal; ring. }
  rewrite !QS. unfold qadd, pure, vscale, vadd, vopp, qvec. cbn [qw qx qy qz vx vy vz]. f_equal; field.
Qed.

Lemma same_inv : forall p q, same_turn p q -> qnorm2 q = 1 -> qinv p = qconj q \/ qinv p = opposite (qconj q).
Proof.
  intros p q [-> | ->] U; [left; apply qinv_conj; exact U|right].
  rewrite qinv_conj; [|destruct q as [a b c d]; unfold qnorm2, opposite in *; cbn [qw qx qy qz] in *; rewrite <- U; ring].
  destruct q as [a b c d]. unfold qconj, opposite. cbn [qw qx qy qz]. reflexivity.
Qed.
Lemma opp_opp : forall q, opposite (opposite q) = q.
Proof. intros [a b c d]. unfold opposite. cbn [qw qx qy qz]. f_equal; ring. Qed.
Lemma same_product : forall p m q r, same_turn p q -> same_turn m r -> qnorm2 r = 1 ->
  same_turn (qmul p (qinv m)) (qmul q (qconj r)).
Proof.
  intros p m q r Hp Hm U. destruct (same_inv m r Hm U) as [-> | ->], Hp as [-> | ->]; rewrite ?opp_mul_l, ?opp_mul_r, ?opp_mul_l, ?opp_opp.
  - left. reflexivity.
  - right. reflexivity.
  - right. reflexivity.
  - left. reflexivity.
Qed.

Lemma fid_turn_rows : forall u e jac u' e' x k f, p_fej (e_par e) = false ->
  fid_GetMeasurementJacobian u e = OK (jac, u', e') ->
  mfind (fu_cam u) (s_cam (e_state e)) = Some k -> mfind (fu_id u) (s_fid (e_state e)) = Some f -> board_apart u k f ->
  let b := s_body (e_state e) in
  let rc := m3tr (qmat (c_ang k)) in let rb := m3tr (qmat (b_ang b)) in
  rows3 jac x 3 =
   vadd (vadd (mat_vec (m3mul (m3mul (m3neg (m3mul rc rb)) (qmat (f_ang f))) (m3tr (QuaternionJacobian (b_ang b)))) (slice x 9))
      (if fu_cam_ext u then mat_vec (m3mul (m3mul (m3mul (m3neg rc) (m3tr (QuaternionJacobian (c_ang k)))) rb) (qmat (f_ang f))) (slice x (c_index k + 3)) else v0))
      (if fu_ext u then slice x (f_index f + 3) else v0).
Proof.
  intros u e jac u' e' x k f Hf H Hk Hm [A1 [A2 A3]] b rc rb.
  unfold fid_GetMeasurementJacobian, fid_RefreshStates in H. rewrite Hf in H. cbn [negb orb] in H.
  rewrite !(get_cam_known _ _ _ Hk) in H. cbn [bind] in H. unfold fid_at in H. rewrite !Hm in H. cbn [bind fu_cam_ext fu_ext fu_cam fu_id] in H.
  rewrite ?(get_cam_known _ _ _ Hk) in H. rewrite ?Hm in H. cbv beta iota zeta in H.
  fold b in H. fold rc in H. fold rb in H.
  destruct (set_block _ 0 0 3 3 _) as [j1|] eqn:B1; [|discriminate]. cbn [bind] in H.
  destruct (set_block j1 0 9 3 3 _) as [j2|] eqn:B2; [|discriminate]. cbn [bind] in H.
  destruct (set_block j2 3 9 3 3 _) as [j3|] eqn:B3; [|discriminate]. cbn [bind] in H.
  assert (R3 : rows3 j3 x 3 = mat_vec (m3mul (m3mul (m3neg (m3mul rc rb)) (qmat (f_ang f))) (m3tr (QuaternionJacobian (b_ang b)))) (slice x 9)).
  { rewrite (rows3_block _ _ _ _ _ x B3) by (intros; zi). rewrite (rows3_other _ _ _ _ _ x 3 B2) by lia. rewrite (rows3_other _ _ _ _ _ x 3 B1) by lia.
    rewrite rows3_zero, vadd_0_l. reflexivity. }
  destruct (fu_cam_ext u) eqn:Ec.
  - specialize (A1 eq_refl).
    destruct (set_block j3 0 (c_index k + 0) 3 3 _) as [j4|] eqn:B4; [|discriminate]. cbn [bind] in H.
    destruct (set_block j4 0 (c_index k + 3) 3 3 _) as [j5|] eqn:B5; [|discriminate]. cbn [bind] in H.
    destruct (set_block j5 3 (c_index k + 3) 3 3 _) as [j6|] eqn:B6; [|discriminate]. cbn [bind] in H.
    assert (R6 : rows3 j6 x 3 = vadd (rows3 j3 x 3) (mat_vec (m3mul (m3mul (m3mul (m3neg rc) (m3tr (QuaternionJacobian (c_ang k)))) rb) (qmat (f_ang f))) (slice x (c_index k + 3)))).
    { rewrite (rows3_block _ _ _ _ _ x B6) by (intros; zi). rewrite (rows3_other _ _ _ _ _ x 3 B5) by lia. rewrite (rows3_other _ _ _ _ _ x 3 B4) by lia. reflexivity. }
    destruct (fu_ext u) eqn:Ex.
    + specialize (A2 eq_refl). specialize (A3 eq_refl eq_refl).
      rewrite Hm in H. cbn [bind] in H.
      destruct (set_block j6 0 (f_index f + 0) 3 3 _) as [j7|] eqn:B7; [|discriminate]. cbn [bind] in H.
      destruct (set_block j7 3 (f_index f + 3) 3 3 _) as [j8|] eqn:B8; [|discriminate]. cbn [bind] in H.
      injection H as <- <- <-. rewrite (rows3_block _ _ _ _ _ x B8) by (destruct A3; intros; zi). rewrite (rows3_other _ _ _ _ _ x 3 B7) by lia.
      rewrite R6, R3, m3id_vec. reflexivity.
    + injection H as <- <- <-. rewrite R6, R3, vadd_0_r. reflexivity.
  - cbn [bind] in H. destruct (fu_ext u) eqn:Ex.
    + specialize (A2 eq_refl).
      rewrite Hm in H. cbn [bind] in H.
      destruct (set_block j3 0 (f_index f + 0) 3 3 _) as [j7|] eqn:B7; [|discriminate]. cbn [bind] in H.
      destruct (set_block j7 3 (f_index f + 3) 3 3 _) as [j8|] eqn:B8; [|discriminate]. cbn [bind] in H.
      injection H as <- <- <-. rewrite (rows3_block _ _ _ _ _ x B8) by (intros; zi). rewrite (rows3_other _ _ _ _ _ x 3 B7) by lia.
      rewrite R3, m3id_vec, vadd_0_r. reflexivity.
    + injection H as <- <- <-. rewrite R3, !vadd_0_r. reflexivity.
Qed.

Lemma clear_near : forall P d, qmoves P d -> (forall t, qnorm2 (P t) = 1) -> 1 / 1000000000 < vnorm (QuatToRotVec (P 0)) ->
  near (fun t => representable (P t)).
Proof.
  intros P d [M _] U H. pose proof PI2_3_2 as PI2.
  assert (A : forall q, qnorm2 q = 1 -> (1 / 1000000000 < vnorm (QuatToRotVec q) <-> Rabs (qw q) < cos (1 / 2000000000))).
  { intros q Uq. rewrite rotvec_len by exact Uq. destruct (half_angle q Uq) as [C _].
    destruct (atan2_range (vnorm (qvec q)) (Rabs (qw q)) (Rabs_pos _) (vnorm_nonneg _)) as [R1 R2].
    revert C R1 R2. generalize (atan2_nn (vnorm (qvec q)) (Rabs (qw q))). intros y <- R1 R2.
    split; intros X.
    - apply cos_decreasing_1; lra.
    - destruct (Rle_or_lt (1 / 2000000000) y) as [Y|Y].
      + destruct Y as [Y|Y]; [lra|]. rewrite <- Y in X. lra.
      + exfalso. assert (cos (1 / 2000000000) < cos y) by (apply cos_decreasing_1; lra). lra. }
  apply A in H; [|apply U].
  destruct (moves_cont _ _ (cos (1 / 2000000000) - Rabs (qw (P 0))) M ltac:(lra)) as [h [Hh E]]. exists h. split; [exact Hh|].
  intros t Ht. specialize (E t Ht). right. apply A; [apply U|]. pose proof (Rabs_triang_inv (qw (P t)) (qw (P 0))). lra.
Qed.

Lemma jac_qid : forall v, mat_vec (m3tr (QuaternionJacobian qid)) v = v.
Proof.
  intros [a b c]. unfold QuaternionJacobian. rewrite quat_rotvec_id.
  unfold mat_vec, m3tr, SkewSymmetric, of_list, tr, madd, msub, mscal, mm, idm, rsum, v0. cbn. f_equal; ring.
Qed.

Lemma inv_qid : qinv qid = qid.
Proof. rewrite qinv_conj by apply qnorm2_id. unfold qconj, qid. cbn. f_equal; ring. Qed.

Section Curve.
Variable mq : mat R -> quat.
Variables (u u' : fid_updater) (c : R -> ekf) (e' : ekf) (jac : mat R) (x : nat -> R).
Variables (k : R -> CamState) (f : R -> FidState) (ang : R -> V3) (meas : quat).
Hypothesis reads : reads_rotations mq.
Hypothesis nofej : forall t, p_fej (e_par (c t)) = false.
Hypothesis jacobian : fid_GetMeasurementJacobian u (c 0) = OK (jac, u', e').
Hypothesis camera : forall t, mfind (fu_cam u) (s_cam (e_state (c t))) = Some (k t).
Hypothesis board : forall t, mfind (fu_id u) (s_fid (e_state (c t))) = Some (f t).
Hypothesis predicted : forall t, exists p v e, fid_PredictMeasurement mq u (c t) = OK (p, ang t, v, e).
Hypothesis apart : board_apart u (k 0) (f 0).
Hypothesis rates : board_rates u c k f x.
Hypothesis seen : seen_turned (c 0) (k 0) (f 0).
Hypothesis agrees : same_turn meas (board_turn (c 0) (k 0) (f 0)).

Lemma ang_is : forall t, ang t = QuatToRotVec (qmul (mq (m3mul (m3tr (qmat (c_ang (k t)))) (m3tr (qmat (b_ang (s_body (e_state (c t)))))))) (f_ang (f t))).
Proof.
  intros t. destruct (predicted t) as [p [v [e E]]]. unfold fid_PredictMeasurement, fid_RefreshStates in E. rewrite nofej in E. cbn [negb orb] in E.
  rewrite (get_cam_known _ _ _ (camera t)) in E. unfold fid_at in E. rewrite board in E. cbn [bind] in E. injection E as _ <- _ _. reflexivity.
Qed.
Lemma shown_rate : vmoves (fun t => turn_shown (ang t) meas)
  (vadd (vadd (if_on (fu_cam_ext u) x (c_index (k 0) + 3)) (qrot (qinv (c_ang (k 0))) (slice x 9)))
        (vopp (qrot (board_turn (c 0) (k 0) (f 0)) (if_on (fu_ext u) x (f_index (f 0) + 3))))).
Proof.
  destruct rates as [RB [RC RF]]. destruct (product_rate _ _ _ _ _ _ RC RB RF) as [UP [d [M V]]]. cbv beta in *.
  set (P := fun t => qmul (qmul (qinv (c_ang (k t))) (qinv (b_ang (s_body (e_state (c t)))))) (f_ang (f t))) in *.
  change (qmul (qmul (qinv (c_ang (k 0))) (qinv (b_ang (s_body (e_state (c 0)))))) (f_ang (f 0))) with (P 0) in *.
  assert (Q0 : qmul (P 0) (qconj (P 0)) = qid) by (apply conj_r; apply UP).
  assert (L := log_moves (fun t => qmul (P t) (qconj (P 0))) d).
  assert (L' : vmoves (fun t => QuatToRotVec (qmul (P t) (qconj (P 0)))) (vscale 2 (qvec d))).
  { apply L; [exists 1; split; [lra|]; intros t _; apply unit_mul; [apply UP|apply conj_unit, UP]|exact Q0|exact M]. }
  clear L. apply vmoves_opp in L'. rewrite V in L'.
  assert (clear : near (fun t => representable (board_turn (c t) (k t) (f t)))).
  { apply (clear_near P (qadd (qmul d (P 0)) (qmul (qmul (P 0) (qconj (P 0))) (mkQ 0 0 0 0)))); [|exact UP|exact seen].
    eapply qmoves_ext; [|exact (qmoves_mul _ _ _ _ M (qmoves_const (P 0)))]. intros t. cbv beta.
    rewrite qmul_assoc', conj_l by apply UP. apply qid_r. }
  assert (W : near (fun t => 0 < qw (qmul (P t) (qconj (P 0))))).
  { destruct M as [M1 _]. eapply moves_gt; [exact M1|]. cbv beta. rewrite Q0. cbn. lra. }
  destruct (turned_moves _ _ RC) as [_ UC], (turned_moves _ _ RB) as [_ UB], (turned_moves _ _ RF) as [_ UF]. cbv beta in *.
  assert (N : near (fun t => turn_shown (ang t) meas = vopp (QuatToRotVec (qmul (P t) (qconj (P 0)))))).
  { destruct W as [h1 [H1 W]], clear as [h2 [H2 CL]]. exists (Rmin h1 h2). split; [apply Rmin_glb_lt; assumption|].
    intros t Ht. specialize (W t (Rlt_le_trans _ _ _ Ht (Rmin_l _ _))). specialize (CL t (Rlt_le_trans _ _ _ Ht (Rmin_r _ _))).
    unfold turn_shown. f_equal. rewrite ang_is.
    assert (ST := turn_read mq (c_ang (k t)) (b_ang (s_body (e_state (c t)))) (f_ang (f t)) reads (UC t) (UB t) (UF t) CL).
    destruct (same_product _ _ _ _ ST agrees (UP 0)) as [-> | ->]; [reflexivity|]. apply rotvec_opposite. exact W. }
  destruct N as [h [H1 H2]].
  assert (E : vadd (vadd (if_on (fu_cam_ext u) x (c_index (k 0) + 3)) (qrot (qinv (c_ang (k 0))) (slice x 9)))
        (vopp (qrot (board_turn (c 0) (k 0) (f 0)) (if_on (fu_ext u) x (f_index (f 0) + 3)))) =
      vopp (vadd (vopp (vadd (if_on (fu_cam_ext u) x (c_index (k 0) + 3)) (qrot (qinv (c_ang (k 0))) (slice x 9))))
                 (qrot (P 0) (if_on (fu_ext u) x (f_index (f 0) + 3))))).
  { change (board_turn (c 0) (k 0) (f 0)) with (P 0). unfold vadd, vopp. cbn [vx vy vz]. f_equal; ring. }
  rewrite E. destruct L' as (L1 & L2 & L3).
  repeat split; (eapply moves_loc; [exists h; split; [exact H1|intros t Ht; cbv beta; rewrite (H2 t Ht); reflexivity]|assumption]).
Qed.

Lemma mtrans_m3tr : forall q v, mat_vec (mtrans (QuaternionJacobian q)) v = mat_vec (m3tr (QuaternionJacobian q)) v.
Proof. reflexivity. Qed.
Lemma qrot_opp : forall q v, qrot q (vopp v) = vopp (qrot q v).
Proof. intros q [a b d]. unfold qrot, vadd, vcross, vscale, vopp, qvec. cbn [vx vy vz]. f_equal; ring. Qed.
Lemma qrot_add : forall q a b, qrot q (vadd a b) = vadd (qrot q a) (qrot q b).
Proof. intros q [a1 a2 a3] [b1 b2 b3]. unfold qrot, vadd, vcross, vscale, qvec. cbn [vx vy vz]. f_equal; ring. Qed.
Lemma qrot_0 : forall q, qrot q v0 = v0.
Proof. intros q. unfold qrot, vadd, vcross, vscale, qvec, v0. cbn [vx vy vz]. f_equal; ring. Qed.
Lemma rows_and_gap : vadd (rows3 jac x 3) (turn_gap u (c 0) (k 0) (f 0) x) =
  vadd (vadd (if_on (fu_cam_ext u) x (c_index (k 0) + 3)) (qrot (qinv (c_ang (k 0))) (slice x 9)))
        (vopp (qrot (board_turn (c 0) (k 0) (f 0)) (if_on (fu_ext u) x (f_index (f 0) + 3)))).
Proof.
  destruct rates as [[UB _] [[UC _] [UF _]]]. cbv beta in *.
  rewrite (fid_turn_rows _ _ _ _ _ x _ _ (nofej 0) jacobian (camera 0) (board 0) apart). cbv zeta.
  rewrite !m3mul_vec, !m3neg_vec, !m3mul_vec, !(m3tr_qmat _ _ UC), !(m3tr_qmat _ _ UB), !(qmat_vec _ _ UF).
  unfold turn_gap, body_turn_gap, cam_turn_gap, board_turn_gap. rewrite !mtrans_m3tr, qrot_add.
  generalize (qrot (qinv (c_ang (k 0))) (qrot (qinv (b_ang (s_body (e_state (c 0))))) (qrot (f_ang (f 0)) (mat_vec (m3tr (QuaternionJacobian (b_ang (s_body (e_state (c 0)))))) (slice x 9))))).
  generalize (qrot (qinv (c_ang (k 0))) (slice x 9)). intros p1 p2.
  unfold if_on. destruct (fu_cam_ext u), (fu_ext u); rewrite ?qrot_0, ?mv_0, ?qrot_0;
    unfold vadd, vopp, v0; cbn [vx vy vz]; f_equal; ring.
Qed.
Theorem board_turn_right : vmoves (fun t => turn_shown (ang t) meas) (rows3 jac x 3) <-> turn_gap u (c 0) (k 0) (f 0) x = v0.
Proof. apply gap_iff. rewrite rows_and_gap. exact shown_rate. Qed.
Theorem board_turn_opposite : b_ang (s_body (e_state (c 0))) = qid -> f_ang (f 0) = qid ->
  if_on (fu_cam_ext u) x (c_index (k 0) + 3) = v0 -> if_on (fu_ext u) x (f_index (f 0) + 3) = v0 ->
  vmoves (fun t => turn_shown (ang t) meas) (vopp (rows3 jac x 3)).
Proof.
  intros B F Xc Xf. pose proof shown_rate as S. rewrite Xc, Xf, qrot_0 in S.
  destruct rates as [[UB _] [[UC _] [UF _]]]. cbv beta in *.
  rewrite (fid_turn_rows _ _ _ _ _ x _ _ (nofej 0) jacobian (camera 0) (board 0) apart). cbv zeta.
  assert (Q : (if fu_cam_ext u then mat_vec (m3mul (m3mul (m3mul (m3neg (m3tr (qmat (c_ang (k 0))))) (m3tr (QuaternionJacobian (c_ang (k 0)))))
     (m3tr (qmat (b_ang (s_body (e_state (c 0))))))) (qmat (f_ang (f 0)))) (slice x (c_index (k 0) + 3)) else v0) = v0).
  { unfold if_on in Xc. destruct (fu_cam_ext u); [rewrite Xc; apply mv_0|reflexivity]. }
  rewrite Q. assert (Q' : (if fu_ext u then slice x (f_index (f 0) + 3) else v0) = v0) by (unfold if_on in Xf; destruct (fu_ext u); [exact Xf|reflexivity]).
  rewrite Q', !vadd_0_r, !m3mul_vec, !m3neg_vec, !m3mul_vec, !(m3tr_qmat _ _ UC), !(m3tr_qmat _ _ UB), !(qmat_vec _ _ UF), B, F, jac_qid, inv_qid, !JacWrong.qrot_id.
  eapply vmoves_eq; [|exact S]. generalize (qrot (qinv (c_ang (k 0))) (slice x 9)). intros [a b d]. unfold vadd, vopp, v0. cbn [vx vy vz]. f_equal; ring.
Qed.
End Curve.

(** *** It never vanishes *)
Definition ax (i : nat) : V3 := match i with O => mkV3 1 0 0 | 1%nat => mkV3 0 1 0 | _ => mkV3 0 0 1 end.
Lemma not_turned_back : forall q r, qnorm2 r = 1 -> (forall i, (i < 3)%nat -> mat_vec (m3tr (QuaternionJacobian q)) (ax i) = vopp (qrot r (ax i))) -> False.
Proof.
  intros q r U H. unfold QuaternionJacobian in H. set (v := QuatToRotVec q) in *. set (n := Rmax (vnorm v) (1 / 1000000000)) in *.
  assert (N : 0 < n) by (unfold n; eapply Rlt_le_trans; [|apply Rmax_r]; lra).
  assert (L : vnorm v <= n) by apply Rmax_l. pose proof (vnorm_nonneg v) as P.
  set (c1 := (1 - cos n) / n ^ 2) in *. set (c2 := (n - sin n) / n ^ 3) in *.
  assert (S : c2 * c2 * (n * n) + c1 * c1 - 2 * c2 < 0).
  { assert (E : (c2 * c2 * (n * n) + c1 * c1 - 2 * c2) * (n * n * n * n) = 2 - 2 * cos n - n * n).
    { unfold c1, c2. pose proof (sin2_cos2 n) as T. unfold Rsqr in T.
      replace ((n - sin n) / n ^ 3 * ((n - sin n) / n ^ 3) * (n * n) + (1 - cos n) / n ^ 2 * ((1 - cos n) / n ^ 2) - 2 * ((n - sin n) / n ^ 3))
        with (((n - sin n) * (n - sin n) + (1 - cos n) * (1 - cos n) - 2 * n * (n - sin n)) / (n * n * n * n)) by (field; lra).
      unfold Rdiv. rewrite Rmult_assoc, Rinv_l by (repeat apply Rmult_integral_contrapositive_currified; lra). nra. }
    assert (T : 2 - 2 * cos n < n * n).
    { replace n with (2 * (n / 2)) at 1 by field. rewrite cos_2a_sin. pose proof (sin_lt_x (n / 2) ltac:(lra)) as X.
      pose proof (SIN_bound (n / 2)). assert (Y : - (n / 2) < sin (n / 2)).
      { destruct (Rle_or_lt n 4) as [Q|Q]; [|lra]. pose proof PI2_3_2. destruct (Rle_or_lt 0 (sin (n / 2))); [lra|].
        exfalso. assert (0 < sin (n / 2)) by (apply sin_gt_0; pose proof PI2_3_2; lra). lra. }
      nra. }
    assert (0 < n * n * n * n) by (repeat apply Rmult_lt_0_compat; exact N). nra. }
  assert (V : vnorm v * vnorm v = vx v * vx v + vy v * vy v + vz v * vz v) by (rewrite vnorm_sq; reflexivity).
  pose proof (H 0%nat ltac:(lia)) as H0. pose proof (H 1%nat ltac:(lia)) as H1. pose proof (H 2%nat ltac:(lia)) as H2. clear H.
  destruct v as [a b c] eqn:Ev. cbn [vx vy vz] in V.
  set (rho := a * a + b * b + c * c) in *.
  assert (F : forall i, (i < 3)%nat -> vnorm2 (vopp (qrot r (ax i))) = 1).
  { intros i Hi. assert (X : vnorm2 (vopp (qrot r (ax i))) = vnorm2 (qrot r (ax i))) by (unfold vnorm2, vdot, vopp; cbn [vx vy vz]; ring).
    rewrite X. pose proof (qrot_length r (ax i) U) as Y. rewrite <- (vnorm_sq (qrot r (ax i))), Y, vnorm_sq. destruct i as [|[|[|i]]]; [..|lia]; unfold vnorm2, vdot, ax; cbn [vx vy vz]; ring. }
  assert (T : vnorm2 (vopp (qrot r (ax 0))) + vnorm2 (vopp (qrot r (ax 1))) + vnorm2 (vopp (qrot r (ax 2))) = 3) by (rewrite !F by lia; ring).
  rewrite <- H0, <- H1, <- H2 in T.
  assert (K : 2 * rho * (c2 * c2 * rho + c1 * c1 - 2 * c2) = 0).
  { rewrite <- (Rplus_opp_r 3). rewrite <- T at 1. unfold vnorm2, vdot, mat_vec, m3tr, SkewSymmetric, of_list, tr, madd, msub, mscal, mm, idm, rsum, ax, rho.
    cbn. ring. }
  assert (Rz : rho = 0).
  { destruct (Req_dec rho 0) as [Z|Z]; [exact Z|]. exfalso. assert (0 <= rho) by (unfold rho; nra).
    assert (c2 * c2 * rho <= c2 * c2 * (n * n)) by (apply Rmult_le_compat_l; nra). nra. }
  assert (Z : a = 0 /\ b = 0 /\ c = 0) by (unfold rho in Rz; repeat split; nra). destruct Z as [-> [-> ->]].
  destruct r as [w x y z]. unfold qnorm2 in U. cbn [qw qx qy qz] in U.
  apply (f_equal vx) in H0. apply (f_equal vy) in H1. apply (f_equal vz) in H2.
  unfold vnorm2, vdot, mat_vec, m3tr, SkewSymmetric, of_list, tr, madd, msub, mscal, mm, idm, rsum, ax, qrot, qvec, vadd, vcross, vscale, vopp in H0, H1, H2. cbn in H0, H1, H2.
  nra.
Qed.

Lemma v3_dec : forall a b : V3, {a = b} + {a <> b}.
Proof.
  intros [a1 a2 a3] [b1 b2 b3]. destruct (Req_EM_T a1 b1) as [->|N]; [|right; intros E; apply N; congruence].
  destruct (Req_EM_T a2 b2) as [->|N]; [|right; intros E; apply N; congruence].
  destruct (Req_EM_T a3 b3) as [->|N]; [left; reflexivity|right; intros E; apply N; congruence].
Qed.
Lemma some_axis : forall g : nat -> V3, ((forall i, (i < 3)%nat -> g i = v0) -> False) -> exists i, (i < 3)%nat /\ g i <> v0.
Proof.
  intros g H. destruct (v3_dec (g 0%nat) v0) as [E0|N]; [|exists 0%nat; split; [lia|exact N]].
  destruct (v3_dec (g 1%nat) v0) as [E1|N]; [|exists 1%nat; split; [lia|exact N]].
  destruct (v3_dec (g 2%nat) v0) as [E2|N]; [|exists 2%nat; split; [lia|exact N]].
  exfalso. apply H. intros [|[|[|i]]] Hi; try assumption. lia.
Qed.
Lemma ax_unit : forall i, vnorm2 (ax i) = 1.
Proof. intros [|[|i]]; unfold vnorm2, vdot, ax; cbn [vx vy vz]; ring. Qed.
Lemma vadd_opp : forall a b, vadd a b = v0 -> b = vopp a.
Proof.
  intros [a1 a2 a3] [b1 b2 b3] E. unfold vadd, v0 in E. cbn [vx vy vz] in E. injection E as E1 E2 E3. unfold vopp. cbn [vx vy vz]. f_equal; lra.
Qed.
Lemma qrot_cancel : forall q v, qnorm2 q = 1 -> qrot q v = v0 -> v = v0.
Proof.
  intros q v U E. apply (f_equal (qrot (qinv q))) in E. rewrite qrot_0 in E. rewrite (proj1 (qrot_inv q v U)) in E. exact E.
Qed.
Lemma rot_back : forall q v, qnorm2 q = 1 -> qrot q (qrot (qinv q) v) = v.
Proof. intros q v U. exact (proj2 (qrot_inv q v U)). Qed.
Section Never.
Variables (e : ekf) (k : CamState) (f : FidState).
Hypothesis UB : qnorm2 (b_ang (s_body (e_state e))) = 1.
Hypothesis UC : qnorm2 (c_ang k) = 1.
Hypothesis UF : qnorm2 (f_ang f) = 1.

Lemma body_wrong : exists i, (i < 3)%nat /\ body_turn_gap e k f (ax i) <> v0.
Proof.
  apply (some_axis (fun i => body_turn_gap e k f (ax i))). intros H. set (qb := b_ang (s_body (e_state e))) in *.
  assert (UQ : qnorm2 (qmul (qinv (f_ang f)) qb) = 1) by (rewrite qnorm2_mul, qinv_unit, UB by assumption; ring).
  apply (not_turned_back qb _ UQ). intros i Hi. specialize (H i Hi). unfold body_turn_gap in H. fold qb in H.
  apply qrot_cancel in H; [|apply qinv_unit; assumption]. apply vadd_opp in H.
  apply (f_equal (qrot qb)) in H. rewrite rot_back in H by assumption.
  apply (f_equal (qrot (qinv (f_ang f)))) in H. rewrite (proj1 (qrot_inv _ _ UF)) in H.
  rewrite mtrans_m3tr in H. rewrite H. rewrite qrot_mul by (try apply qinv_unit; assumption). rewrite !qrot_opp. reflexivity.
Qed.
Lemma camera_wrong : exists d, vnorm2 d = 1 /\ cam_turn_gap e k f d <> v0.
Proof.
  set (qb := b_ang (s_body (e_state e))) in *. set (back v := qrot (qinv (f_ang f)) (qrot qb v)).
  destruct (some_axis (fun i => cam_turn_gap e k f (back (ax i)))) as [i [Hi N]].
  - intros H.
    assert (UQ : qnorm2 (qmul (c_ang k) (qmul (qinv (f_ang f)) qb)) = 1) by (rewrite !qnorm2_mul, qinv_unit, UB, UC by assumption; ring).
    apply (not_turned_back (c_ang k) _ UQ). intros i Hi. specialize (H i Hi). unfold cam_turn_gap in H. fold qb in H.
    apply vadd_opp in H. apply (f_equal (qrot (c_ang k))) in H. rewrite rot_back in H by assumption. unfold back in H at 1.
    rewrite rot_back in H by assumption. rewrite (proj1 (qrot_inv _ _ UB)) in H. rewrite mtrans_m3tr in H. rewrite H.
    rewrite !qrot_mul by (try apply qinv_unit; try assumption; rewrite qnorm2_mul, qinv_unit, UB by assumption; ring).
    rewrite qrot_opp. reflexivity.
  - exists (back (ax i)). split; [|exact N]. unfold back.
    rewrite <- (vnorm_sq (qrot (qinv (f_ang f)) (qrot qb (ax i)))), !qrot_length, vnorm_sq by (try apply qinv_unit; assumption). apply ax_unit.
Qed.
Lemma board_axis_wrong : exists i, (i < 3)%nat /\ board_turn_gap e k f (ax i) <> v0.
Proof.
  apply (some_axis (fun i => board_turn_gap e k f (ax i))). intros H.
  assert (UQ : qnorm2 (board_turn e k f) = 1) by (unfold board_turn; rewrite !qnorm2_mul, !qinv_unit, UF by assumption; ring).
  apply (not_turned_back qid _ UQ). intros i Hi. specialize (H i Hi). unfold board_turn_gap in H. rewrite jac_qid.
  assert (E : vadd (ax i) (qrot (board_turn e k f) (ax i)) = v0).
  { revert H. generalize (vadd (ax i) (qrot (board_turn e k f) (ax i))). intros [a b c] H. unfold vopp, v0 in *. cbn [vx vy vz] in H.
    injection H as H1 H2 H3. f_equal; lra. }
  apply vadd_opp in E. rewrite E. destruct (ax i) as [a b c]. unfold vopp. cbn [vx vy vz]. f_equal; ring.
Qed.
Theorem board_turn_never : (exists d, vnorm2 d = 1 /\ body_turn_gap e k f d <> v0) /\
  (exists d, vnorm2 d = 1 /\ cam_turn_gap e k f d <> v0) /\ (exists d, vnorm2 d = 1 /\ board_turn_gap e k f d <> v0).
Proof.
  split; [destruct body_wrong as [i [_ H]]; exists (ax i); split; [apply ax_unit|exact H]|].
  split; [exact camera_wrong|]. destruct board_axis_wrong as [i [_ H]]. exists (ax i). split; [apply ax_unit|exact H].
Qed.
End Never.

(** The rows are wrong about some turn of the body, whatever the state. *)
Theorem board_body_wrong : forall mq u e jac u' e' k f meas, reads_rotations mq -> p_fej (e_par e) = false ->
  fid_GetMeasurementJacobian u e = OK (jac, u', e') ->
  mfind (fu_cam u) (s_cam (e_state e)) = Some k -> mfind (fu_id u) (s_fid (e_state e)) = Some f -> board_apart u k f ->
  qnorm2 (b_ang (s_body (e_state e))) = 1 -> qnorm2 (c_ang k) = 1 -> qnorm2 (f_ang f) = 1 -> seen_turned e k f ->
  same_turn meas (board_turn e k f) ->
  exists q x ang, with_attitude e (q 0) = e /\ board_rates u (fun t => with_attitude e (q t)) (fun _ => k) (fun _ => f) x /\
    (forall t, exists p v e1, fid_PredictMeasurement mq u (with_attitude e (q t)) = OK (p, ang t, v, e1)) /\
    ~ vmoves (fun t => turn_shown (ang t) meas) (rows3 jac x 3).
Proof.
  intros mq u e jac u' e' k f meas HR Hf HJ Hk Hm HA UB UC UF HS HM.
  destruct (body_wrong e k f UB UC UF) as [i [Hi N]].
  set (qb := b_ang (s_body (e_state e))) in *.
  set (q := fun t => qmul qb (angle_axis_quat t (ax i))). set (x := entries [(9%nat, ax i)]).
  set (ang := fun t => QuatToRotVec (qmul (mq (m3mul (m3tr (qmat (c_ang k))) (m3tr (qmat (q t))))) (f_ang f))).
  assert (T := spun_turned qb (ax i) UB (ax_unit i)).
  assert (E0 : with_attitude e (q 0) = e).
  { assert (Q : q 0 = qb). { unfold q, angle_axis_quat. rewrite Rmult_0_r, cos_0, sin_0. apply q_eq; unfold qmul; cbn [qw qx qy qz]; ring. }
    rewrite Q. unfold qb, with_attitude, with_state, state_with_body. destruct e as []. destruct e_state as []. cbn. destruct s_body as []. reflexivity. }
  assert (X : forall j, (12 <= j)%nat -> slice x j = v0).
  { intros j Hj. unfold slice, x, entries. assert (L : forall m, (12 <= m)%nat -> andb (Nat.leb 9 m) (Nat.ltb m (9 + 3)) = false).
    { intros m Hm'. apply andb_false_iff. right. apply Nat.ltb_ge. lia. }
    rewrite !L by lia. reflexivity. }
  assert (X9 : slice x 9 = ax i) by (destruct i as [|[|[|i]]]; [reflexivity..|lia]).
  assert (XC : if_on (fu_cam_ext u) x (c_index k + 3) = v0).
  { unfold if_on. destruct HA as [A1 _]. destruct (fu_cam_ext u); [specialize (A1 eq_refl); apply X; lia|reflexivity]. }
  assert (XF : if_on (fu_ext u) x (f_index f + 3) = v0).
  { unfold if_on. destruct HA as [_ [A1 _]]. destruct (fu_ext u); [specialize (A1 eq_refl); apply X; lia|reflexivity]. }
  assert (RT : board_rates u (fun t => with_attitude e (q t)) (fun _ => k) (fun _ => f) x).
  { unfold board_rates. rewrite X9, XC, XF. split; [exact T|]. split; apply const_turned; assumption. }
  assert (PR : forall t, exists p v e1, fid_PredictMeasurement mq u (with_attitude e (q t)) = OK (p, ang t, v, e1)).
  { intros t. unfold fid_PredictMeasurement, fid_RefreshStates.
    change (p_fej (e_par (with_attitude e (q t)))) with (p_fej (e_par e)). rewrite Hf. cbn [negb orb].
    rewrite (get_cam_known (with_attitude e (q t)) (fu_cam u) k Hk). unfold fid_at.
    change (s_fid (e_state (with_attitude e (q t)))) with (s_fid (e_state e)). rewrite Hm. cbn [bind]. eexists. eexists. eexists. reflexivity. }
  exists q, x, ang. split; [exact E0|]. split; [exact RT|]. split; [exact PR|]. intros V. apply N.
  assert (G := proj1 (board_turn_right mq u u' (fun t => with_attitude e (q t)) e' jac x (fun _ => k) (fun _ => f) ang meas HR (fun _ => Hf)
     ltac:(cbv beta; rewrite E0; exact HJ) (fun _ => Hk) (fun _ => Hm) PR HA RT ltac:(cbv beta; rewrite E0; exact HS) ltac:(cbv beta; rewrite E0; exact HM)) V).
  cbv beta in G. rewrite E0 in G. unfold turn_gap in G. rewrite X9, XC, XF in G. 
  revert G. unfold cam_turn_gap, board_turn_gap. rewrite !qrot_0, mv_0, qrot_0.
  generalize (body_turn_gap e k f (ax i)). intros [a b d] G. unfold vadd, vopp, v0 in *. cbn [vx vy vz] in G. injection G as G1 G2 G3. f_equal; lra.
Qed.
