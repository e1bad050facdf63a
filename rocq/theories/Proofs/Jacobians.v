(** The measurement Jacobians as derivatives. *)
From Coq Require Import Reals List Arith Bool Lia Lra.
From Verif Require Import Base.Res Base.Mat Base.RDec Base.RSum Base.LinAlg Base.Geom Base.AMap Base.RMat
  Model.TypeHelper Model.Types Model.MathHelper Model.Matrix3 Model.Ekf Model.Updater Model.GpsUpdater
  Model.ImuUpdater Model.FiducialUpdater Model.MsckfUpdater Spec.Rotation Spec.Deriv
  Proofs.Effects Proofs.Rotations Proofs.Deriv Proofs.RotDeriv.
Import ListNotations.
Open Scope R_scope.

(** *** Quaternion Jacobian *)
Lemma qjac_right : forall q x, 1 / 1000000000 < vnorm (QuatToRotVec q) ->
  mat_vec (QuaternionJacobian q) x = right_jac (QuatToRotVec q) x.
Proof.
  intros q x H. unfold QuaternionJacobian, right_jac. rewrite Rmax_left by lra.
  set (v := QuatToRotVec q) in *. set (n := vnorm v). set (a := (1 - cos n) / n ^ 2). set (b := (n - sin n) / n ^ 3).
  clearbody a b. destruct v as [f g h], x as [x y z].
  unfold mat_vec, madd, msub, mscal, idm, mm, SkewSymmetric, of_list, vadd, vsub, vscale, vcross, rsum. cbn.
  f_equal; ring.
Qed.
Lemma qjac_left : forall q x, 1 / 1000000000 < vnorm (QuatToRotVec q) ->
  mat_vec (m3tr (QuaternionJacobian q)) x = left_jac (QuatToRotVec q) x.
Proof.
  intros q x H. unfold QuaternionJacobian, left_jac. rewrite Rmax_left by lra.
  set (v := QuatToRotVec q) in *. set (n := vnorm v). set (a := (1 - cos n) / n ^ 2). set (b := (n - sin n) / n ^ 3).
  clearbody a b. destruct v as [f g h], x as [x y z].
  unfold mat_vec, m3tr, tr, madd, msub, mscal, idm, mm, SkewSymmetric, of_list, vadd, vsub, vscale, vcross, rsum. cbn.
  f_equal; ring.
Qed.
Lemma m3mul_vec : forall A B x, mat_vec (m3mul A B) x = mat_vec A (mat_vec B x).
Proof. intros A B [x y z]. unfold mat_vec, m3mul, mm, rsum. cbn. f_equal; ring. Qed.
Lemma m3neg_vec : forall A x, mat_vec (m3neg A) x = vopp (mat_vec A x).
Proof. intros A [x y z]. unfold mat_vec, m3neg, mopp, vopp. cbn. f_equal; ring. Qed.
Lemma m3id_vec : forall x, mat_vec m3id x = x.
Proof. intros [x y z]. unfold mat_vec, m3id, midm, idm. cbn. f_equal; ring. Qed.
Lemma qrot_cross : forall q a b, qnorm2 q = 1 -> qrot q (vcross a b) = vcross (qrot q a) (qrot q b).
Proof.
  intros [w x y z] [a b c] [d e f] H. unfold qnorm2 in H. cbn [qw qx qy qz] in H.
  assert (E : w * w = 1 - x * x - y * y - z * z) by lra. clear H.
  unfold qrot, qvec, vadd, vcross, vscale. cbn [qw qx qy qz vx vy vz]. f_equal; ring [E].
Qed.
Lemma rotvec_unit : forall v, qnorm2 (RotVecToQuat v) = 1.
Proof. intros v. apply RotVec_unit. Qed.

(** *** Rows made of 3 x 3 blocks *)
Definition zero_in (j : mat R) (i a : nat) : Prop := forall k, (a <= k < a + 3)%nat -> ent j i k = 0.

Lemma rsum_window : forall n a f g x, (a + 3 <= n)%nat -> (forall k, (a <= k < a + 3)%nat -> g k = 0) ->
  rsum n (fun k => (if in_range k a 3 then f (k - a)%nat else g k) * x k) =
  rsum n (fun k => g k * x k) + (f 0%nat * x a + f 1%nat * x (a + 1)%nat + f 2%nat * x (a + 2)%nat).
Proof.
  intros n a f g x Hn Hz.
  replace n with (a + (3 + (n - a - 3)))%nat by lia. rewrite !rsum_split.
  assert (E1 : rsum a (fun k => (if in_range k a 3 then f (k - a)%nat else g k) * x k) = rsum a (fun k => g k * x k)).
  { apply rsum_ext. intros i Hi. replace (in_range i a 3) with false; [reflexivity|].
    symmetry. apply not_true_iff_false. rewrite in_range_spec. lia. }
  assert (E2 : rsum (n - a - 3) (fun i => (if in_range (a + (3 + i)) a 3 then f (a + (3 + i) - a)%nat else g (a + (3 + i))%nat) * x (a + (3 + i))%nat)
     = rsum (n - a - 3) (fun i => g (a + (3 + i))%nat * x (a + (3 + i))%nat)).
  { apply rsum_ext. intros i Hi. replace (in_range (a + (3 + i)) a 3) with false; [reflexivity|].
    symmetry. apply not_true_iff_false. rewrite in_range_spec. lia. }
  rewrite E1, E2. cbn [rsum].
  rewrite !(Hz (a + _)%nat) by lia.
  rewrite !(proj2 (in_range_spec (a + _) a 3)) by lia.
  replace (a + 0 - a)%nat with 0%nat by lia. replace (a + 1 - a)%nat with 1%nat by lia. replace (a + 2 - a)%nat with 2%nat by lia.
  rewrite !Nat.add_0_r. ring.
Qed.

Lemma vget_mat : forall M v i, (i < 3)%nat ->
  vget (mat_vec M v) i = ent M i 0 * vx v + ent M i 1 * vy v + ent M i 2 * vz v.
Proof. intros M v i H. destruct i as [|[|[|i]]]; [..|exfalso; lia]; reflexivity. Qed.

Lemma row_block : forall j i0 a b j' x i, set_block j i0 a 3 3 b = OK j' ->
  (i0 <= i < i0 + 3)%nat -> zero_in j i a ->
  apply_row j' x i = apply_row j x i + vget (mat_vec b (slice x a)) (i - i0).
Proof.
  intros j i0 a b j' x i H Hi Hz. apply set_block_inv in H. destruct H as (A & B & C & D & ->).
  unfold apply_row. cbn [nc ent].
  rewrite (rsum_ext _ _ (fun k => (if in_range k a 3 then (fun c => ent b (i - i0) c) (k - a)%nat else ent j i k) * x k)).
  - rewrite rsum_window by (try exact B; intros; apply Hz; assumption).
    rewrite vget_mat by lia. reflexivity.
  - intros k Hk. rewrite (proj2 (in_range_spec i i0 3)) by lia. cbn [andb]. reflexivity.
Qed.
Lemma row_other : forall j i0 a b j' x i, set_block j i0 a 3 3 b = OK j' -> ~ (i0 <= i < i0 + 3)%nat ->
  apply_row j' x i = apply_row j x i.
Proof.
  intros j i0 a b j' x i H Hi. apply set_block_inv in H. destruct H as (A & B & C & D & ->).
  unfold apply_row. cbn [nc ent]. apply rsum_ext. intros k Hk.
  replace (in_range i i0 3) with false; [reflexivity|]. symmetry. apply not_true_iff_false. rewrite in_range_spec. lia.
Qed.
Lemma zero_block : forall j i0 a b j' i c, set_block j i0 a 3 3 b = OK j' ->
  (~ (i0 <= i < i0 + 3) \/ c + 3 <= a \/ a + 3 <= c)%nat -> zero_in j i c -> zero_in j' i c.
Proof.
  intros j i0 a b j' i c H Hd Hz k Hk. apply set_block_inv in H. destruct H as (A & B & C & D & ->). cbn [ent].
  replace (in_range i i0 3 && in_range k a 3)%bool with false; [apply Hz; exact Hk|].
  symmetry. apply not_true_iff_false. rewrite andb_true_iff, !in_range_spec. lia.
Qed.
Lemma zero_zero : forall r c i a, zero_in (mzero r c) i a.
Proof. intros r c i a k _. reflexivity. Qed.
Lemma row_zero : forall r c x i, apply_row (mzero r c) x i = 0.
Proof. intros. unfold apply_row. apply rsum_0. intros. cbn. ring. Qed.

Ltac zi := first [apply zero_zero | eapply zero_block; [eassumption| |zi]; first [left; lia | right; left; lia | right; right; lia]].

(** *** GPS *)
Lemma mget_touch : forall A (d : A) k m, mget d k (mtouch d k m) = mget d k m.
Proof.
  intros A d k m. unfold mget, mtouch. destruct (mfind k m) eqn:E; [rewrite E; reflexivity|].
  rewrite mfind_mset_eq. reflexivity.
Qed.
Lemma vget_eta : forall (v : V3), mkV3 (vget v 0) (vget v 1) (vget v 2) = v.
Proof. intros [x y z]. reflexivity. Qed.
Lemma vget_add : forall a b i, vget (vadd a b) i = vget a i + vget b i.
Proof. intros a b [|[|i]]; reflexivity. Qed.


Lemma rows3_block : forall j i0 a b j' x, set_block j i0 a 3 3 b = OK j' ->
  (forall i, (i0 <= i < i0 + 3)%nat -> zero_in j i a) ->
  rows3 j' x i0 = vadd (rows3 j x i0) (mat_vec b (slice x a)).
Proof.
  intros j i0 a b j' x H Hz. unfold rows3.
  rewrite (row_block _ _ _ _ _ x i0 H), (row_block _ _ _ _ _ x (i0 + 1) H), (row_block _ _ _ _ _ x (i0 + 2) H)
    by (try (apply Hz); lia).
  replace (i0 - i0)%nat with 0%nat by lia. replace (i0 + 1 - i0)%nat with 1%nat by lia.
  replace (i0 + 2 - i0)%nat with 2%nat by lia. reflexivity.
Qed.
Lemma rows3_other : forall j i0 a b j' x i, set_block j i0 a 3 3 b = OK j' -> (i + 3 <= i0 \/ i0 + 3 <= i)%nat ->
  rows3 j' x i = rows3 j x i.
Proof.
  intros j i0 a b j' x i H Hd. unfold rows3. f_equal; apply (row_other _ _ _ _ _ _ _ H); lia.
Qed.
Lemma rows3_zero : forall r c x i, rows3 (mzero r c) x i = v0.
Proof. intros. unfold rows3. rewrite !row_zero. reflexivity. Qed.

Lemma gps_rows : forall u e jac u' e' x s,
  gps_GetMeasurementJacobian u e = OK (jac, u', e') ->
  s = mget default_gps (gu_id u) (s_gps (e_state e)) ->
  (gu_ext u = true -> (18 <= g_index s)%nat) ->
  let q := b_ang (s_body (e_state e)) in
  let ant := gu_pos (fst (gps_refresh u e)) in
  rows3 jac x 0 =
    vadd (vadd (slice x 0)
       (mat_vec (m3mul (m3mul (m3neg (qmat q)) (SkewSymmetric ant)) (QuaternionJacobian q)) (slice x 9)))
      (if gu_ext u then mat_vec (qmat q) (slice x (g_index s)) else v0).
Proof.
  intros u e jac u' e' x s H Hs Hi q ant. unfold gps_GetMeasurementJacobian in H.
  unfold ant, gps_refresh. unfold gps_refresh in H.
  set (sp := gps_refresh u e) in *.
  assert (K : exists e1 p, (if (negb (p_fej (e_par e)) || gu_first u)%bool
            then let '(s0, e0) := GetGpsState e (gu_id u) in (mkGU (gu_id u) (gu_ext u) false (g_pos s0), e0)
            else (u, e)) = (p, e1) /\ gu_ext p = gu_ext u /\ gu_id p = gu_id u /\ s_body (e_state e1) = s_body (e_state e) /\
            mget default_gps (gu_id u) (s_gps (e_state e1)) = s).
  { destruct (negb (p_fej (e_par e)) || gu_first u)%bool.
    - cbn. eexists. eexists. split; [reflexivity|]. repeat split. cbn. rewrite mget_touch. auto.
    - eexists. eexists. split; [reflexivity|]. auto. }
  destruct K as (e1 & p & Ep & E1 & E2 & E3 & E4). rewrite Ep in *. cbn [fst].
  clear Ep. rewrite E3 in H. fold q in H.
  destruct (set_block (mzero 3 (e_size e1)) 0 0 3 3 m3id) as [j1|] eqn:B1; [|discriminate]. cbn [bind] in H.
  destruct (set_block j1 0 9 3 3 _) as [j2|] eqn:B2; [|discriminate]. cbn [bind] in H.
  rewrite E1 in H.
  assert (R2 : rows3 j2 x 0 = vadd (slice x 0)
       (mat_vec (m3mul (m3mul (m3neg (qmat q)) (SkewSymmetric (gu_pos p))) (QuaternionJacobian q)) (slice x 9))).
  { rewrite (rows3_block _ _ _ _ _ x B2) by (intros; zi). rewrite (rows3_block _ _ _ _ _ x B1) by (intros; zi).
    rewrite rows3_zero, m3id_vec. f_equal. destruct (slice x 0). unfold vadd, v0. cbn. f_equal; ring. }
  destruct (gu_ext u) eqn:Ex.
  - cbn in H. rewrite E2, E4 in H.
    destruct (set_block j2 0 (g_index s) 3 3 (qmat q)) as [j3|] eqn:B3; [|discriminate]. cbn [bind] in H.
    injection H as <- <- <-. specialize (Hi eq_refl).
    rewrite (rows3_block _ _ _ _ _ x B3) by (intros; zi). rewrite R2. reflexivity.
  - injection H as <- <- <-. rewrite R2. destruct (vadd _ _). unfold vadd, v0. cbn. f_equal; ring.
Qed.

Lemma gps_predict : forall u e, p_fej (e_par e) = false ->
  fst (fst (gps_PredictMeasurement u e)) =
  vadd (b_pos (s_body (e_state e))) (qrot (b_ang (s_body (e_state e)))
     (g_pos (mget default_gps (gu_id u) (s_gps (e_state e))))).
Proof. intros u e H. unfold gps_PredictMeasurement, gps_refresh. rewrite H. cbn. reflexivity. Qed.
Lemma gps_ant : forall u e, p_fej (e_par e) = false ->
  gu_pos (fst (gps_refresh u e)) = g_pos (mget default_gps (gu_id u) (s_gps (e_state e))).
Proof. intros u e H. unfold gps_refresh. rewrite H. reflexivity. Qed.

Lemma gps_jacobian : forall u c jac u' e' x phi,
  let s := mget default_gps (gu_id u) (s_gps (e_state (c 0))) in
  (forall t, p_fej (e_par (c t)) = false) ->
  gps_GetMeasurementJacobian u (c 0) = OK (jac, u', e') ->
  (gu_ext u = true -> (18 <= g_index s)%nat) ->
  (forall t, b_ang (s_body (e_state (c t))) = RotVecToQuat (phi t)) ->
  1 / 1000000000 < vnorm (phi 0) <= PI ->
  vmoves (fun t => b_pos (s_body (e_state (c t)))) (slice x 0) ->
  vmoves phi (slice x 9) ->
  vmoves (fun t => g_pos (mget default_gps (gu_id u) (s_gps (e_state (c t)))))
    (if gu_ext u then slice x (g_index s) else v0) ->
  vmoves (fun t => fst (fst (gps_PredictMeasurement u (c t)))) (rows3 jac x 0).
Proof.
  intros u c jac u' e' x phi s Hf HJ Hi Hq [Hb Hpi] Hp Hphi Ha.
  rewrite (gps_rows _ _ _ _ _ x s HJ eq_refl Hi). cbv zeta. rewrite gps_ant by apply Hf. fold s.
  pose proof (vmoves_add _ _ _ _ Hp (rot_moves_left phi _ Hphi Hb _ _ Ha)) as D. cbv beta in D.
  eapply vmoves_loc; [|eapply vmoves_eq; [|exact D]].
  { exists 1. split; [lra|]. intros t _. rewrite gps_predict by apply Hf. rewrite Hq. reflexivity. }
  fold s. rewrite (Hq 0). rewrite !m3mul_vec, m3neg_vec.
  rewrite qjac_right by (rewrite rotvec_roundtrip by (split; assumption); exact Hb).
  rewrite rotvec_roundtrip by (split; assumption).
  rewrite skew_cross, !qmat_vec by apply rotvec_unit.
  rewrite qrot_cross by apply rotvec_unit.
  rewrite <- (rot_right_left phi Hb). unfold rot_of.
  set (A := qrot _ (right_jac _ _)). set (B := qrot _ (g_pos s)).
  assert (E : vcross A B = vopp (vcross B A)) by (destruct A, B; unfold vcross, vopp; cbn; f_equal; ring).
  rewrite E. destruct (gu_ext u).
  - set (C := qrot _ (slice x (g_index s))). set (F := vopp _).
    destruct (slice x 0), C, F. unfold vadd. cbn. f_equal; ring.
  - assert (Z : qrot (RotVecToQuat (phi 0)) v0 = v0).
    { destruct (RotVecToQuat (phi 0)). unfold qrot, v0, vadd, vscale, vcross, qvec. cbn. f_equal; ring. }
    rewrite Z. set (F := vopp _). destruct (slice x 0), F. unfold vadd, v0. cbn. f_equal; ring.
Qed.

(** *** Inverse rotation *)
Lemma rotvec_opp : forall v, RotVecToQuat (vopp v) = qconj (RotVecToQuat v).
Proof.
  intros v. assert (E : vnorm (vopp v) = vnorm v).
  { unfold vnorm, vnorm2, vdot, vopp. cbn. f_equal. ring. }
  unfold RotVecToQuat. rewrite E. destruct (Rltb _ _) eqn:H.
  - apply Rltb_spec in H. unfold angle_axis_quat, qconj, vdiv, vopp. cbn. f_equal; field; lra.
  - unfold qconj, qid. cbn. f_equal; ring.
Qed.
Lemma m3tr_qmat : forall q v, qnorm2 q = 1 -> mat_vec (m3tr (qmat q)) v = qrot (qinv q) v.
Proof.
  intros q v H. rewrite <- qmat_vec by (apply qinv_unit; exact H).
  pose proof (qmat_inv q H) as E. unfold mat_vec, m3tr. cbn [ent].
  rewrite !E by lia. reflexivity.
Qed.
Lemma vmoves_opp : forall f d, vmoves f d -> vmoves (fun t => vopp (f t)) (vopp d).
Proof. intros f d (A & B & C). repeat split; cbn; apply dl_opp; assumption. Qed.
Lemma left_right_opp : forall v x, left_jac (vopp v) (vopp x) = vopp (right_jac v x).
Proof.
  intros v x. assert (E : vnorm (vopp v) = vnorm v).
  { unfold vnorm, vnorm2, vdot, vopp. cbn. f_equal. ring. }
  unfold left_jac, right_jac. rewrite E. set (a := _ / vnorm v ^ 2). set (b := _ / vnorm v ^ 3).
  clearbody a b. clear E. destruct v, x. unfold vadd, vsub, vscale, vcross, vopp. cbn. f_equal; ring.
Qed.

Lemma inv_moves : forall phi r u w, vmoves phi r -> 1 / 1000000000 < vnorm (phi 0) <= PI -> vmoves u w ->
  let q := RotVecToQuat (phi 0) in
  vmoves (fun t => mat_vec (m3tr (qmat (RotVecToQuat (phi t)))) (u t))
    (vadd (mat_vec (m3tr (qmat q)) w)
          (mat_vec (m3mul (m3mul (m3tr (qmat q)) (SkewSymmetric (u 0))) (m3tr (QuaternionJacobian q))) r)).
Proof.
  intros phi r u w Hphi [Hb Hpi] Hu q.
  assert (Hb' : 1 / 1000000000 < vnorm (vopp (phi 0))).
  { replace (vnorm (vopp (phi 0))) with (vnorm (phi 0)); [exact Hb|].
    unfold vnorm, vnorm2, vdot, vopp. cbn. f_equal. ring. }
  pose proof (rot_moves_left (fun t => vopp (phi t)) _ (vmoves_opp _ _ Hphi) Hb' u w Hu) as D.
  cbv beta in D. rewrite left_right_opp in D. unfold rot_of in D.
  eapply vmoves_loc; [|eapply vmoves_eq; [|exact D]].
  { exists 1. split; [lra|]. intros t _. cbv beta.
    rewrite m3tr_qmat, qinv_conj, rotvec_opp by apply rotvec_unit. reflexivity. }
  unfold q. rewrite !m3mul_vec, !(m3tr_qmat (RotVecToQuat (phi 0))), skew_cross by apply rotvec_unit.
  rewrite qjac_left by (rewrite rotvec_roundtrip by (split; assumption); exact Hb).
  rewrite rotvec_roundtrip by (split; assumption).
  rewrite <- (rot_right_left phi Hb). unfold rot_of.
  rewrite qrot_cross by (apply qinv_unit, rotvec_unit).
  rewrite (proj1 (qrot_inv _ _ (rotvec_unit (phi 0)))).
  rewrite qinv_conj, rotvec_opp by apply rotvec_unit. f_equal.
  set (A := right_jac _ _). set (B := qrot _ (u 0)). clearbody A B. destruct A, B. unfold vcross, vopp. cbn. f_equal; ring.
Qed.

(** *** Projection and distortion *)
Lemma rdiv_inv : forall a b c, rdiv a b = OK c -> b <> 0 /\ c = a / b.
Proof. intros a b c H. unfold rdiv in H. destruct (Reqb b 0) eqn:E; [discriminate|]. injection H as <-. apply Reqb_false in E. auto. Qed.
Lemma rdiv_ok : forall a b, b <> 0 -> rdiv a b = OK (a / b).
Proof. intros a b H. unfold rdiv. rewrite (proj2 (Reqb_false _ _) H). reflexivity. Qed.

Lemma project_jacobian : forall p v jac, vmoves p v -> ProjectionJacobian (p 0) = OK jac ->
  exists x y, near (fun t => Project (p t) = OK (x t, y t)) /\
    moves x (ent jac 0 0 * vx v + ent jac 0 1 * vy v + ent jac 0 2 * vz v) /\
    moves y (ent jac 1 0 * vx v + ent jac 1 1 * vy v + ent jac 1 2 * vz v).
Proof.
  intros p v jac Hv H. unfold ProjectionJacobian in H.
  destruct (rdiv 1 (vz (p 0))) as [iz|] eqn:E1; [|discriminate]. cbn [bind] in H.
  destruct (rdiv (- vx (p 0)) _) as [jx|] eqn:E2; [|discriminate]. cbn [bind] in H.
  destruct (rdiv (- vy (p 0)) _) as [jy|] eqn:E3; [|discriminate]. cbn [bind] in H.
  injection H as <-. apply rdiv_inv in E1, E2, E3. destruct E1 as [Hz ->], E2 as [_ ->], E3 as [_ ->].
  cbn [ent]. destruct Hv as (A & B & C). exists (fun t => vx (p t) / vz (p t)), (fun t => vy (p t) / vz (p t)).
  split; [|split].
  - eapply near_impl; [|apply (moves_nonzero _ _ C Hz)]. cbv beta. intros t Ht. unfold Project.
    rewrite !rdiv_ok by exact Ht. reflexivity.
  - eapply dl_eq; [|apply (dl_div _ _ _ _ _ A C Hz)]. unfold Rsqr. field. exact Hz.
  - eapply dl_eq; [|apply (dl_div _ _ _ _ _ B C Hz)]. unfold Rsqr. field. exact Hz.
Qed.
