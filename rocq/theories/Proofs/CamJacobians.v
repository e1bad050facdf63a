(** Camera, fiducial and lens Jacobians as derivatives. *)
From Coq Require Import Reals List Arith Bool Lia Lra.
From Verif Require Import Base.Res Base.Mat Base.RDec Base.RSum Base.LinAlg Base.Geom Base.AMap Base.RMat
  Model.TypeHelper Model.Types Model.MathHelper Model.Matrix3 Model.Ekf Model.Updater Model.GpsUpdater
  Model.ImuUpdater Model.FiducialUpdater Model.MsckfUpdater Spec.Rotation Spec.Deriv
  Proofs.Effects Proofs.Rotations Proofs.Deriv Proofs.RotDeriv Proofs.Jacobians.
Import ListNotations.
Open Scope R_scope.

(** *** Lens distortion *)
Definition lens_derivative (J : mat R) (x0 y0 : R) (k : Intrinsics) : Prop :=
  plane_derivative (fun x y => Distort x y k) J x0 y0.

Lemma distort_fst : forall x y dx dy k, moves x dx -> moves y dy ->
  moves (fun t => fst (Distort (x t) (y t) k))
    ((1 + in_k_1 k * (x 0 * x 0 + y 0 * y 0) + in_k_1 k * (x 0 * x 0 + y 0 * y 0) * (x 0 * x 0 + y 0 * y 0)
      + x 0 * (2 * in_k_1 k * x 0 + 4 * in_k_1 k * x 0 * (x 0 * x 0 + y 0 * y 0))
      + 2 * in_p_1 k * y 0 + 6 * in_p_2 k * x 0) * dx
     + (x 0 * (2 * in_k_1 k * y 0 + 4 * in_k_1 k * y 0 * (x 0 * x 0 + y 0 * y 0)) + 2 * in_p_1 k * x 0 + 2 * in_p_2 k * y 0) * dy).
Proof.
  intros x y dx dy k Hx Hy. unfold moves in *. unfold Distort. cbn [fst].
  eapply dl_eq; [|eapply dl_plus; [eapply dl_plus; [eapply dl_mult; [exact Hx|]|]|]].
  2: { eapply dl_plus; [eapply dl_plus; [apply dl_const|]|].
       - eapply dl_mult; [apply dl_const|]. eapply dl_plus; eapply dl_mult; eassumption.
       - eapply (dl_mult (fun t => in_k_1 k * (x t * x t + y t * y t))).
         + eapply dl_mult; [apply dl_const|]. eapply dl_plus; eapply dl_mult; eassumption.
         + eapply dl_plus; eapply dl_mult; eassumption. }
  2: { eapply (dl_mult (fun t => 2 * in_p_1 k * x t)); [eapply dl_mult; [apply dl_const|exact Hx]|exact Hy]. }
  2: { eapply dl_mult; [apply dl_const|]. eapply (dl_plus (fun t => x t * x t + y t * y t)).
       - eapply dl_plus; eapply dl_mult; eassumption.
       - eapply dl_mult; [apply dl_const|]. eapply dl_mult; exact Hx. }
  cbv beta. ring.
Qed.
Lemma distort_snd : forall x y dx dy k, moves x dx -> moves y dy ->
  moves (fun t => snd (Distort (x t) (y t) k))
    ((y 0 * (2 * in_k_1 k * x 0 + 4 * in_k_1 k * x 0 * (x 0 * x 0 + y 0 * y 0)) + 2 * in_p_2 k * y 0 + 2 * in_p_1 k * x 0) * dx
     + (1 + in_k_1 k * (x 0 * x 0 + y 0 * y 0) + in_k_1 k * (x 0 * x 0 + y 0 * y 0) * (x 0 * x 0 + y 0 * y 0)
      + y 0 * (2 * in_k_1 k * y 0 + 4 * in_k_1 k * y 0 * (x 0 * x 0 + y 0 * y 0))
      + 2 * in_p_2 k * x 0 + 6 * in_p_1 k * y 0) * dy).
Proof.
  intros x y dx dy k Hx Hy. unfold moves in *. unfold Distort. cbn [snd].
  eapply dl_eq; [|eapply dl_plus; [eapply dl_plus; [eapply dl_mult; [exact Hy|]|]|]].
  2: { eapply dl_plus; [eapply dl_plus; [apply dl_const|]|].
       - eapply dl_mult; [apply dl_const|]. eapply dl_plus; eapply dl_mult; eassumption.
       - eapply (dl_mult (fun t => in_k_1 k * (x t * x t + y t * y t))).
         + eapply dl_mult; [apply dl_const|]. eapply dl_plus; eapply dl_mult; eassumption.
         + eapply dl_plus; eapply dl_mult; eassumption. }
  2: { eapply (dl_mult (fun t => 2 * in_p_2 k * x t)); [eapply dl_mult; [apply dl_const|exact Hx]|exact Hy]. }
  2: { eapply dl_mult; [apply dl_const|]. eapply (dl_plus (fun t => x t * x t + y t * y t)).
       - eapply dl_plus; eapply dl_mult; eassumption.
       - eapply dl_mult; [apply dl_const|]. eapply dl_mult; exact Hy. }
  cbv beta. ring.
Qed.

Lemma r_sq : forall x y, sqrt (x * x + y * y) * sqrt (x * x + y * y) = x * x + y * y.
Proof. intros. apply sqrt_sqrt. nra. Qed.

Lemma distortion_iff : forall x y k,
  lens_derivative (DistortionJacobian x y k) x y k <-> in_k_1 k = in_k_2 k \/ (x = 0 /\ y = 0).
Proof.
  intros x0 y0 k. split.
  - intros H. destruct (Req_dec (in_k_1 k) (in_k_2 k)) as [E|E]; [left; exact E|right].
    destruct (H (fun t => x0 + t) (fun _ => y0) 1 0) as [A _]; try ring; try apply dl_const.
    { eapply dl_eq; [|eapply dl_plus; [apply dl_const|apply dl_id]]. ring. }
    pose proof (distort_fst (fun t => x0 + t) (fun _ => y0) 1 0 k) as B.
    pose proof (uniqueness_limite _ _ _ _ A (B ltac:(eapply dl_eq; [|eapply dl_plus; [apply dl_const|apply dl_id]]; ring) (dl_const y0 0))) as U.
    clear A B H. unfold DistortionJacobian in U. cbv zeta in U. cbn [ent] in U. rewrite r_sq in U.
    rewrite !Rplus_0_r in U.
    assert (Z : (in_k_2 k - in_k_1 k) * ((x0 * x0 + y0 * y0) * (5 * (x0 * x0) + y0 * y0)) = 0) by lra.
    apply Rmult_integral in Z. destruct Z as [Z|Z]; [exfalso; apply E; lra|].
    assert (0 <= x0 * x0) by nra. assert (0 <= y0 * y0) by nra.
    apply Rmult_integral in Z. split; nra.
  - intros Hc x y dx dy <- <- Hx Hy. split.
    + eapply dl_eq; [|apply (distort_fst _ _ _ _ k Hx Hy)]. unfold DistortionJacobian. cbv zeta. cbn [ent]. rewrite !r_sq.
      destruct Hc as [E|[E1 E2]]; [rewrite E; ring|rewrite E1, E2; ring].
    + eapply dl_eq; [|apply (distort_snd _ _ _ _ k Hx Hy)]. unfold DistortionJacobian. cbv zeta. cbn [ent]. rewrite !r_sq.
      destruct Hc as [E|[E1 E2]]; [rewrite E; ring|rewrite E1, E2; ring].
Qed.

(** *** A point seen from a camera on a body *)
Definition in_camera (pf pb : V3) (qb : quat) (pc : V3) (qc : quat) : V3 :=
  mat_vec (m3tr (qmat qc)) (vsub (mat_vec (m3tr (qmat qb)) (vsub pf pb)) pc).

Lemma seen_moves : forall pf pb tb pc tc dpf dpb db dpc dc,
  vmoves pf dpf -> vmoves pb dpb -> vmoves tb db -> vmoves pc dpc ->
  1 / 1000000000 < vnorm (tb 0) <= PI ->
  let qb := RotVecToQuat (tb 0) in
  let qc t := RotVecToQuat (tc t) in
  (vmoves tc dc /\ 1 / 1000000000 < vnorm (tc 0) <= PI) ->
  let rc := m3tr (qmat (qc 0)) in
  let rb := m3tr (qmat qb) in
  let rl := m3mul rc rb in
  vmoves (fun t => in_camera (pf t) (pb t) (RotVecToQuat (tb t)) (pc t) (qc t))
    (vadd (vadd (vadd (vadd (mat_vec rl dpf) (mat_vec (m3neg rl) dpb))
           (mat_vec (m3mul (m3mul rl (SkewSymmetric (vsub (pf 0) (pb 0)))) (m3tr (QuaternionJacobian qb))) db))
           (mat_vec (m3neg rc) dpc))
           (mat_vec (m3mul (m3mul rc (SkewSymmetric (vsub (mat_vec rb (vsub (pf 0) (pb 0))) (pc 0)))) (m3tr (QuaternionJacobian (qc 0)))) dc)).
Proof.
  intros pf pb tb pc tc dpf dpb db dpc dc Hf Hb Htb Hc Bb qb qc [Htc Bc] rc rb rl. unfold in_camera.
  pose proof (inv_moves tb db _ _ Htb Bb (vmoves_sub _ _ _ _ Hf Hb)) as D1. cbv beta zeta in D1.
  pose proof (inv_moves tc dc _ _ Htc Bc (vmoves_sub _ _ _ _ D1 Hc)) as D2. cbv beta zeta in D2.
  eapply vmoves_eq; [|exact D2]. fold qb. fold (qc 0). fold rc. fold rb.
  rewrite !m3mul_vec, !m3neg_vec. unfold rl. rewrite !m3mul_vec.
  set (S1 := mat_vec (SkewSymmetric (vsub (mat_vec rb _) _)) _). set (S2 := mat_vec (SkewSymmetric (vsub (pf 0) (pb 0))) _).
  clearbody S1 S2. generalize rc rb. clear. intros rc rb.
  unfold mat_vec, vadd, vsub, vopp. cbn [vx vy vz]. f_equal; ring.
Qed.

Lemma seen_moves_fixed : forall pf pb tb pc qc dpf dpb db,
  vmoves pf dpf -> vmoves pb dpb -> vmoves tb db ->
  1 / 1000000000 < vnorm (tb 0) <= PI ->
  let qb := RotVecToQuat (tb 0) in
  let rc := m3tr (qmat qc) in
  let rb := m3tr (qmat qb) in
  let rl := m3mul rc rb in
  vmoves (fun t => in_camera (pf t) (pb t) (RotVecToQuat (tb t)) pc qc)
    (vadd (vadd (mat_vec rl dpf) (mat_vec (m3neg rl) dpb))
           (mat_vec (m3mul (m3mul rl (SkewSymmetric (vsub (pf 0) (pb 0)))) (m3tr (QuaternionJacobian qb))) db)).
Proof.
  intros pf pb tb pc qc dpf dpb db Hf Hb Htb Bb qb rc rb rl. unfold in_camera.
  pose proof (inv_moves tb db _ _ Htb Bb (vmoves_sub _ _ _ _ Hf Hb)) as D1. cbv beta zeta in D1.
  pose proof (vmoves_mat rc _ _ (vmoves_sub _ _ _ _ D1 (vmoves_const pc))) as D2. cbv beta zeta in D2.
  eapply vmoves_eq; [|exact D2]. fold qb. fold rb.
  rewrite !m3mul_vec, !m3neg_vec. unfold rl. rewrite !m3mul_vec.
  set (S2 := mat_vec (SkewSymmetric (vsub (pf 0) (pb 0))) _).
  clearbody S2. generalize rc rb. clear. intros rc rb.
  unfold mat_vec, vadd, vsub, vopp, v0. cbn [vx vy vz]. f_equal; ring.
Qed.

(** *** Rows made of blocks of any shape *)
Definition zero_win (j : mat R) (i a q : nat) : Prop := forall k, (a <= k < a + q)%nat -> ent j i k = 0.

Lemma rsum_window_gen : forall n a q f g x, (a + q <= n)%nat -> (forall k, (a <= k < a + q)%nat -> g k = 0) ->
  rsum n (fun k => (if in_range k a q then f (k - a)%nat else g k) * x k) =
  rsum n (fun k => g k * x k) + rsum q (fun c => f c * x (a + c)%nat).
Proof.
  intros n a q f g x Hn Hz.
  replace n with (a + (q + (n - a - q)))%nat by lia. rewrite !rsum_split.
  rewrite (rsum_ext a (fun k => (if in_range k a q then f (k - a)%nat else g k) * x k) (fun k => g k * x k)).
  2: { intros i Hi. replace (in_range i a q) with false; [reflexivity|].
       symmetry. apply not_true_iff_false. rewrite in_range_spec. lia. }
  rewrite (rsum_ext q (fun i => (if in_range (a + i) a q then f (a + i - a)%nat else g (a + i)%nat) * x (a + i)%nat) (fun c => f c * x (a + c)%nat)).
  2: { intros i Hi. rewrite (proj2 (in_range_spec (a + i) a q)) by lia. replace (a + i - a)%nat with i by lia. reflexivity. }
  rewrite (rsum_ext (n - a - q) (fun i => (if in_range (a + (q + i)) a q then f (a + (q + i) - a)%nat else g (a + (q + i))%nat) * x (a + (q + i))%nat)
     (fun i => g (a + (q + i))%nat * x (a + (q + i))%nat)).
  2: { intros i Hi. replace (in_range (a + (q + i)) a q) with false; [reflexivity|].
       symmetry. apply not_true_iff_false. rewrite in_range_spec. lia. }
  rewrite (rsum_0 q (fun i => g (a + i)%nat * x (a + i)%nat)).
  2: { intros i Hi. rewrite Hz by lia. ring. }
  ring.
Qed.
Lemma row_block_gen : forall j i0 a p q b j' x i, set_block j i0 a p q b = OK j' ->
  (i0 <= i < i0 + p)%nat -> zero_win j i a q ->
  apply_row j' x i = apply_row j x i + rsum q (fun c => ent b (i - i0) c * x (a + c)%nat).
Proof.
  intros j i0 a p q b j' x i H Hi Hz. apply set_block_inv in H. destruct H as (A & B & C & D & ->).
  unfold apply_row. cbn [nc ent].
  rewrite (rsum_ext _ _ (fun k => (if in_range k a q then (fun c => ent b (i - i0) c) (k - a)%nat else ent j i k) * x k)).
  - apply (rsum_window_gen _ _ _ (fun c => ent b (i - i0)%nat c)); [exact B|intros; apply Hz; assumption].
  - intros k Hk. rewrite (proj2 (in_range_spec i i0 p)) by lia. cbn [andb]. reflexivity.
Qed.
Lemma zero_win_block : forall j i0 a p q b j' i c q', set_block j i0 a p q b = OK j' ->
  (c + q' <= a \/ a + q <= c)%nat -> zero_win j i c q' -> zero_win j' i c q'.
Proof.
  intros j i0 a p q b j' i c q' H Hd Hz k Hk. apply set_block_inv in H. destruct H as (A & B & C & D & ->). cbn [ent].
  replace (in_range i i0 p && in_range k a q)%bool with false; [apply Hz; exact Hk|].
  symmetry. apply not_true_iff_false. rewrite andb_true_iff, !in_range_spec. lia.
Qed.

(** Without lens distortion the distortion Jacobian is the identity. *)
Lemma dp_plain : forall k x y H m v i, no_distortion k -> (i < 2)%nat -> nc m = 3%nat ->
  rsum 3 (fun c => ent (dp (DistortionJacobian x y k) H m) i c * vget v c) =
  ent H i 0 * vx (mat_vec m v) + ent H i 1 * vy (mat_vec m v) + ent H i 2 * vz (mat_vec m v).
Proof.
  intros k x y H m v i (K1 & K2 & K3 & K4) Hi _. unfold dp, DistortionJacobian, mm, rsum, mat_vec. cbv zeta.
  rewrite K1, K2, K3, K4. destruct i as [|[|i]]; [..|exfalso; lia]; cbn; ring.
Qed.
Lemma dp_plain6 : forall k x y H a b v w i, no_distortion k -> (i < 2)%nat ->
  rsum 6 (fun c => ent (dp (DistortionJacobian x y k) H (H_t a b)) i c * (if Nat.ltb c 3 then vget v c else vget w (c - 3))) =
  (ent H i 0 * vx (mat_vec a v) + ent H i 1 * vy (mat_vec a v) + ent H i 2 * vz (mat_vec a v)) +
  (ent H i 0 * vx (mat_vec b w) + ent H i 1 * vy (mat_vec b w) + ent H i 2 * vz (mat_vec b w)).
Proof.
  intros k x y H a b v w i (K1 & K2 & K3 & K4) Hi. unfold dp, H_t, DistortionJacobian, mm, rsum, mat_vec. cbv zeta.
  rewrite K1, K2, K3, K4. destruct i as [|[|i]]; [..|exfalso; lia]; cbn; ring.
Qed.

(** *** One observation of the MSCKF update *)

Lemma row3_add : forall m i a b, row3 m i (vadd a b) = row3 m i a + row3 m i b.
Proof. intros. unfold row3, vadd. cbn. ring. Qed.
Lemma slice_get : forall x a c, (c < 3)%nat -> x (a + c)%nat = vget (slice x a) c.
Proof. intros x a c H. destruct c as [|[|[|c]]]; [..|exfalso; lia]; cbn; rewrite ?Nat.add_0_r; reflexivity. Qed.
Lemma slice_get6 : forall x a c, (c < 6)%nat ->
  x (a + c)%nat = if Nat.ltb c 3 then vget (slice x a) c else vget (slice x (a + 3)) (c - 3).
Proof.
  intros x a c H. destruct (Nat.ltb c 3) eqn:E.
  - apply Nat.ltb_lt in E. apply slice_get. exact E.
  - apply Nat.ltb_ge in E. rewrite <- (slice_get x (a + 3)) by lia. f_equal. lia.
Qed.
Lemma clone_sum : forall k x y H a b xs ix i, no_distortion k -> (i < 2)%nat ->
  rsum 6 (fun c => ent (dp (DistortionJacobian x y k) H (H_t a b)) i c * xs (ix + c)%nat) =
  row3 H i (mat_vec a (slice xs ix)) + row3 H i (mat_vec b (slice xs (ix + 3))).
Proof.
  intros k x y H a b xs ix i K Hi. unfold row3. rewrite <- (dp_plain6 k x y H a b _ _ i K Hi).
  apply rsum_ext. intros c Hc. f_equal. apply slice_get6. exact Hc.
Qed.
Lemma ext_sum : forall k x y H a xs ix i, no_distortion k -> (i < 2)%nat -> nc a = 3%nat ->
  rsum 3 (fun c => ent (dp (DistortionJacobian x y k) H a) i c * xs (ix + c)%nat) = row3 H i (mat_vec a (slice xs ix)).
Proof.
  intros k x y H a xs ix i K Hi Ha. unfold row3. rewrite <- (dp_plain k x y H a _ i K Hi Ha).
  apply rsum_ext. intros c Hc. f_equal. apply slice_get. exact Hc.
Qed.
Lemma ext_sum_neg : forall k x y H a xs ix i, no_distortion k -> (i < 2)%nat -> nc a = 3%nat ->
  rsum 3 (fun c => ent (neg2 (dp (DistortionJacobian x y k) H a)) i c * xs (ix + c)%nat) = row3 H i (mat_vec (m3neg a) (slice xs ix)).
Proof.
  intros k x y H a xs ix i K Hi Ha. rewrite m3neg_vec.
  transitivity (- row3 H i (mat_vec a (slice xs ix))); [|unfold row3, vopp; cbn; ring].
  rewrite <- (ext_sum k x y H a xs ix i K Hi Ha). rewrite <- rsum_opp. apply rsum_ext.
  intros c Hc. unfold neg2, mopp. cbn [ent]. ring.
Qed.

Section Row.
Variables (u : msckf_updater) (k : Intrinsics) (n cam i : nat) (e e0 e1 : ekf) (f : FeaturePoint) (a : AugState).
Variables (R0 F0 C0 R1 F1 C1 : mat R) (pos_f pos_c : V3) (ang_c : quat).
Hypothesis Hk : no_distortion k.
Hypothesis Ha : GetAugState e (mu_id u) (fp_frame f) (fp_time f) = OK (a, e0).
Hypothesis Hal : a_alpha a = 0.
Hypothesis Hr : feature_row u k pos_c ang_c n cam pos_f e i f R0 F0 C0 = OK (R1, F1, C1, e1).
Hypothesis Hz : forall r c, (2 * i <= r < 2 * i + 2)%nat -> ent C0 r c = 0.
Hypothesis Hd : mu_ext u = true -> (cam + 6 <= a_index a)%nat.

Lemma feature_row_facts : exists H_p x y,
  ProjectionJacobian (in_camera pos_f (a_pos a) (a_ang a) pos_c ang_c) = OK H_p /\
  Project (in_camera pos_f (a_pos a) (a_ang a) pos_c ang_c) = OK (x, y) /\
  exists mx my, undo_pixel k (fp_kp f) = OK (mx, my) /\
  ent R1 (2 * i) 0 = mx - x /\ ent R1 (2 * i + 1) 0 = my - y /\
  forall r xs v, (r < 2)%nat ->
  let rc := m3tr (qmat ang_c) in
  let rb := m3tr (qmat (a_ang a)) in
  let rl := m3mul rc rb in
  row3 F1 (2 * i + r) v = row3 H_p r (mat_vec rl v) /\
  apply_row C1 xs (2 * i + r) =
    row3 H_p r (mat_vec (m3neg rl) (slice xs (a_index a))) +
    row3 H_p r (mat_vec (m3mul (m3mul rl (SkewSymmetric (vsub pos_f (a_pos a)))) (m3tr (QuaternionJacobian (a_ang a)))) (slice xs (a_index a + 3))) +
    (if mu_ext u then
       row3 H_p r (mat_vec (m3neg rc) (slice xs cam)) +
       row3 H_p r (mat_vec (m3mul (m3mul rc (SkewSymmetric (vsub (mat_vec rb (vsub pos_f (a_pos a))) pos_c))) (m3tr (QuaternionJacobian ang_c))) (slice xs (cam + 3)))
     else 0).
Proof.
  unfold feature_row in Hr. rewrite Ha in Hr. cbn [bind] in Hr.
  change (mat_vec (m3tr (qmat ang_c)) (vsub (mat_vec (m3tr (qmat (a_ang a))) (vsub pos_f (a_pos a))) pos_c))
    with (in_camera pos_f (a_pos a) (a_ang a) pos_c ang_c) in Hr.
  destruct (Project _) as [[px py]|] eqn:EP; [|discriminate]. cbn [bind] in Hr.
  destruct (undo_pixel k (fp_kp f)) as [[mx my]|] eqn:EU; [|discriminate]. cbn [bind] in Hr.
  destruct (set_block R0 _ _ _ _ _) as [R1'|] eqn:ER; [|discriminate]. cbn [bind] in Hr.
  destruct (ProjectionJacobian _) as [H_p|] eqn:EH; [|discriminate]. cbn [bind] in Hr.
  destruct (set_block F0 _ _ _ _ _) as [F1'|] eqn:EF; [|discriminate]. cbn [bind] in Hr.
  rewrite Hal in Hr. rewrite (proj2 (Reqb_spec 0 0) eq_refl) in Hr. cbn [negb] in Hr.
  exists H_p, px, py. split; [reflexivity|]. split; [reflexivity|]. exists mx, my. split; [reflexivity|].
  assert (ES : exists Cx, (if mu_ext u then
      let* H_c := set_block C0 (2 * i) (cam + 0) 2 3 (neg2 (dp (DistortionJacobian mx my k) H_p (m3tr (qmat ang_c)))) in
      set_block H_c (2 * i) (cam + 3) 2 3
        (dp (DistortionJacobian mx my k) H_p (m3mul (m3mul (m3tr (qmat ang_c)) (SkewSymmetric (vsub (mat_vec (m3tr (qmat (a_ang a))) (vsub pos_f (a_pos a))) pos_c)))
                           (m3tr (QuaternionJacobian ang_c)))) else OK C0) = OK Cx /\
      R1 = R1' /\ F1 = F1' /\
      set_block Cx (2 * i) (a_index a) 2 6 (dp (DistortionJacobian mx my k) H_p (H_t (m3neg (m3mul (m3tr (qmat ang_c)) (m3tr (qmat (a_ang a)))))
           (m3mul (m3mul (m3mul (m3tr (qmat ang_c)) (m3tr (qmat (a_ang a)))) (SkewSymmetric (vsub pos_f (a_pos a)))) (m3tr (QuaternionJacobian (a_ang a)))))) = OK C1).
  { destruct (if mu_ext u then _ else OK C0) as [Cx|]; [|discriminate]. cbn [bind] in Hr.
    destruct (set_block Cx _ _ _ _ _) as [Cy|] eqn:EC; [|discriminate]. cbn [bind] in Hr.
    injection Hr as <- <- <- <-. exists Cx. auto. }
  destruct ES as (Cx & EX & -> & -> & EC). clear Hr.
  apply set_block_inv in ER. destruct ER as (_ & _ & _ & _ & ->). cbn [ent].
  rewrite (proj2 (in_range_spec (2 * i) (2 * i) 2)), (proj2 (in_range_spec (2 * i + 1) (2 * i) 2)), (proj2 (in_range_spec 0 0 1)) by lia.
  replace (2 * i - 2 * i)%nat with 0%nat by lia. replace (2 * i + 1 - 2 * i)%nat with 1%nat by lia. cbn [andb].
  split; [reflexivity|]. split; [reflexivity|].
  intros r xs v Hrr. set (rc := m3tr (qmat ang_c)). set (rb := m3tr (qmat (a_ang a))). set (rl := m3mul rc rb). split.
  - apply set_block_inv in EF. destruct EF as (_ & _ & _ & _ & ->). unfold row3 at 1. cbn [ent].
    rewrite (proj2 (in_range_spec (2 * i + r) (2 * i) 2)) by lia.
    rewrite (proj2 (in_range_spec 0 0 3)), (proj2 (in_range_spec 1 0 3)), (proj2 (in_range_spec 2 0 3)) by lia. cbn [andb].
    replace (2 * i + r - 2 * i)%nat with r by lia. cbn [Nat.sub].
    pose proof (dp_plain k mx my H_p rl v r Hk Hrr eq_refl) as D. cbn [rsum] in D.
    unfold row3. rewrite <- D. unfold rl, rc, rb. cbn [vget]. ring.
  - assert (Hw : zero_win Cx (2 * i + r) (a_index a) 6).
    { destruct (mu_ext u).
      - destruct (set_block C0 _ _ _ _ _) as [Cz|] eqn:EZ; [|discriminate]. cbn [bind] in EX.
        specialize (Hd eq_refl).
        eapply zero_win_block; [exact EX|right; lia|]. eapply zero_win_block; [exact EZ|right; lia|].
        intros c _. apply Hz. lia.
      - injection EX as <-. intros c _. apply Hz. lia. }
    rewrite (row_block_gen _ _ _ _ _ _ _ xs (2 * i + r) EC) by (try exact Hw; lia).
    replace (2 * i + r - 2 * i)%nat with r by lia.
    rewrite clone_sum by assumption. fold rc. fold rb. fold rl.
    assert (EE : apply_row Cx xs (2 * i + r) = (if mu_ext u then
       row3 H_p r (mat_vec (m3neg rc) (slice xs cam)) +
       row3 H_p r (mat_vec (m3mul (m3mul rc (SkewSymmetric (vsub (mat_vec rb (vsub pos_f (a_pos a))) pos_c))) (m3tr (QuaternionJacobian ang_c))) (slice xs (cam + 3)))
     else 0)).
    { assert (Z0 : apply_row C0 xs (2 * i + r) = 0).
      { unfold apply_row. apply rsum_0. intros c _. rewrite Hz by lia. ring. }
      destruct (mu_ext u).
      - destruct (set_block C0 _ _ _ _ _) as [Cz|] eqn:EZ; [|discriminate]. cbn [bind] in EX.
        rewrite (row_block_gen _ _ _ _ _ _ _ xs (2 * i + r) EX); [|lia|eapply zero_win_block; [exact EZ|right; lia|intros c _; apply Hz; lia]].
        rewrite (row_block_gen _ _ _ _ _ _ _ xs (2 * i + r) EZ); [|lia|intros c _; apply Hz; lia].
        replace (2 * i + r - 2 * i)%nat with r by lia. rewrite Z0.
        rewrite ext_sum by (try assumption; reflexivity). rewrite ext_sum_neg by (try assumption; reflexivity).
        rewrite Nat.add_0_r. fold rc. fold rb. ring.
      - injection EX as <-. exact Z0. }
    rewrite EE. ring.
Qed.
End Row.

Lemma in_camera_seen : forall pf pb qb pc qc, qnorm2 qb = 1 -> qnorm2 qc = 1 ->
  in_camera pf pb qb pc qc = seen_from pf pb qb pc qc.
Proof. intros. unfold in_camera, seen_from. rewrite !m3tr_qmat by assumption. reflexivity. Qed.
Lemma project_inv : forall p x y, Project p = OK (x, y) -> vz p <> 0 /\ (x, y) = on_image p.
Proof.
  intros p x y H. unfold Project in H.
  destruct (rdiv (vx p) (vz p)) as [a|] eqn:E1; [|discriminate]. cbn [bind] in H.
  destruct (rdiv (vy p) (vz p)) as [b|] eqn:E2; [|discriminate]. cbn [bind] in H. injection H as <- <-.
  apply rdiv_inv in E1, E2. destruct E1 as [Hz ->], E2 as [_ ->]. split; [exact Hz|reflexivity].
Qed.
Lemma image_moves : forall p v H, vmoves p v -> ProjectionJacobian (p 0) = OK H ->
  moves (fun t => fst (on_image (p t))) (row3 H 0 v) /\ moves (fun t => snd (on_image (p t))) (row3 H 1 v).
Proof.
  intros p v H Hv E. destruct (project_jacobian p v H Hv E) as (x & y & N & A & B).
  split; [apply (moves_loc x)|apply (moves_loc y)]; try assumption; (eapply near_impl; [|exact N]); cbv beta;
  intros t Ht; apply project_inv in Ht; destruct Ht as [_ Ht]; rewrite <- Ht; reflexivity.
Qed.

(** The camera pose is a fixed parameter. *)
Lemma msckf_rows_fixed : forall u k n cam i e e0 e1 f a R0 F0 C0 R1 F1 C1 pf pb tb pc qc x dpf,
  no_distortion k -> mu_ext u = false ->
  GetAugState e (mu_id u) (fp_frame f) (fp_time f) = OK (a, e0) -> a_alpha a = 0 ->
  feature_row u k pc qc n cam (pf 0) e i f R0 F0 C0 = OK (R1, F1, C1, e1) ->
  (forall r c, (2 * i <= r < 2 * i + 2)%nat -> ent C0 r c = 0) ->
  qnorm2 qc = 1 -> a_pos a = pb 0 -> a_ang a = RotVecToQuat (tb 0) -> 1 / 1000000000 < vnorm (tb 0) <= PI ->
  vmoves pf dpf -> vmoves pb (slice x (a_index a)) -> vmoves tb (slice x (a_index a + 3)) ->
  let image t := on_image (seen_from (pf t) (pb t) (RotVecToQuat (tb t)) pc qc) in
  (exists mx my, undo_pixel k (fp_kp f) = OK (mx, my) /\
     ent R1 (2 * i) 0 = mx - fst (image 0) /\ ent R1 (2 * i + 1) 0 = my - snd (image 0)) /\
  moves (fun t => fst (image t)) (row3 F1 (2 * i) dpf + apply_row C1 x (2 * i)) /\
  moves (fun t => snd (image t)) (row3 F1 (2 * i + 1) dpf + apply_row C1 x (2 * i + 1)).
Proof.
  intros u k n cam i e e0 e1 f a R0 F0 C0 R1 F1 C1 pf pb tb pc qc x dpf Hk Hx Ha Hal Hr Hz Hqc Hpb Htb Hbt Hf Hb Ht image.
  destruct (feature_row_facts u k n cam i e e0 e1 f a R0 F0 C0 R1 F1 C1 (pf 0) pc qc Hk Ha Hal Hr Hz)
    as (H & px & py & EH & EP & mx & my & EU & A & B & C); [congruence|].
  rewrite Htb, Hpb in *. apply project_inv in EP. destruct EP as [Hz0 EP].
  rewrite in_camera_seen in EP by (try assumption; apply rotvec_unit). fold (image 0) in EP.
  split; [exists mx, my; rewrite <- EP; auto|].
  pose proof (seen_moves_fixed pf pb tb pc qc _ _ _ Hf Hb Ht Hbt) as D. cbv zeta in D.
  destruct (image_moves _ _ _ D EH) as [D0 D1].
  assert (L : near (fun t => on_image (in_camera (pf t) (pb t) (RotVecToQuat (tb t)) pc qc) = image t)).
  { exists 1. split; [lra|]. intros t _. rewrite in_camera_seen by (try assumption; apply rotvec_unit). reflexivity. }
  destruct (C 0%nat x dpf ltac:(lia)) as [F0' G0]. destruct (C 1%nat x dpf ltac:(lia)) as [F1' G1].
  rewrite Hx in G0, G1. rewrite Nat.add_0_r in F0', G0.
  split.
  - apply (moves_loc (fun t => fst (on_image (in_camera (pf t) (pb t) (RotVecToQuat (tb t)) pc qc)))).
    + eapply near_impl; [|exact L]. cbv beta. intros t ->. reflexivity.
    + eapply dl_eq; [|exact D0]. rewrite F0', G0, !row3_add. ring.
  - apply (moves_loc (fun t => snd (on_image (in_camera (pf t) (pb t) (RotVecToQuat (tb t)) pc qc)))).
    + eapply near_impl; [|exact L]. cbv beta. intros t ->. reflexivity.
    + eapply dl_eq; [|exact D1]. rewrite F1', G1, !row3_add. ring.
Qed.

(** The camera pose is part of the state. *)
Lemma msckf_rows_ext : forall u k n cam i e e0 e1 f a R0 F0 C0 R1 F1 C1 pf pb tb pc tc x dpf,
  no_distortion k -> mu_ext u = true -> (cam + 6 <= a_index a)%nat ->
  GetAugState e (mu_id u) (fp_frame f) (fp_time f) = OK (a, e0) -> a_alpha a = 0 ->
  feature_row u k (pc 0) (RotVecToQuat (tc 0)) n cam (pf 0) e i f R0 F0 C0 = OK (R1, F1, C1, e1) ->
  (forall r c, (2 * i <= r < 2 * i + 2)%nat -> ent C0 r c = 0) ->
  a_pos a = pb 0 -> a_ang a = RotVecToQuat (tb 0) ->
  1 / 1000000000 < vnorm (tb 0) <= PI -> 1 / 1000000000 < vnorm (tc 0) <= PI ->
  vmoves pf dpf -> vmoves pb (slice x (a_index a)) -> vmoves tb (slice x (a_index a + 3)) ->
  vmoves pc (slice x cam) -> vmoves tc (slice x (cam + 3)) ->
  let image t := on_image (seen_from (pf t) (pb t) (RotVecToQuat (tb t)) (pc t) (RotVecToQuat (tc t))) in
  (exists mx my, undo_pixel k (fp_kp f) = OK (mx, my) /\
     ent R1 (2 * i) 0 = mx - fst (image 0) /\ ent R1 (2 * i + 1) 0 = my - snd (image 0)) /\
  moves (fun t => fst (image t)) (row3 F1 (2 * i) dpf + apply_row C1 x (2 * i)) /\
  moves (fun t => snd (image t)) (row3 F1 (2 * i + 1) dpf + apply_row C1 x (2 * i + 1)).
Proof.
  intros u k n cam i e e0 e1 f a R0 F0 C0 R1 F1 C1 pf pb tb pc tc x dpf Hk Hx Hci Ha Hal Hr Hz Hpb Htb Hbt Hbc Hf Hb Ht Hc Htc image.
  destruct (feature_row_facts u k n cam i e e0 e1 f a R0 F0 C0 R1 F1 C1 (pf 0) (pc 0) (RotVecToQuat (tc 0)) Hk Ha Hal Hr Hz)
    as (H & px & py & EH & EP & mx & my & EU & A & B & C); [auto|].
  rewrite Htb, Hpb in *. apply project_inv in EP. destruct EP as [Hz0 EP].
  rewrite in_camera_seen in EP by apply rotvec_unit. fold (image 0) in EP.
  split; [exists mx, my; rewrite <- EP; auto|].
  pose proof (seen_moves pf pb tb pc tc _ _ _ _ _ Hf Hb Ht Hc Hbt (conj Htc Hbc)) as D. cbv zeta in D.
  destruct (image_moves _ _ _ D EH) as [D0 D1].
  assert (L : near (fun t => on_image (in_camera (pf t) (pb t) (RotVecToQuat (tb t)) (pc t) (RotVecToQuat (tc t))) = image t)).
  { exists 1. split; [lra|]. intros t _. rewrite in_camera_seen by apply rotvec_unit. reflexivity. }
  destruct (C 0%nat x dpf ltac:(lia)) as [F0' G0]. destruct (C 1%nat x dpf ltac:(lia)) as [F1' G1].
  rewrite Hx in G0, G1. rewrite Nat.add_0_r in F0', G0.
  split.
  - apply (moves_loc (fun t => fst (on_image (in_camera (pf t) (pb t) (RotVecToQuat (tb t)) (pc t) (RotVecToQuat (tc t)))))).
    + eapply near_impl; [|exact L]. cbv beta. intros t ->. reflexivity.
    + eapply dl_eq; [|exact D0]. rewrite F0', G0, !row3_add. ring.
  - apply (moves_loc (fun t => snd (on_image (in_camera (pf t) (pb t) (RotVecToQuat (tb t)) (pc t) (RotVecToQuat (tc t)))))).
    + eapply near_impl; [|exact L]. cbv beta. intros t ->. reflexivity.
    + eapply dl_eq; [|exact D1]. rewrite F1', G1, !row3_add. ring.
Qed.
