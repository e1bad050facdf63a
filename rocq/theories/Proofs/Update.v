(** Updater::KalmanUpdate as a whole. *)
From Coq Require Import Reals List Arith Bool Lia Lra.
From Verif Require Import Base.Res Base.Mat Base.RDec Base.RSum Base.LinAlg Base.Geom Base.AMap Base.RMat
  Model.TypeHelper Model.Types Model.MathHelperMat Model.QR Model.Ekf Model.Updater Model.Ops
  Spec.Layout Spec.History Spec.Correct Spec.KF Spec.Contract Spec.Named
  Proofs.Refresh Proofs.Wf Proofs.PlusVec Proofs.Kalman Proofs.CovGood Proofs.Invariant.
Import ListNotations.
Open Scope nat_scope.

(** The measurement noise an update works with. *)
Definition noise_used (root : bool) (m : nat) (noise : mat R) : fmat :=
  if root then gram m (fun i j => sqrt (ent noise i j)) else ent noise.

Lemma kalman_full : forall e jac y noise, inv e -> contract e (OKalman jac y noise) ->
  let n := dim (e_state e) in let m := nr jac in
  let Rn := noise_used (p_root (e_par e)) m noise in
  exists e' K, KalmanUpdate e jac y noise = OK e' /\
    nr K = n /\ nc K = m /\ psd n (covariance e) /\ spd m Rn /\
    is_gain n m (covariance e) (ent jac) Rn (ent K) /\
    eqm n n (covariance e') (joseph n m (covariance e) (ent jac) Rn (ent K)) /\
    (exists d, nr d = n /\ nc d = 1 /\ (forall i, i < n -> ent d i 0 = mm m (ent K) (ent y) i 0) /\
       e_state e' = correct d (e_state e)) /\
    exists c', e' = with_cov (with_state e (e_state e')) c'.
Proof.
  intros e jac y noise [W G] C n m Rn. cbn [contract] in C.
  destruct C as [J [R1 [R2 [N1 [N2 HN]]]]]. fold (is_root e) in HN. fold n in J.
  assert (Hn : n = e_size e) by apply (dim_size e W).
  pose proof (wf_nr _ W) as C1. pose proof (wf_nc _ W) as C2. rewrite <- Hn in C1, C2.
  unfold KalmanUpdate, covariance. fold (is_root e).
  assert (HK : exists g c', (if is_root e then kalman_root (e_cov e) jac noise
    else kalman_std (e_cov e) jac noise) = OK (g, c') /\ nr g = n /\ nc g = m /\
    nr c' = n /\ nc c' = n /\ psd n (stands_for (is_root e) n (e_cov e)) /\ spd m Rn /\
    is_gain n m (stands_for (is_root e) n (e_cov e)) (ent jac) Rn (ent g) /\
    eqm n n (stands_for (is_root e) n c') (joseph n m (stands_for (is_root e) n (e_cov e)) (ent jac) Rn (ent g))).
  { unfold Rn, noise_used. fold (is_root e). destruct (is_root e); cbn [good stands_for] in *.
    - destruct HN as [HN1 HN2].
      destruct (kalman_root_ok n m (e_cov e) jac noise) as [g [c' [E [G1 [G2 [G3 [G4 [G5 [G6 G7]]]]]]]]]; auto.
      exists g, c'. repeat (split; [first [assumption|apply psd_gram]|]). exact G7.
    - destruct (kalman_std_ok n m (e_cov e) jac noise) as [g [c' [E [G1 [G2 [G3 [G4 [G5 G6]]]]]]]]; auto.
      { rewrite Hn; exact G. }
      exists g, c'. repeat (split; [first [assumption|rewrite Hn; exact G]|]). exact G6. }
  destruct HK as [g [c' [-> [G1 [G2 [G3 [G4 [G5 [G6 [G7 G8]]]]]]]]]]. cbn [bind].
  rewrite mulc_ok by lia. cbn [bind].
  rewrite state_plus_ok; cbn [nr nc]; [|apply W|exact R2|].
  2:{ rewrite G1, Hn. rewrite (pre_size _ (wf_pre _ W)). lia. }
  cbn [bind]. eexists; exists g. split; [reflexivity|]. split; [exact G1|]. split; [exact G2|].
  cbn [e_par e_size e_cov e_state with_cov with_state]. fold (is_root e). rewrite <- Hn.
  split; [exact G5|]. split; [exact G6|]. split; [exact G7|]. split; [exact G8|].
  split; [|eexists; reflexivity].
  eexists. split; [|split; [|split; [|reflexivity]]]; cbn [nr nc ent]; auto.
  intros i Hi. rewrite G2. reflexivity.
Qed.

(** The gain is determined. *)
Lemma gain_unique : forall n m P H Rn K K', spd m (innov n P H Rn) ->
  is_gain n m P H Rn K -> is_gain n m P H Rn K' -> eqm n m K K'.
Proof.
  intros n m P H Rn K K' HS H1 H2.
  assert (D : eqm n m (mm m (msub K K') (innov n P H Rn)) zm).
  { intros i j Hi Hj. rewrite (mm_msub_l n m m K K' _ i j) by auto. unfold msub.
    rewrite (H1 i j), (H2 i j) by auto. unfold zm. ring. }
  intros i j Hi Hj.
  destruct (Req_dec (K i j) (K' i j)) as [E|E]; [exact E|exfalso].
  set (x := fun k => (K i k - K' i k)%R).
  assert (NZ : nonzero m x) by (exists j; split; [exact Hj|unfold x; lra]).
  pose proof (proj2 HS x NZ) as Q. unfold qf, dot, mv in Q.
  assert (Z : rsum m (fun k => (x k * rsum m (fun l => (innov n P H Rn k l * x l)%R))%R) = 0%R).
  { rewrite (rsum_ext m _ (fun k => rsum m (fun l => (x l * (x k * innov n P H Rn k l))%R))).
    2:{ intros k Hk. rewrite <- rsum_scal_l. apply rsum_ext. intros; ring. }
    rewrite rsum_swap. apply rsum_0. intros l Hl. rewrite rsum_scal_l.
    pose proof (D i l Hi Hl) as Z. unfold mm, msub, zm in Z.
    rewrite (rsum_ext m _ (fun k => ((K i k - K' i k) * innov n P H Rn k l)%R)) by reflexivity.
    rewrite Z. ring. }
  lra.
Qed.

(** *** A zero correction changes nothing *)
Lemma vnorm_0 : vnorm v0 = 0%R.
Proof. unfold vnorm, vnorm2, vdot, v0. cbn. replace (0 * 0 + 0 * 0 + 0 * 0)%R with 0%R by ring. apply sqrt_0. Qed.
Lemma RotVec_0 : RotVecToQuat v0 = qid.
Proof.
  unfold RotVecToQuat. rewrite vnorm_0. destruct (Rltb (1 / 1000000000) 0) eqn:E; [|reflexivity].
  apply Rltb_spec in E. lra.
Qed.
Lemma vadd_0 : forall a, vadd a v0 = a.
Proof. intros [x y z]. unfold vadd, v0. cbn. f_equal; ring. Qed.
Lemma qmul_id : forall q, qmul q qid = q.
Proof. intros [w x y z]. unfold qmul, qid. cbn. f_equal; ring. Qed.
Lemma segv_0 : forall d i, (forall k, ent d k 0 = 0%R) -> segv d i = v0.
Proof. intros d i H. unfold segv, v0. now rewrite !H. Qed.

Lemma map_same : forall A (f : A -> A) m, (forall x, f x = x) -> map (on_snd f) m = m.
Proof.
  intros A f m H. induction m as [|[k v] t IH]; [reflexivity|]. cbn [map]. unfold on_snd at 1. cbn [fst snd].
  now rewrite H, IH.
Qed.

Lemma correct_zero : forall d s, (forall k, ent d k 0 = 0%R) -> correct d s = s.
Proof.
  intros d s H. unfold correct.
  assert (HB : correct_body d (s_body s) = s_body s).
  { unfold correct_body. rewrite !(segv_0 d _ H), !vadd_0, RotVec_0, qmul_id. destruct (s_body s); reflexivity. }
  rewrite HB. rewrite !map_same; [destruct s; reflexivity|..].
  - intros l. rewrite <- (map_id l) at 2. apply map_ext. intros a. unfold correct_aug.
    rewrite !(segv_0 d _ H), vadd_0, RotVec_0, qmul_id. destruct a; reflexivity.
  - intros a. unfold correct_fid. rewrite !(segv_0 d _ H), vadd_0, RotVec_0, qmul_id.
    destruct (f_ext a); destruct a; reflexivity.
  - intros a. unfold correct_cam. rewrite !(segv_0 d _ H), vadd_0, RotVec_0, qmul_id.
    destruct (c_ext a); destruct a; reflexivity.
  - intros a. unfold correct_gps. rewrite !(segv_0 d _ H), vadd_0. destruct (g_ext a); destruct a; reflexivity.
  - intros a. unfold correct_imu. rewrite !(segv_0 d _ H).
    destruct (i_ext a) eqn:E1; cbn [i_int i_acc_bias i_omg_bias imu_with_pose].
    + rewrite vadd_0, RotVec_0, qmul_id. destruct (i_int a) eqn:E2; rewrite ?vadd_0; destruct a; reflexivity.
    + destruct (i_int a) eqn:E2; rewrite ?vadd_0; destruct a; reflexivity.
Qed.
