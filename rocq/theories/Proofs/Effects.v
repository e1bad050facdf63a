(** Effect of every call on the estimates. *)
From Coq Require Import Reals List Arith Bool Lia Lra.
From Verif Require Import Base.Res Base.Mat Base.RDec Base.LinAlg Base.Geom Base.AMap Base.RMat
  Model.TypeHelper Model.Types Model.MathHelperMat Model.Ekf Model.Updater Model.Ops
  Spec.Layout Spec.History Spec.Contract Spec.Correct Spec.Named Spec.Same
  Proofs.Refresh Proofs.Wf Proofs.Register Proofs.Augment Proofs.Invariant Proofs.Named Proofs.Same Proofs.Update
  Proofs.Scalars.
Import ListNotations.
Open Scope nat_scope.

Definition reg_effect (s : State) (o : op) : State :=
  match o with
  | ORegImu id st _ => state_with_imu s (mset id st (s_imu s))
  | ORegGps id st _ => state_with_gps s (mset id st (s_gps s))
  | ORegCam id st _ => state_with_cam s (mset id st (s_cam s))
  | ORegFid st _ => state_with_fid s (mset (f_id st) st (s_fid s))
  | _ => s
  end.
Definition is_reg (o : op) : Prop :=
  match o with ORegImu _ _ _ | ORegGps _ _ _ | ORegCam _ _ _ | ORegFid _ _ => True | _ => False end.

Lemma reg_state : forall e o e', inv e -> contract e o -> step e o = OK e' -> is_reg o ->
  e' = e \/ e_state e' = ix_state (reg_effect (e_state e) o).
Proof.
  intros e o e' I C E H. destruct o; try (exfalso; exact H); cbn [step reg_effect] in *.
  - destruct (mfind id (s_imu (e_state e))) eqn:Ef.
    + rewrite reg_imu_dup in E by congruence. injection E as <-. auto.
    + right. destruct (C Ef) as [H1 [H2 [H3 H4]]]. rewrite imu_labels_length in H1. destruct H2 as [H2 [H2' _]].
      destruct (RegisterIMU_ok e id st cov) as [e2 [E2 [_ [S' _]]]]; [apply I|exact Ef|repeat split; tauto|].
      rewrite E in E2. injection E2 as <-. exact S'.
  - destruct (mfind id (s_gps (e_state e))) eqn:Ef.
    + rewrite reg_gps_dup in E by congruence. injection E as <-. auto.
    + right. destruct (C Ef) as [H1 [H2 H3]]. rewrite gps_labels_length in H1. destruct H2 as [H2 [H2' _]].
      destruct (RegisterGPS_ok e id st cov) as [e2 [E2 [_ [S' _]]]]; [apply I|exact Ef|repeat split; tauto|].
      rewrite E in E2. injection E2 as <-. exact S'.
  - destruct (mfind id (s_cam (e_state e))) eqn:Ef.
    + rewrite reg_cam_dup in E by congruence. injection E as <-. auto.
    + right. destruct (C Ef) as [H1 [H2 [H3 H4]]]. rewrite cam_labels_length in H1. destruct H2 as [H2 [H2' _]].
      destruct (RegisterCamera_ok e id st cov) as [e2 [E2 [_ [S' _]]]]; [apply I|exact Ef|repeat split; tauto|].
      rewrite E in E2. injection E2 as <-. exact S'.
  - destruct (mfind (f_id st) (s_fid (e_state e))) eqn:Ef.
    + rewrite reg_fid_dup in E by congruence. injection E as <-. auto.
    + right. destruct (C Ef) as [H1 [H2 H3]]. rewrite fid_labels_length in H1. destruct H2 as [H2 [H2' _]].
      destruct (RegisterFiducial_ok e st cov) as [e2 [E2 [_ [S' _]]]]; [apply I|exact Ef|repeat split; tauto|].
      rewrite E in E2. injection E2 as <-. exact S'.
Qed.

(** *** A property of all orientations that every call keeps *)
Lemma Forall_on_map : forall A (f : A -> A) (P : A -> Prop) m, (forall x, P (f x) <-> P x) ->
  (Forall (fun x : nat * A => P (snd x)) (on_map f m) <-> Forall (fun x : nat * A => P (snd x)) m).
Proof.
  intros A f P m H. unfold on_map. rewrite Forall_map. split; apply Forall_impl; intros x; cbn; apply H.
Qed.

Lemma all_unit_bare : forall s, all_unit (bare s) <-> all_unit s.
Proof.
  intros s. unfold all_unit, bare. cbn [s_body s_imu s_cam s_fid s_aug].
  rewrite (Forall_on_map _ bare_imu (fun x => qnorm2 (i_ang x) = 1%R)) by (intros; reflexivity).
  rewrite (Forall_on_map _ bare_cam (fun x => qnorm2 (c_ang x) = 1%R)) by (intros; reflexivity).
  rewrite (Forall_on_map _ bare_fid (fun x => qnorm2 (f_ang x) = 1%R)) by (intros; reflexivity).
  rewrite (Forall_on_map _ (map bare_aug) (Forall (fun a => qnorm2 (a_ang a) = 1%R))).
  - reflexivity.
  - intros x. rewrite Forall_map. reflexivity.
Qed.

Lemma all_unit_ix : forall s, all_unit (ix_state s) <-> all_unit s.
Proof. intros s. rewrite <- all_unit_bare, bare_ix, all_unit_bare. reflexivity. Qed.

Lemma Forall_mset : forall A (P : A -> Prop) k v m, P v ->
  Forall (fun x : nat * A => P (snd x)) m -> Forall (fun x : nat * A => P (snd x)) (mset k v m).
Proof.
  intros A P k v m Hv. induction m as [|[k' v'] t IH]; intros H; cbn [mset].
  - constructor; auto.
  - inversion H; subst. destruct (Nat.eqb k k'); [constructor; auto|]. destruct (Nat.ltb k k'); constructor; auto.
Qed.
Lemma Forall_mtouch : forall A (P : A -> Prop) k d m, P d ->
  Forall (fun x : nat * A => P (snd x)) m -> Forall (fun x : nat * A => P (snd x)) (mtouch d k m).
Proof. intros A P k d m Hd H. unfold mtouch. destruct (mfind k m); [exact H|apply Forall_mset; auto]. Qed.
Lemma Forall_mget : forall A (P : A -> Prop) k d m, P d ->
  Forall (fun x : nat * A => P (snd x)) m -> P (mget d k m).
Proof.
  intros A P k d m Hd H. unfold mget. destruct (mfind k m) eqn:E; [|exact Hd].
  rewrite Forall_forall in H. apply mfind_in in E. apply (H _ E).
Qed.

Lemma qnorm2_mul : forall a b, qnorm2 (qmul a b) = (qnorm2 a * qnorm2 b)%R.
Proof. intros [a b c d] [e f g h]. unfold qnorm2, qmul. cbn. ring. Qed.
Lemma qnorm2_id : qnorm2 qid = 1%R.
Proof. unfold qnorm2, qid. cbn. ring. Qed.
Lemma vnorm2_nonneg : forall v, (0 <= vnorm2 v)%R.
Proof. intros [x y z]. unfold vnorm2, vdot. cbn. nra. Qed.
Lemma vnorm_sq : forall v, (vnorm v * vnorm v = vnorm2 v)%R.
Proof. intros v. unfold vnorm. apply sqrt_sqrt. apply vnorm2_nonneg. Qed.
Lemma vnorm2_div : forall v k, k <> 0%R -> vnorm2 (vdiv v k) = (vnorm2 v / (k * k))%R.
Proof. intros [x y z] k Hk. unfold vnorm2, vdot, vdiv. cbn. field. exact Hk. Qed.

Lemma aaq_unit : forall a v, vnorm2 v = 1%R -> qnorm2 (angle_axis_quat a v) = 1%R.
Proof.
  intros a [x y z] H. unfold qnorm2, angle_axis_quat, vnorm2, vdot in *. cbn in *.
  pose proof (sin2_cos2 (/ 2 * a)) as S. unfold Rsqr in S.
  transitivity ((sin (/ 2 * a) * sin (/ 2 * a)) * (x * x + y * y + z * z) + cos (/ 2 * a) * cos (/ 2 * a))%R; [ring|].
  rewrite H. lra.
Qed.

Lemma RotVec_unit : forall v, qnorm2 (RotVecToQuat v) = 1%R.
Proof.
  intros v. unfold RotVecToQuat. destruct (Rltb (1 / 1000000000) (vnorm v)) eqn:E; [|apply qnorm2_id].
  apply Rltb_spec in E. apply aaq_unit. rewrite vnorm2_div by lra. rewrite vnorm_sq.
  rewrite <- vnorm_sq. field. lra.
Qed.

Lemma unit_mul : forall a b, qnorm2 a = 1%R -> qnorm2 b = 1%R -> qnorm2 (qmul a b) = 1%R.
Proof. intros a b Ha Hb. rewrite qnorm2_mul, Ha, Hb. ring. Qed.

Lemma correct_unit : forall d s, all_unit s -> all_unit (correct d s).
Proof.
  intros d s [U1 [U2 [U3 [U4 U5]]]]. unfold all_unit, correct. cbn [s_body s_imu s_cam s_fid s_aug].
  rewrite !Forall_map. split; [|split; [|split; [|split]]].
  - apply unit_mul; [exact U1|apply RotVec_unit].
  - eapply Forall_impl; [|exact U2]. intros [k x] H. cbn [on_snd snd fst] in *. unfold correct_imu.
    destruct (i_ext x); cbn [i_int imu_with_pose]; destruct (i_int x); cbn [i_ang imu_with_pose imu_with_bias];
      auto using unit_mul, RotVec_unit.
  - eapply Forall_impl; [|exact U3]. intros [k x] H. cbn [on_snd snd fst] in *. unfold correct_cam.
    destruct (c_ext x); cbn [c_ang cam_with_pose]; auto using unit_mul, RotVec_unit.
  - eapply Forall_impl; [|exact U4]. intros [k x] H. cbn [on_snd snd fst] in *. unfold correct_fid.
    destruct (f_ext x); cbn [f_ang fid_with_pose]; auto using unit_mul, RotVec_unit.
  - eapply Forall_impl; [|exact U5]. intros [k x] H. cbn [on_snd snd fst] in *. rewrite Forall_map.
    eapply Forall_impl; [|exact H]. intros a Ha. cbn. auto using unit_mul, RotVec_unit.
Qed.

Lemma set_aug_unit : forall s k l, all_unit s -> Forall (fun a => qnorm2 (a_ang a) = 1%R) l ->
  all_unit (state_with_aug s (mset k l (s_aug s))).
Proof.
  intros s k l [U1 [U2 [U3 [U4 U5]]]] H. repeat split; auto. cbn [state_with_aug s_aug].
  apply (Forall_mset _ (Forall (fun a => qnorm2 (a_ang a) = 1%R))); auto.
Qed.
Lemma aug_at_unit : forall e k, all_unit (e_state e) -> Forall (fun a => qnorm2 (a_ang a) = 1%R) (aug_at e k).
Proof.
  intros e k [_ [_ [_ [_ H]]]]. unfold aug_at. apply (Forall_mget _ (Forall (fun a => qnorm2 (a_ang a) = 1%R))); auto.
Qed.
Lemma Forall_erase : forall A (P : A -> Prop) i l, Forall P l -> Forall P (erase i l).
Proof.
  intros A P i l H. rewrite Forall_forall in *. intros x Hx. apply H. unfold erase in Hx.
  apply in_app_or in Hx. rewrite <- (firstn_skipn (S i) l). apply in_or_app. destruct Hx as [Hx|Hx]; [|auto].
  left. rewrite <- (firstn_skipn i l) in Hx at 1.
  replace i with (min i (S i)) in Hx at 1 by lia.
  rewrite <- (firstn_skipn i (firstn (S i) l)). apply in_or_app. left. rewrite firstn_firstn.
  replace (min i (S i)) with i by lia. rewrite firstn_skipn in Hx.
  replace (min i (S i)) with i in Hx by lia. exact Hx.
Qed.

Lemma rems_unit : forall e e', rems e e' -> all_unit (e_state e) -> all_unit (e_state e').
Proof.
  intros e e' H. induction H as [e|e i e1 e2 R1 _ IH]; intros U; [exact U|]. apply IH.
  destruct R1 as [_ [_ [S _]]]. rewrite S. apply all_unit_ix. apply set_aug_unit; [exact U|].
  apply Forall_erase. apply aug_at_unit. exact U.
Qed.

Lemma touch_unit : forall e k, all_unit (e_state e) -> all_unit (e_state (touch_aug e k)).
Proof.
  intros e k [U1 [U2 [U3 [U4 U5]]]]. repeat split; auto. cbn.
  apply (Forall_mtouch _ (Forall (fun a => qnorm2 (a_ang a) = 1%R))); auto.
Qed.

Lemma augment_unit : forall e e', wf e -> AugmentStateIfNeeded e = OK e' -> all_unit (e_state e) -> all_unit (e_state e').
Proof.
  intros e e' W E U. destruct (AugmentStateIfNeeded_ok e W) as [e2 [E2 [_ [H1 H2]]]].
  rewrite E in E2. injection E2 as <-.
  assert (HT : timed e \/ ~ timed e).
  { unfold timed. destruct (p_aug (e_par e)); auto; right; intros [|]; discriminate. }
  destruct HT as [HT|HT].
  - destruct (H2 HT) as [needed [em [_ [_ [_ [R [_ HC]]]]]]].
    pose proof (rems_unit _ _ R (touch_unit e 0 U)) as Um.
    destruct (needed && e_frame_recv e); [|subst e'; exact Um].
    destruct HC as [_ [S _]]. rewrite S. apply all_unit_ix. apply set_aug_unit; [exact Um|].
    apply Forall_app. split; [apply aug_at_unit; exact Um|]. constructor; [|constructor]. apply Um.
  - rewrite (H1 HT). exact U.
Qed.

Lemma next_window_unit : forall n v c, Forall (fun a => qnorm2 (a_ang a) = 1%R) v -> qnorm2 (a_ang c) = 1%R ->
  Forall (fun a => qnorm2 (a_ang a) = 1%R) (next_window n v c).
Proof.
  intros n v c Hv Hc. unfold next_window. destruct (length v <? n); apply Forall_app; (split; [|constructor; auto]); auto.
  destruct v; [constructor|inversion Hv; auto].
Qed.

Lemma step_unit : forall e o e', inv e -> contract e o -> step e o = OK e' -> unit_arg o ->
  all_unit (e_state e) -> all_unit (e_state e').
Proof.
  intros e o e' I C E N U. pose proof (step_frame' e o e' I C E) as F.
  assert (HR : is_reg o -> all_unit (reg_effect (e_state e) o) -> all_unit (e_state e')).
  { intros Hr Hu. destruct (reg_state e o e' I C E Hr) as [->|S]; [exact U|]. rewrite S. apply all_unit_ix. exact Hu. }
  pose proof U as [U1 [U2 [U3 [U4 U5]]]].
  destruct o; cbn [is_reg reg_effect unit_arg step] in *.
  - apply HR; [exact Logic.I|]. repeat split; auto. cbn. apply (Forall_mset _ (fun x => qnorm2 (i_ang x) = 1%R)); auto.
  - apply HR; [exact Logic.I|]. repeat split; auto.
  - apply HR; [exact Logic.I|]. repeat split; auto. cbn. apply (Forall_mset _ (fun x => qnorm2 (c_ang x) = 1%R)); auto.
  - apply HR; [exact Logic.I|]. repeat split; auto. cbn. apply (Forall_mset _ (fun x => qnorm2 (f_ang x) = 1%R)); auto.
  - destruct (predict_full e t e' I E) as [[_ ->]|[_ [e1 [H1 [I1 H2]]]]]; [exact U|].
    apply (augment_unit e1 e' (proj1 I1) H2). unfold model_step in H1.
    destruct (e_gravity e); [destruct H1 as [c [_ ->]]|subst e1; exact U].
    repeat split; auto. cbn. apply unit_mul; [apply RotVec_unit|exact U1].
  - destruct (AugmentStateFrame_ok e cam frame (proj1 I)) as [e2 [E2 [_ [_ [_ [H1 H2]]]]]].
    rewrite E in E2. injection E2 as <-. destruct (per_frame e cam).
    + destruct (H2 eq_refl) as [S _]. rewrite S. apply all_unit_ix. apply set_aug_unit; [exact U|].
      apply next_window_unit; [apply aug_at_unit; exact U|exact U1].
    + rewrite (H1 eq_refl). exact U.
  - apply (augment_unit e e' (proj1 I) E U).
  - destruct (Refresh_wf e (wf_pre _ (proj1 I)) (wf_nr _ (proj1 I)) (wf_nc _ (proj1 I))) as [e2 [E2 [_ [S _]]]].
    rewrite E in E2. injection E2 as <-. rewrite S. apply all_unit_ix. exact U.
  - destruct (kalman_full e jac residual noise I C) as [e2 [K [E2 [_ [_ [_ [_ [_ [_ [[d [_ [_ [_ S]]]] _]]]]]]]]]].
    rewrite E in E2. injection E2 as <-. rewrite S. apply correct_unit. exact U.
  - injection E as <-. repeat split; auto. cbn. apply (Forall_mtouch _ (fun x => qnorm2 (i_ang x) = 1%R)); auto. apply qnorm2_id.
  - injection E as <-. repeat split; auto.
  - injection E as <-. repeat split; auto. cbn. apply (Forall_mtouch _ (fun x => qnorm2 (c_ang x) = 1%R)); auto. apply qnorm2_id.
  - destruct (query_ok e cam frame t C) as [s [e2 [E2 [k ->]]]]. rewrite E2 in E. injection E as <-. apply touch_unit. exact U.
  - subst e'. repeat split; auto.
  - subst e'. exact U.
  - subst e'. exact U.
  - subst e'. exact U.
  - subst e'. exact U.
  - subst e'. repeat split; auto.
  - subst e'. exact U.
  - subst e'. unfold CalculateLocalTime. destruct (e_time_init e); exact U.
  - subst e'. unfold AttemptGpsInitialization.
    destruct (Nat.leb 4 _); [destruct (align _ _) as [[? ?]|]|]; exact U.
Qed.
