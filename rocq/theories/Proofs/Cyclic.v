(** The cyclic truth is a consistent motion, except for the angular
    acceleration and the attitude at the end of the stationary phase. *)
From Coq Require Import Reals List Arith Bool Lia Lra.
From Verif Require Import Base.Res Base.Mat Base.RDec Base.Geom Model.TypeHelper Model.MathHelper
  Model.TruthEngine Spec.Rotation Spec.Deriv Spec.Truth Proofs.Deriv.
Open Scope R_scope.

Lemma dl_glue : forall g h s d, g s = h s -> dl g s d -> dl h s d ->
  dl (fun t => if Rltb (t - s) 0 then g t else h t) s d.
Proof.
  intros g h s d E G H eps He. destruct (G eps He) as [d1 H1]. destruct (H eps He) as [d2 H2].
  assert (Hm : 0 < Rmin d1 d2) by (apply Rmin_glb_lt; apply cond_pos).
  exists (mkposreal _ Hm). intros k Hk Hlt. cbn [pos] in Hlt.
  replace (s - s) with 0 by ring. rewrite (Rltb_ff 0 0) by lra.
  destruct (Rltb (s + k - s) 0).
  - rewrite <- E. apply H1; [exact Hk|]. eapply Rlt_le_trans; [exact Hlt|apply Rmin_l].
  - apply H2; [exact Hk|]. eapply Rlt_le_trans; [exact Hlt|apply Rmin_r].
Qed.
Lemma dl_early : forall g h s t d, t < s -> dl g t d -> dl (fun t => if Rltb (t - s) 0 then g t else h t) t d.
Proof.
  intros g h s t d Ht D. apply (dl_loc g); [|exact D]. exists (s - t). split; [lra|].
  intros u Hu. rewrite Rltb_true; [reflexivity|]. apply Rabs_def2 in Hu. lra.
Qed.
Lemma dl_late : forall g h s t d, s < t -> dl h t d -> dl (fun t => if Rltb (t - s) 0 then g t else h t) t d.
Proof.
  intros g h s t d Ht D. apply (dl_loc h); [|exact D]. exists (t - s). split; [lra|].
  intros u Hu. rewrite Rltb_ff; [reflexivity|]. apply Rabs_def2 in Hu. lra.
Qed.

Lemma dl_arg : forall f s t, dl (fun u => f * 2 * PI * (u - s)) t (f * 2 * PI).
Proof.
  intros f s t. apply (dl_eq _ _ (0 * (t - s) + f * 2 * PI * (1 - 0))); [ring|].
  apply (dl_mult (fun _ => f * 2 * PI) (fun u => u - s)); [apply dl_const|].
  apply (dl_minus (fun u => u) (fun _ => s)); [apply dl_id|apply dl_const].
Qed.
Lemma dl_cyc : forall a f s t, dl (fun u => cyc a f (u - s)) t (dcyc a f (t - s)).
Proof.
  intros a f s t. unfold cyc, dcyc.
  apply (dl_eq _ _ (0 * (1 - cos (f * 2 * PI * (t - s))) + a / 2 * (0 - (- sin (f * 2 * PI * (t - s)) * (f * 2 * PI))))).
  { field. }
  apply (dl_mult (fun _ => a / 2) (fun u => 1 - cos (f * 2 * PI * (u - s)))); [apply dl_const|].
  apply (dl_minus (fun _ => 1) (fun u => cos (f * 2 * PI * (u - s)))); [apply dl_const|].
  apply (dl_cos (fun u => f * 2 * PI * (u - s))). apply dl_arg.
Qed.
Lemma dl_dcyc : forall a f s t, dl (fun u => dcyc a f (u - s)) t (ddcyc a f (t - s)).
Proof.
  intros a f s t. unfold ddcyc, dcyc.
  apply (dl_eq _ _ (0 * sin (f * 2 * PI * (t - s)) + a * f * PI * (cos (f * 2 * PI * (t - s)) * (f * 2 * PI)))).
  { ring. }
  apply (dl_mult (fun _ => a * f * PI) (fun u => sin (f * 2 * PI * (u - s)))); [apply dl_const|].
  apply (dl_sin (fun u => f * 2 * PI * (u - s))). apply dl_arg.
Qed.
Lemma dcyc_0 : forall a f, dcyc a f 0 = 0.
Proof. intros. unfold dcyc. rewrite Rmult_0_r, sin_0. ring. Qed.
Lemma cyc_0 : forall a f, cyc a f 0 = 0.
Proof. intros. unfold cyc. rewrite Rmult_0_r, cos_0. ring. Qed.
Lemma ddcyc_0 : forall a f, ddcyc a f 0 = a * 2 * PI * PI * f * f.
Proof. intros. unfold ddcyc. rewrite Rmult_0_r, cos_0. ring. Qed.

(** A constant followed by a cycle from the same constant. *)
Lemma dl_from_rest : forall a f o s t,
  dl (fun u => if Rltb (u - s) 0 then o else cyc a f (u - s) + o) t (if Rltb (t - s) 0 then 0 else dcyc a f (t - s)).
Proof.
  intros a f o s t.
  assert (C : forall x, dl (fun u => cyc a f (u - s) + o) x (dcyc a f (x - s))).
  { intros x. apply (dl_eq _ _ (dcyc a f (x - s) + 0)); [ring|].
    apply (dl_plus (fun u => cyc a f (u - s)) (fun _ => o)); [apply dl_cyc|apply dl_const]. }
  destruct (Rtotal_order t s) as [L|[->|L]].
  - rewrite Rltb_true by lra. apply (dl_early (fun _ => o)); [exact L|apply dl_const].
  - replace (s - s) with 0 by ring. rewrite Rltb_ff by lra. rewrite dcyc_0.
    apply (dl_glue (fun _ => o) (fun u => cyc a f (u - s) + o)).
    + replace (s - s) with 0 by ring. rewrite cyc_0. ring.
    + apply dl_const.
    + apply (dl_eq _ _ (dcyc a f (s - s))); [replace (s - s) with 0 by ring; apply dcyc_0|apply C].
  - rewrite Rltb_ff by lra. apply (dl_late (fun _ => o)); [exact L|apply C].
Qed.

Lemma velocity_rate : forall c t, rate_of (cy_GetBodyPosition c) t (cy_GetBodyVelocity c t).
Proof.
  intros c t. set (s := cy_stationary_time c). set (a := cy_pos_amplitude c).
  set (f := cy_pos_frequency c). set (o := cy_pos_offset c).
  assert (P : forall (g : V3 -> R) , (g = vx \/ g = vy \/ g = vz) -> forall u, g (cy_GetBodyPosition c u) =
    if Rltb (u - s) 0 then g o else cyc a (g f) (u - s) + g o).
  { intros g Hg u. unfold cy_GetBodyPosition. cbv zeta. fold s.
    destruct (Rltb (u - s) 0); [reflexivity|]. destruct Hg as [->|[->| ->]]; reflexivity. }
  assert (V : forall (g : V3 -> R) , (g = vx \/ g = vy \/ g = vz) -> g (cy_GetBodyVelocity c t) =
    if Rltb (t - s) 0 then 0 else dcyc a (g f) (t - s)).
  { intros g Hg. unfold cy_GetBodyVelocity. cbv zeta. fold s.
    destruct (Rltb (t - s) 0); destruct Hg as [->|[->| ->]]; reflexivity. }
  unfold rate_of. repeat split.
  - rewrite V by auto. eapply dl_ext; [|apply (dl_from_rest a (vx f) (vx o) s t)]. intros u. symmetry. apply P. auto.
  - rewrite V by auto. eapply dl_ext; [|apply (dl_from_rest a (vy f) (vy o) s t)]. intros u. symmetry. apply P. auto.
  - rewrite V by auto. eapply dl_ext; [|apply (dl_from_rest a (vz f) (vz o) s t)]. intros u. symmetry. apply P. auto.
Qed.

Lemma dl_from_still : forall a f s t, t <> s ->
  dl (fun u => if Rltb (u - s) 0 then 0 else dcyc a f (u - s)) t (if Rltb (t - s) 0 then 0 else ddcyc a f (t - s)).
Proof.
  intros a f s t N. destruct (Rtotal_order t s) as [L|[->|L]]; [|contradiction|].
  - rewrite Rltb_true by lra. apply (dl_early (fun _ => 0)); [exact L|apply dl_const].
  - rewrite Rltb_ff by lra. apply (dl_late (fun _ => 0)); [exact L|apply dl_dcyc].
Qed.
Lemma acceleration_rate : forall c t, t <> cy_stationary_time c ->
  rate_of (cy_GetBodyVelocity c) t (cy_GetBodyAcceleration c t).
Proof.
  intros c t N. set (s := cy_stationary_time c) in *. set (a := cy_pos_amplitude c).
  set (f := cy_pos_frequency c).
  assert (P : forall (g : V3 -> R) , (g = vx \/ g = vy \/ g = vz) -> forall u, g (cy_GetBodyVelocity c u) =
    if Rltb (u - s) 0 then 0 else dcyc a (g f) (u - s)).
  { intros g Hg u. unfold cy_GetBodyVelocity. cbv zeta. fold s.
    destruct (Rltb (u - s) 0); destruct Hg as [->|[->| ->]]; reflexivity. }
  assert (V : forall (g : V3 -> R) , (g = vx \/ g = vy \/ g = vz) -> g (cy_GetBodyAcceleration c t) =
    if Rltb (t - s) 0 then 0 else ddcyc a (g f) (t - s)).
  { intros g Hg. unfold cy_GetBodyAcceleration. cbv zeta. fold s.
    destruct (Rltb (t - s) 0); destruct Hg as [->|[->| ->]]; reflexivity. }
  unfold rate_of. repeat split.
  - rewrite V by auto. eapply dl_ext; [|apply (dl_from_still a (vx f) s t N)]. intros u. symmetry. apply P. auto.
  - rewrite V by auto. eapply dl_ext; [|apply (dl_from_still a (vy f) s t N)]. intros u. symmetry. apply P. auto.
  - rewrite V by auto. eapply dl_ext; [|apply (dl_from_still a (vz f) s t N)]. intros u. symmetry. apply P. auto.
Qed.

(** Derivatives from one side. *)
Lemma dl_side : forall f g x d d' k, k <> 0 -> dl f x d -> dl g x d' -> f x = g x ->
  (forall r, 0 < r -> f (x + r * k) = g (x + r * k)) -> d = d'.
Proof.
  intros f g x d d' k Hk F G E L. apply Rminus_diag_uniq.
  destruct (Req_dec (d - d') 0) as [Z|N]; [exact Z|exfalso].
  pose proof (Rabs_pos_lt _ N) as Hp.
  assert (He : 0 < Rabs (d - d') / 2) by lra.
  destruct (F _ He) as [d1 H1]. destruct (G _ He) as [d2 H2].
  set (m := Rmin d1 d2). assert (Hm : 0 < m) by (apply Rmin_glb_lt; apply cond_pos).
  pose proof (Rabs_pos_lt _ Hk) as Hkp. set (r := m / 2 / Rabs k).
  assert (Hr : 0 < r) by (unfold r; apply Rdiv_lt_0_compat; lra).
  assert (K : Rabs (r * k) = m / 2).
  { rewrite Rabs_mult, (Rabs_pos_eq r) by lra. unfold r. field. lra. }
  assert (Hn : r * k <> 0) by (apply Rmult_integral_contrapositive_currified; lra).
  specialize (H1 (r * k)). specialize (H2 (r * k)). rewrite K in H1, H2.
  pose proof (Rmin_l d1 d2) as M1. pose proof (Rmin_r d1 d2) as M2. fold m in M1, M2.
  specialize (H1 Hn ltac:(lra)). specialize (H2 Hn ltac:(lra)).
  rewrite (L r Hr), E in H1.
  set (q := (g (x + r * k) - g x) / (r * k)) in *.
  assert (T : Rabs (d - d') <= Rabs (q - d) + Rabs (q - d')).
  { replace (d - d') with ((q - d') + - (q - d)) by ring.
    eapply Rle_trans; [apply Rabs_triang|]. rewrite Rabs_Ropp. lra. }
  lra.
Qed.

(** At the start the velocity has a kink. *)
Lemma start_kink : forall c, cy_pos_amplitude c <> 0 -> cy_pos_frequency c <> v0 ->
  forall d, ~ rate_of (cy_GetBodyVelocity c) (cy_stationary_time c) d.
Proof.
  intros c Ha Hf d (X & Y & Z). set (s := cy_stationary_time c) in *. set (a := cy_pos_amplitude c) in *.
  set (f := cy_pos_frequency c) in *.
  assert (P : forall (g : V3 -> R) , (g = vx \/ g = vy \/ g = vz) -> forall u, g (cy_GetBodyVelocity c u) =
    if Rltb (u - s) 0 then 0 else dcyc a (g f) (u - s)).
  { intros g Hg u. unfold cy_GetBodyVelocity. cbv zeta. fold s.
    destruct (Rltb (u - s) 0); destruct Hg as [->|[->| ->]]; reflexivity. }
  assert (K : forall k e, dl (fun u => if Rltb (u - s) 0 then 0 else dcyc a k (u - s)) s e -> k = 0).
  { intros k e D.
    assert (e = 0).
    { apply (dl_side _ (fun _ => 0) s e 0 (-1) ltac:(lra) D (dl_const 0 s)).
      - cbv beta. replace (s - s) with 0 by ring. rewrite Rltb_ff by lra. apply dcyc_0.
      - intros r Hr. cbv beta. rewrite Rltb_true by lra. reflexivity. }
    subst e.
    assert (E : 0 = ddcyc a k (s - s)).
    { apply (dl_side _ _ s 0 _ 1 ltac:(lra) D (dl_dcyc a k s s)).
      - replace (s - s) with 0 by ring. rewrite Rltb_ff by lra. reflexivity.
      - intros r Hr. rewrite Rltb_ff by lra. reflexivity. }
    replace (s - s) with 0 in E by ring. rewrite ddcyc_0 in E. pose proof PI_RGT_0 as HP.
    destruct (Req_dec k 0) as [H0|N]; [exact H0|exfalso]. symmetry in E.
    
    revert HP E. clearbody a. generalize PI. intros p HP E.
    assert (Q : a * 2 * p * p * k * k <> 0); [|contradiction].
    repeat apply Rmult_integral_contrapositive_currified; try exact N; try exact Ha; lra. }
  apply Hf. assert (EX : vx f = 0).
  { eapply K. eapply dl_ext; [|exact X]. intros u. apply P. auto. }
  assert (EY : vy f = 0).
  { eapply K. eapply dl_ext; [|exact Y]. intros u. apply P. auto. }
  assert (EZ : vz f = 0).
  { eapply K. eapply dl_ext; [|exact Z]. intros u. apply P. auto. }
  destruct f as [f1 f2 f3]. cbn in EX, EY, EZ. subst. reflexivity.
Qed.

Lemma dl_cont : forall f t d, dl f t d -> continuity_pt f t.
Proof. intros f t d D. apply derivable_continuous_pt. exists d. exact D. Qed.
Lemma position_unbroken : forall c t, unbroken (cy_GetBodyPosition c) t.
Proof. intros c t. destruct (velocity_rate c t) as (X & Y & Z). repeat split; eapply dl_cont; eassumption. Qed.
Lemma at_rest : forall c t, t < cy_stationary_time c ->
  cy_GetBodyPosition c t = cy_pos_offset c /\ cy_GetBodyVelocity c t = v0 /\ cy_GetBodyAcceleration c t = v0 /\
  cy_GetBodyAngularPosition c t = qid /\ cy_GetBodyAngularRate c t = v0 /\ cy_GetBodyAngularAcceleration c t = v0.
Proof.
  intros c t H.
  unfold cy_GetBodyPosition, cy_GetBodyVelocity, cy_GetBodyAcceleration, cy_GetBodyAngularPosition,
    cy_GetBodyAngularRate, cy_GetBodyAngularAcceleration, cy_GetBodyRollPitchYaw. cbv zeta.
  rewrite Rltb_true by lra. repeat split.
  unfold EigVecToQuat, angle_axis_quat, qmul, v0, qid. cbn.
  rewrite Rmult_0_r, cos_0, sin_0. f_equal; ring.
Qed.

(** * Attitude *)
Definition half (a : R) : R := / 2 * a.
Lemma euler_quat : forall e, EigVecToQuat e =
  let cr := cos (half (vx e)) in let sr := sin (half (vx e)) in
  let cp := cos (half (vy e)) in let sp := sin (half (vy e)) in
  let cy := cos (half (vz e)) in let sy := sin (half (vz e)) in
  mkQ (cr * cp * cy + sr * sp * sy) (sr * cp * cy - cr * sp * sy)
      (cr * sp * cy + sr * cp * sy) (cr * cp * sy - sr * sp * cy).
Proof. intros e. unfold EigVecToQuat, qmul, angle_axis_quat, half. cbn. f_equal; ring. Qed.

Lemma dl_half : forall f t d, dl f t d -> dl (fun u => half (f u)) t (half d).
Proof.
  intros f t d D. apply (dl_eq _ _ (0 * f t + / 2 * d)); [unfold half; ring|].
  apply (dl_mult (fun _ => / 2) f); [apply dl_const|exact D].
Qed.
Ltac dlc := repeat first
  [ eassumption | apply dl_half | apply dl_minus | apply dl_plus | apply dl_mult | apply dl_cos | apply dl_sin ].

Lemma mv_euler : forall e d, mat_vec (EulerDerivativeTransform e) d =
  mkV3 (vx d - sin (vy e) * vz d)
       (cos (vx e) * vy d + sin (vx e) * cos (vy e) * vz d)
       (- sin (vx e) * vy d + cos (vx e) * cos (vy e) * vz d).
Proof. intros. unfold mat_vec, EulerDerivativeTransform. cbn. f_equal; ring. Qed.

Lemma dbl_sin : forall a, sin a = 2 * sin (half a) * cos (half a).
Proof. intros. rewrite <- sin_2a. f_equal. unfold half. field. Qed.
Lemma dbl_cos : forall a, cos a = cos (half a) * cos (half a) - sin (half a) * sin (half a).
Proof. intros. rewrite <- cos_2a. f_equal. unfold half. field. Qed.
Lemma half_1 : forall a, sin (half a) * sin (half a) + cos (half a) * cos (half a) = 1.
Proof. intros. pose proof (sin2_cos2 (half a)). unfold Rsqr in H. exact H. Qed.

Ltac euler_poly dx dy dz sr cr sp cp Hr Hp :=
  match goal with |- ?l = ?r =>
    let F := eval pattern dx, dy, dz in l in
    let G := eval pattern dx in r in
    match F with ?f dx dy dz => match G with ?g dx =>
      let E := fresh "E" in
      assert (E : f dx (dy * (sr * sr + cr * cr)) (dz * ((sr * sr + cr * cr) * (sp * sp + cp * cp))) =
                  g (dx + 2 * sp * cp * dz * (1 - (sr * sr + cr * cr)))) by (cbv beta; field);
      rewrite Hr, Hp, !Rmult_1_r in E;
      replace (dx + 2 * sp * cp * dz * (1 - 1)) with dx in E by ring;
      exact E
    end end
  end.
(** Euler angles that change with rates [d] turn the body with rate T d. *)
Lemma euler_turns : forall (e : R -> V3) t d, rate_of e t d ->
  turns (fun u => EigVecToQuat (e u)) t (mat_vec (EulerDerivativeTransform (e t)) d).
Proof.
  intros e t d (X & Y & Z). unfold turns, qrate_of. rewrite mv_euler. cbn [vx vy vz].
  rewrite (dbl_sin (vx (e t))), (dbl_cos (vx (e t))), (dbl_sin (vy (e t))), (dbl_cos (vy (e t))).
  rewrite euler_quat. cbv zeta. unfold qmul. cbn [qw qx qy qz].
  pose proof (half_1 (vx (e t))) as Hr. pose proof (half_1 (vy (e t))) as Hp.
  repeat split; (eapply dl_ext; [intros u; rewrite euler_quat; reflexivity|]; cbn [qw qx qy qz];
    eapply dl_eq; [|dlc]; cbv beta;
    revert Hr Hp; generalize (sin (half (vx (e t)))) (cos (half (vx (e t))))
      (sin (half (vy (e t)))) (cos (half (vy (e t)))) (sin (half (vz (e t)))) (cos (half (vz (e t))));
    generalize (vx d) (vy d) (vz d); clear; unfold half, Rdiv; intros dx dy dz sr cr sp cp sy cy Hr Hp; euler_poly dx dy dz sr cr sp cp Hr Hp).
Qed.

Lemma rpy_late : forall c t, cy_stationary_time c <= t -> cy_GetBodyRollPitchYaw c t =
  vadd (each (fun f => cyc (cy_ang_amplitude c) f (t - cy_stationary_time c)) (cy_ang_frequency c)) (cy_ang_offset c).
Proof. intros c t H. unfold cy_GetBodyRollPitchYaw. cbv zeta. rewrite Rltb_ff by lra. reflexivity. Qed.
(** Derivatives of the Euler angles. *)
Definition rpy_rate (c : cyclic) (t : R) : V3 :=
  each (fun f => dcyc (cy_ang_amplitude c) f (t - cy_stationary_time c)) (cy_ang_frequency c).
Lemma rpy_moves : forall c t, cy_stationary_time c < t -> rate_of (cy_GetBodyRollPitchYaw c) t (rpy_rate c t).
Proof.
  intros c t H.
  assert (A : forall a f o s x, dl (fun u => cyc a f (u - s) + o) x (dcyc a f (x - s))).
  { intros a f o s x. apply (dl_eq _ _ (dcyc a f (x - s) + 0)); [ring|].
    apply (dl_plus (fun u => cyc a f (u - s)) (fun _ => o)); [apply dl_cyc|apply dl_const]. }
  repeat split; (eapply dl_loc; [|apply A]; exists (t - cy_stationary_time c); split; [lra|];
    intros u Hu; apply Rabs_def2 in Hu; rewrite rpy_late by lra; reflexivity).
Qed.
Lemma qrate_loc : forall f g t d, (exists h, 0 < h /\ forall u, Rabs (u - t) < h -> f u = g u) ->
  qrate_of f t d -> qrate_of g t d.
Proof.
  intros f g t d (h & Hh & E) (W & X & Y & Z).
  repeat split; (eapply dl_loc; [|eassumption]; exists h; split; [exact Hh|]; intros u Hu; cbv beta; now rewrite (E u Hu)).
Qed.
Lemma attitude_turns : forall c t, t <> cy_stationary_time c ->
  turns (cy_GetBodyAngularPosition c) t (cy_GetBodyAngularRate c t).
Proof.
  intros c t N. destruct (Rtotal_order t (cy_stationary_time c)) as [L|[E|L]]; [|contradiction|].
  - destruct (at_rest c t L) as (_ & _ & _ & Q & W & _). unfold turns. rewrite Q, W.
    apply (qrate_loc (fun _ => qid)).
    + exists (cy_stationary_time c - t). split; [lra|]. intros u Hu. apply Rabs_def2 in Hu. symmetry. apply at_rest. lra.
    + cbn. repeat split; cbn; (eapply dl_eq; [|apply dl_const]; unfold Rdiv; ring).
  - unfold cy_GetBodyAngularRate. cbv zeta. rewrite Rltb_ff by lra.
    apply (euler_turns (cy_GetBodyRollPitchYaw c)). apply rpy_moves. exact L.
Qed.

(** Without an angle offset the attitude turns with the stated rate at the
    start too. *)
Lemma rpy_from_rest : forall c t, cy_ang_offset c = v0 ->
  rate_of (cy_GetBodyRollPitchYaw c) t (if Rltb (t - cy_stationary_time c) 0 then v0 else rpy_rate c t).
Proof.
  intros c t O. set (s := cy_stationary_time c).
  assert (P : forall (g : V3 -> R) , (g = vx \/ g = vy \/ g = vz) -> forall u, g (cy_GetBodyRollPitchYaw c u) =
    if Rltb (u - s) 0 then 0 else cyc (cy_ang_amplitude c) (g (cy_ang_frequency c)) (u - s) + 0).
  { intros g Hg u. unfold cy_GetBodyRollPitchYaw. cbv zeta. fold s. rewrite O.
    destruct (Rltb (u - s) 0); destruct Hg as [->|[->| ->]]; reflexivity. }
  repeat split.
  - eapply dl_eq; [|eapply dl_ext; [intros u; symmetry; apply (P vx); auto|apply dl_from_rest]].
    unfold rpy_rate. fold s. destruct (Rltb (t - s) 0); reflexivity.
  - eapply dl_eq; [|eapply dl_ext; [intros u; symmetry; apply (P vy); auto|apply dl_from_rest]].
    unfold rpy_rate. fold s. destruct (Rltb (t - s) 0); reflexivity.
  - eapply dl_eq; [|eapply dl_ext; [intros u; symmetry; apply (P vz); auto|apply dl_from_rest]].
    unfold rpy_rate. fold s. destruct (Rltb (t - s) 0); reflexivity.
Qed.
Lemma attitude_turns_always : forall c t, cy_ang_offset c = v0 ->
  turns (cy_GetBodyAngularPosition c) t (cy_GetBodyAngularRate c t).
Proof.
  intros c t O. pose proof (euler_turns _ _ _ (rpy_from_rest c t O)) as T.
  unfold cy_GetBodyAngularRate. cbv zeta.
  destruct (Rltb (t - cy_stationary_time c) 0) eqn:E; [|exact T].
  unfold turns in *. unfold cy_GetBodyAngularPosition.
  assert (Z : mat_vec (EulerDerivativeTransform (cy_GetBodyRollPitchYaw c t)) v0 = v0).
  { unfold mat_vec, v0. cbn [vx vy vz]. f_equal; ring. }
  rewrite Z in T. exact T.
Qed.

(** * Angular acceleration *)
Lemma angular_rate_rate : forall c t, cy_stationary_time c < t ->
  rate_of (cy_GetBodyAngularRate c) t
    (vadd (cy_GetBodyAngularAcceleration c t) (gyroscopic (cy_GetBodyRollPitchYaw c t) (rpy_rate c t))).
Proof.
  intros c t L. destruct (rpy_moves c t L) as (RX & RY & RZ).
  assert (D : forall a f s x, dl (fun u => dcyc a f (u - s)) x (ddcyc a f (x - s))) by (intros; apply dl_dcyc).
  assert (P : forall u, cy_stationary_time c <= u -> cy_GetBodyAngularRate c u =
    mat_vec (EulerDerivativeTransform (cy_GetBodyRollPitchYaw c u)) (rpy_rate c u)).
  { intros u Hu. unfold cy_GetBodyAngularRate. cbv zeta. rewrite Rltb_ff by lra. reflexivity. }
  assert (Q : cy_GetBodyAngularAcceleration c t = mat_vec (EulerDerivativeTransform (cy_GetBodyRollPitchYaw c t))
    (each (fun f => ddcyc (cy_ang_amplitude c) f (t - cy_stationary_time c)) (cy_ang_frequency c))).
  { unfold cy_GetBodyAngularAcceleration. cbv zeta. rewrite Rltb_ff by lra. reflexivity. }
  rewrite Q, mv_euler. unfold gyroscopic, vadd, rpy_rate, each. cbv zeta. cbn [vx vy vz].
  set (s := cy_stationary_time c) in *. set (a := cy_ang_amplitude c) in *.
  set (fx := vx (cy_ang_frequency c)) in *. set (fy := vy (cy_ang_frequency c)) in *.
  set (fz := vz (cy_ang_frequency c)) in *.
  pose proof (D a fx s t) as DX. pose proof (D a fy s t) as DY. pose proof (D a fz s t) as DZ.
  change (vx (rpy_rate c t)) with (dcyc a fx (t - s)) in RX.
  change (vy (rpy_rate c t)) with (dcyc a fy (t - s)) in RY.
  change (vz (rpy_rate c t)) with (dcyc a fz (t - s)) in RZ.
  set (e := cy_GetBodyRollPitchYaw c) in *.
  assert (W : forall (g : V3 -> R) (k : R), dl (fun u => g (mat_vec (EulerDerivativeTransform (e u)) (rpy_rate c u))) t k ->
    dl (fun u => g (cy_GetBodyAngularRate c u)) t k).
  { intros g k. apply dl_loc. exists (t - s). split; [lra|]. intros u Hu. apply Rabs_def2 in Hu.
    now rewrite P by lra. }
  repeat split; apply W; (eapply dl_ext; [intros u; rewrite mv_euler; reflexivity|]);
    cbn [vx vy vz rpy_rate each]; fold s a fx fy fz.
  - eapply dl_eq; [|apply (dl_minus (fun u => dcyc a fx (u - s)) (fun u => sin (vy (e u)) * dcyc a fz (u - s))); [exact DX|];
      apply (dl_mult (fun u => sin (vy (e u))) (fun u => dcyc a fz (u - s))); [|exact DZ];
      apply (dl_sin (fun u => vy (e u))); exact RY]. ring.
  - eapply dl_eq; [|apply (dl_plus (fun u => cos (vx (e u)) * dcyc a fy (u - s))
        (fun u => sin (vx (e u)) * cos (vy (e u)) * dcyc a fz (u - s)));
      [apply (dl_mult (fun u => cos (vx (e u))) (fun u => dcyc a fy (u - s))); [|exact DY];
       apply (dl_cos (fun u => vx (e u))); exact RX|];
      apply (dl_mult (fun u => sin (vx (e u)) * cos (vy (e u))) (fun u => dcyc a fz (u - s))); [|exact DZ];
      apply (dl_mult (fun u => sin (vx (e u))) (fun u => cos (vy (e u))));
      [apply (dl_sin (fun u => vx (e u))); exact RX|apply (dl_cos (fun u => vy (e u))); exact RY]].
    ring.
  - eapply dl_eq; [|apply (dl_plus (fun u => - sin (vx (e u)) * dcyc a fy (u - s))
        (fun u => cos (vx (e u)) * cos (vy (e u)) * dcyc a fz (u - s)));
      [apply (dl_mult (fun u => - sin (vx (e u))) (fun u => dcyc a fy (u - s))); [|exact DY];
       apply (dl_opp (fun u => sin (vx (e u)))); apply (dl_sin (fun u => vx (e u))); exact RX|];
      apply (dl_mult (fun u => cos (vx (e u)) * cos (vy (e u))) (fun u => dcyc a fz (u - s))); [|exact DZ];
      apply (dl_mult (fun u => cos (vx (e u))) (fun u => cos (vy (e u))));
      [apply (dl_cos (fun u => vx (e u))); exact RX|apply (dl_cos (fun u => vy (e u))); exact RY]].
    ring.
Qed.
Lemma dl_unique : forall f t a b, dl f t a -> dl f t b -> a = b.
Proof. intros f t a b A B. exact (uniqueness_limite f t a b A B). Qed.

Definition turning : cyclic := mkCyclic (mkV3 1 1 1) (mkV3 1 1 1) v0 v0 1 1 0.
Lemma sin_quarter : sin (1 * 2 * PI * (1 / 4 - 0)) = 1.
Proof. replace (1 * 2 * PI * (1 / 4 - 0)) with (PI / 2) by field. apply sin_PI2. Qed.
Lemma cos_quarter : cos (1 * 2 * PI * (1 / 4 - 0)) = 0.
Proof. replace (1 * 2 * PI * (1 / 4 - 0)) with (PI / 2) by field. apply cos_PI2. Qed.
Lemma angular_acceleration_refuted : exists c t, cy_stationary_time c < t /\
  ~ rate_of (cy_GetBodyAngularRate c) t (cy_GetBodyAngularAcceleration c t).
Proof.
  exists turning, (1 / 4). split; [cbn; lra|]. intros (X & _ & _).
  assert (L : cy_stationary_time turning < 1 / 4) by (cbn; lra).
  destruct (angular_rate_rate turning (1 / 4) L) as (X' & _ & _).
  pose proof (dl_unique _ _ _ _ X X') as E. clear X X'. unfold vadd in E. cbn [vx] in E.
  rewrite rpy_late in E by lra. unfold gyroscopic, rpy_rate in E. cbn in E.
  unfold cyc, dcyc in E. rewrite sin_quarter, cos_quarter in E.
  pose proof PI_RGT_0 as HP.
  assert (C : 0 < cos (1 / 2 * (1 - 0) + 0)).
  { apply cos_gt_0; pose proof PI2_1; lra. }
  assert (0 < cos (1 / 2 * (1 - 0) + 0) * (PI * PI)).
  { apply Rmult_lt_0_compat; [exact C|]. apply Rmult_lt_0_compat; lra. }
  lra.
Qed.

(** * The jump *)
Lemma attitude_at_start : forall c, cy_GetBodyAngularPosition c (cy_stationary_time c) = EigVecToQuat (cy_ang_offset c).
Proof.
  intros c. unfold cy_GetBodyAngularPosition. rewrite rpy_late by lra. f_equal.
  unfold vadd, each. cbn [vx vy vz]. replace (cy_stationary_time c - cy_stationary_time c) with 0 by ring.
  rewrite !cyc_0. destruct (cy_ang_offset c). cbn. f_equal; ring.
Qed.
Lemma cont_left : forall f s l, continuity_pt f s -> (forall t, t < s -> f t = l) -> f s = l.
Proof.
  intros f s l C E. apply Rminus_diag_uniq. destruct (Req_dec (f s - l) 0) as [Z|N]; [exact Z|exfalso].
  pose proof (Rabs_pos_lt _ N) as He. destruct (C _ He) as (d & Hd & H).
  specialize (H (s - d / 2)). unfold dist in H. cbn in H. unfold R_dist in H.
  assert (K : Rabs (s - d / 2 - s) = d / 2).
  { replace (s - d / 2 - s) with (- (d / 2)) by ring. rewrite Rabs_Ropp. apply Rabs_pos_eq. lra. }
  rewrite K, (E (s - d / 2)) in H by lra.
  assert (T : D_x no_cond s (s - d / 2) /\ d / 2 < d) by (repeat split; lra).
  specialize (H T). rewrite Rabs_minus_sym in H. lra.
Qed.
Lemma attitude_jump : forall c, EigVecToQuat (cy_ang_offset c) <> qid ->
  ~ qunbroken (cy_GetBodyAngularPosition c) (cy_stationary_time c).
Proof.
  intros c N (W & X & Y & Z). apply N. rewrite <- attitude_at_start.
  assert (Q : forall t, t < cy_stationary_time c -> cy_GetBodyAngularPosition c t = qid) by (intros; now apply at_rest).
  apply (cont_left _ _ 1) in W; [|intros t Ht; cbv beta; now rewrite Q].
  apply (cont_left _ _ 0) in X; [|intros t Ht; cbv beta; now rewrite Q].
  apply (cont_left _ _ 0) in Y; [|intros t Ht; cbv beta; now rewrite Q].
  apply (cont_left _ _ 0) in Z; [|intros t Ht; cbv beta; now rewrite Q].
  cbv beta in W, X, Y, Z. clear Q N.
  destruct (cy_GetBodyAngularPosition c (cy_stationary_time c)) as [a b d e]. cbn [qw qx qy qz] in *. subst. reflexivity.
Qed.
(** The offset is forgotten before the start: a quarter turn. *)
Definition offset_truth : cyclic := mkCyclic (mkV3 1 1 1) (mkV3 1 1 1) v0 (mkV3 0 0 PI) 1 1 2.
Lemma offset_jumps : EigVecToQuat (cy_ang_offset offset_truth) <> qid.
Proof.
  rewrite euler_quat. cbn. unfold half, qid. replace (/ 2 * PI) with (PI / 2) by field.
  rewrite Rmult_0_r, cos_0, sin_0, cos_PI2, sin_PI2. intros E. injection E as E1 E2. lra.
Qed.
