(** The spline truth. *)
From Coq Require Import Reals List Arith Bool Lia Lra.
From Verif Require Import Base.Res Base.Mat Base.RDec Base.Geom Model.TypeHelper Model.MathHelper
  Model.TruthEngine Spec.Truth Spec.SplineTruth Proofs.Deriv Proofs.Cyclic.
Open Scope R_scope.

Lemma eval_at : forall A s sp (still : A) f t, spl_invalid sp = false -> spline_time s t ->
  st_max_time s <> st_stationary_time s ->
  st_eval s sp still f t = OK (f (spline_param s t) (st_max_time s - st_stationary_time s)).
Proof.
  intros A s sp still f t Hv [H1 H2] N. unfold st_eval, st_IsTimeInvalid. cbv zeta.
  rewrite !Rltb_ff by lra. rewrite Hv. cbn [orb].
  rewrite guard_ok; [reflexivity|]. apply Bool.negb_true_iff, Reqb_false. lra.
Qed.
Lemma eval_idle : forall A s sp (still : A) f t, ~ spline_time s t -> st_eval s sp still f t = OK still.
Proof.
  intros A s sp still f t N. unfold st_eval, st_IsTimeInvalid. cbv zeta.
  destruct (Rltb (t - st_stationary_time s) 0) eqn:E1; [reflexivity|].
  destruct (Rltb (st_max_time s) (t - st_stationary_time s)) eqn:E2; [reflexivity|].
  apply Rltb_false in E1, E2. exfalso. apply N. split; lra.
Qed.
Lemma param_near : forall s t, spline_inside s t ->
  exists h, 0 < h /\ forall u, Rabs (u - t) < h -> spline_time s u.
Proof.
  intros s t [H1 H2]. exists (Rmin (t - st_stationary_time s) (st_max_time s - (t - st_stationary_time s))).
  split; [apply Rmin_glb_lt; lra|]. intros u Hu.
  pose proof (Rmin_l (t - st_stationary_time s) (st_max_time s - (t - st_stationary_time s))).
  pose proof (Rmin_r (t - st_stationary_time s) (st_max_time s - (t - st_stationary_time s))).
  apply Rabs_def2 in Hu. split; lra.
Qed.
Lemma dl_param : forall s f t d, st_max_time s <> st_stationary_time s ->
  dl f (spline_param s t) d -> dl (fun u => f (spline_param s u)) t (d / (st_max_time s - st_stationary_time s)).
Proof.
  intros s f t d N D. set (k := st_max_time s - st_stationary_time s).
  assert (K : k <> 0) by (unfold k; lra).
  apply (dl_eq _ _ (d * / k)); [reflexivity|].
  apply (derivable_pt_lim_comp (spline_param s) f t (/ k) d); [|exact D].
  apply (dl_ext (fun u => / k * (u - st_stationary_time s))).
  { intros u. unfold spline_param. fold k. field. exact K. }
  apply (dl_eq _ _ (0 * (t - st_stationary_time s) + / k * (1 - 0))); [ring|].
  apply (dl_mult (fun _ => / k) (fun u => u - st_stationary_time s)); [apply dl_const|].
  apply (dl_minus (fun u => u) (fun _ => st_stationary_time s)); [apply dl_id|apply dl_const].
Qed.
Lemma rate_param : forall s f t d, st_max_time s <> st_stationary_time s ->
  rate_of f (spline_param s t) d ->
  rate_of (fun u => f (spline_param s u)) t (vdiv d (st_max_time s - st_stationary_time s)).
Proof.
  intros s f t d N (X & Y & Z). unfold rate_of, vdiv. cbn [vx vy vz].
  repeat split; apply (dl_param s (fun w => _ (f w)) t _ N); assumption.
Qed.
Lemma rate_div : forall f t d k, k <> 0 -> rate_of f t d -> rate_of (fun u => vdiv (f u) k) t (vdiv d k).
Proof.
  intros f t d k K (X & Y & Z). unfold rate_of, vdiv. cbn [vx vy vz].
  assert (A : forall (g : R -> R) x, dl g t x -> dl (fun u => g u / k) t (x / k)).
  { intros g x G. apply (dl_ext (fun u => / k * g u)); [intros u; field; exact K|].
    apply (dl_eq _ _ (0 * g t + / k * x)); [field; exact K|].
    apply (dl_mult (fun _ => / k) g); [apply dl_const|exact G]. }
  repeat split; apply (A (fun u => _ (f u))); assumption.
Qed.

Section Motion.
Variable s : spline_truth.
Variable t : R.
Hypothesis Hin : spline_inside s t.
Hypothesis Hspan : st_max_time s <> st_stationary_time s.

Lemma inside_time : spline_time s t.
Proof. destruct Hin. split; lra. Qed.

Lemma spline_velocity : spl_invalid (st_pos s) = false -> true_derivatives (st_pos s) (spline_param s t) ->
  exists v, st_GetBodyVelocity s t = OK v /\ reports_rate (st_GetBodyPosition s) t v.
Proof.
  intros Hv (D1 & _). unfold st_GetBodyVelocity. rewrite eval_at by (assumption || exact inside_time).
  eexists. split; [reflexivity|]. destruct (param_near s t Hin) as (h & Hh & Hn).
  exists (fun u => spl_at (st_pos s) (spline_param s u)), h. split; [exact Hh|]. split.
  - intros u Hu. unfold st_GetBodyPosition. rewrite eval_at by auto. reflexivity.
  - apply rate_param; assumption.
Qed.
Lemma spline_acceleration : spl_invalid (st_pos s) = false -> true_derivatives (st_pos s) (spline_param s t) ->
  exists v, st_GetBodyAcceleration s t = OK v /\ reports_rate (st_GetBodyVelocity s) t v.
Proof.
  intros Hv (_ & D2). unfold st_GetBodyAcceleration. rewrite eval_at by (assumption || exact inside_time).
  eexists. split; [reflexivity|]. destruct (param_near s t Hin) as (h & Hh & Hn).
  exists (fun u => vdiv (spl_d1 (st_pos s) (spline_param s u)) (st_max_time s - st_stationary_time s)), h.
  split; [exact Hh|]. split.
  - intros u Hu. unfold st_GetBodyVelocity. rewrite eval_at by auto. reflexivity.
  - apply rate_div; [lra|]. apply rate_param; assumption.
Qed.
(** The reported angular rate is that of the Euler angles: the body turns
    with another one. *)
Lemma spline_turn : spl_invalid (st_ang s) = false -> true_derivatives (st_ang s) (spline_param s t) ->
  exists w, st_GetBodyAngularRate s t = OK w /\
    reports_turn (st_GetBodyAngularPosition s) t
      (mat_vec (EulerDerivativeTransform (spl_at (st_ang s) (spline_param s t))) w).
Proof.
  intros Hv (D1 & _). unfold st_GetBodyAngularRate. rewrite eval_at by (assumption || exact inside_time).
  eexists. split; [reflexivity|]. destruct (param_near s t Hin) as (h & Hh & Hn).
  exists (fun u => EigVecToQuat (spl_at (st_ang s) (spline_param s u))), h. split; [exact Hh|]. split.
  - intros u Hu. unfold st_GetBodyAngularPosition. rewrite eval_at by auto. reflexivity.
  - apply (euler_turns (fun u => spl_at (st_ang s) (spline_param s u))). apply rate_param; assumption.
Qed.
End Motion.

(** A body lying on its side that yaws with unit rate. *)
Definition side_curve : spline := mkSpline (fun u => mkV3 (PI / 2) 0 u) (fun _ => mkV3 0 0 1) (fun _ => v0) false.
Definition side_truth : spline_truth := mkSplineTruth side_curve side_curve 1 0.
Lemma side_derivatives : forall u, true_derivatives side_curve u.
Proof.
  intros u. split; repeat split; cbn; try apply dl_const. apply dl_id.
Qed.
Lemma qrate_unique : forall f g h t a b, 0 < h -> (forall u, Rabs (u - t) < h -> f u = g u) ->
  qrate_of f t a -> qrate_of g t b -> a = b.
Proof.
  intros f g h t [aw ax ay az] [bw bx by_ bz] Hh E F G.
  apply (qrate_loc f g) in F; [|exists h; split; assumption].
  destruct F as (F1 & F2 & F3 & F4). destruct G as (G1 & G2 & G3 & G4). cbn in *.
  f_equal; eapply dl_unique; eassumption.
Qed.
Lemma spline_rate_refuted : exists s t w, spline_inside s t /\ st_stationary_time s < st_max_time s /\
  (forall u, true_derivatives (st_ang s) u) /\
  st_GetBodyAngularRate s t = OK w /\ ~ reports_turn (st_GetBodyAngularPosition s) t w.
Proof.
  assert (I : spline_inside side_truth (1 / 2)) by (unfold spline_inside; cbn; lra).
  assert (N : st_max_time side_truth <> st_stationary_time side_truth) by (cbn; lra).
  destruct (spline_turn side_truth (1 / 2) I N eq_refl (side_derivatives _)) as (w & Hw & f & h & Hh & Hf & T).
  exists side_truth, (1 / 2), w. split; [exact I|]. split; [cbn; lra|]. split; [exact side_derivatives|].
  split; [exact Hw|]. intros (g & h' & Hh' & Hg & T').
  assert (E : qmul (f (1 / 2)) (mkQ 0 (vx (mat_vec (EulerDerivativeTransform (spl_at (st_ang side_truth) (spline_param side_truth (1 / 2)))) w) / 2)
     (vy (mat_vec (EulerDerivativeTransform (spl_at (st_ang side_truth) (spline_param side_truth (1 / 2)))) w) / 2)
     (vz (mat_vec (EulerDerivativeTransform (spl_at (st_ang side_truth) (spline_param side_truth (1 / 2)))) w) / 2))
    = qmul (g (1 / 2)) (mkQ 0 (vx w / 2) (vy w / 2) (vz w / 2))).
  { apply (qrate_unique f g (Rmin h h') (1 / 2)); [apply Rmin_glb_lt; assumption| |exact T|exact T'].
    intros u Hu. assert (OK (f u) = OK (g u)) as E.
    { rewrite <- Hf, <- Hg; [reflexivity| |].
      - eapply Rlt_le_trans; [exact Hu|apply Rmin_r].
      - eapply Rlt_le_trans; [exact Hu|apply Rmin_l]. }
    injection E as E. exact E. }
  unfold st_GetBodyAngularRate in Hw. rewrite eval_at in Hw; [|reflexivity|split; cbn; lra|exact N].
  injection Hw as Hw. subst w. rewrite mv_euler in E.
  assert (Eg : g (1 / 2) = f (1 / 2)).
  { assert (OK (g (1 / 2)) = OK (f (1 / 2))) as Q.
    { rewrite <- Hf, <- Hg; [reflexivity| |]; replace (1 / 2 - 1 / 2) with 0 by ring; rewrite Rabs_R0; assumption. }
    injection Q as Q. exact Q. }
  rewrite Eg in E.
  assert (Fq : f (1 / 2) = EigVecToQuat (mkV3 (PI / 2) 0 (1 / 2))).
  { assert (OK (f (1 / 2)) = OK (EigVecToQuat (mkV3 (PI / 2) 0 (1 / 2)))) as Q.
    { rewrite <- Hf by (replace (1 / 2 - 1 / 2) with 0 by ring; rewrite Rabs_R0; assumption).
      unfold st_GetBodyAngularPosition. rewrite eval_at; [|reflexivity|split; cbn; lra|exact N].
      cbn. unfold spline_param. cbn. replace ((1 / 2 - 0) / (1 - 0)) with (1 / 2) by field. reflexivity. }
    injection Q as Q. exact Q. }
  cbn [spl_at spl_d1 st_ang side_truth side_curve vdiv vx vy vz st_max_time st_stationary_time] in E.
  rewrite sin_PI2, cos_PI2, sin_0, cos_0 in E.
  set (q := f (1 / 2)) in *.
  assert (Nq : qw q * qw q + qx q * qx q + qy q * qy q + qz q * qz q = 1).
  { rewrite Fq, euler_quat. cbv zeta. cbn [qw qx qy qz vx vy vz].
    pose proof (half_1 (PI / 2)) as A. pose proof (half_1 0) as B. pose proof (half_1 (1 / 2)) as C.
    revert A B C. generalize (sin (half (PI / 2))) (cos (half (PI / 2))) (sin (half 0)) (cos (half 0))
      (sin (half (1 / 2))) (cos (half (1 / 2))). intros a b c d e k A B C.
    transitivity ((a * a + b * b) * (c * c + d * d) * (e * e + k * k)); [ring|]. rewrite A, B, C. ring. }
  clearbody q. clear -E Nq. destruct q as [w x y z]. unfold qmul in E. cbn [qw qx qy qz] in *.
  injection E as E1 E2 E3 E4. nra.
Qed.

(** With a stationary phase, accepted times leave the parameter range. *)
Lemma spline_beyond : forall s, spl_invalid (st_pos s) = false ->
  0 < st_stationary_time s < st_max_time s ->
  exists t u, spline_time s t /\ 1 < u /\ st_GetBodyPosition s t = OK (spl_at (st_pos s) u).
Proof.
  intros s Hv [H1 H2]. exists (st_stationary_time s + st_max_time s), (spline_param s (st_stationary_time s + st_max_time s)).
  assert (T : spline_time s (st_stationary_time s + st_max_time s)) by (split; lra).
  split; [exact T|]. split.
  - unfold spline_param. replace (st_stationary_time s + st_max_time s - st_stationary_time s) with (st_max_time s) by ring.
    apply (Rmult_lt_reg_r (st_max_time s - st_stationary_time s)); [lra|]. field_simplify; lra.
  - unfold st_GetBodyPosition. rewrite eval_at by (assumption || lra). reflexivity.
Qed.
Lemma spline_within : forall s t, spl_invalid (st_pos s) = false -> st_stationary_time s <= 0 -> 0 < st_max_time s ->
  spline_time s t ->
  exists u, 0 <= u <= 1 /\ st_GetBodyPosition s t = OK (spl_at (st_pos s) u).
Proof.
  intros s t Hv H0 Hm T. exists (spline_param s t). split.
  - destruct T as [T1 T2]. unfold spline_param.
    assert (P : 0 < / (st_max_time s - st_stationary_time s)) by (apply Rinv_0_lt_compat; lra).
    split; [apply Rmult_le_pos; lra|]. apply (Rmult_le_reg_r (st_max_time s - st_stationary_time s)); [lra|].
    unfold Rdiv. rewrite Rmult_assoc, Rinv_l by lra. lra.
  - unfold st_GetBodyPosition. rewrite eval_at by (assumption || lra). reflexivity.
Qed.
