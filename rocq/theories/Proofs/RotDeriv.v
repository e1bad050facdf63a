(** The derivative of a rotated vector with respect to the rotation vector. *)
From Coq Require Import Reals List Arith Bool Lia Lra.
From Verif Require Import Base.Res Base.Mat Base.RDec Base.RSum Base.LinAlg Base.Geom
  Model.TypeHelper Model.MathHelper Model.Matrix3 Spec.Rotation Spec.Deriv Proofs.Effects Proofs.Rotations Proofs.Deriv.
Open Scope R_scope.

Section Rot.
Variables (phi : R -> V3) (r : V3).
Hypothesis Hphi : vmoves phi r.
Hypothesis Hbig : 1 / 1000000000 < vnorm (phi 0).
Let n := vnorm (phi 0).
Let m := vdot (phi 0) r.
Let a := (1 - cos n) / n ^ 2.
Let b := (n - sin n) / n ^ 3.
Let s := sin n / n.

Lemma n_pos : 0 < n.
Proof. unfold n. lra. Qed.
Lemma n_moves : moves (fun t => vnorm (phi t)) (m / n).
Proof.
  unfold vnorm, vnorm2. pose proof n_pos as P. pose proof (moves_dot _ _ _ _ Hphi Hphi) as D.
  assert (P2 : 0 < vdot (phi 0) (phi 0)).
  { change (0 < vnorm2 (phi 0)). rewrite <- vnorm_sq. fold n. nra. }
  eapply dl_eq; [|apply (dl_sqrt _ _ _ D P2)]. change (sqrt (vdot (phi 0) (phi 0))) with n.
  unfold m, vdot. field. lra.
Qed.
Lemma cos_moves : moves (fun t => cos (vnorm (phi t))) (- s * m).
Proof. pose proof n_pos. eapply dl_eq; [|apply (dl_cos _ _ _ n_moves)]. cbn beta. fold n. unfold s. field. lra. Qed.
Lemma sinc_moves : moves (fun t => sin (vnorm (phi t)) / vnorm (phi t)) ((b - a) * m).
Proof.
  pose proof n_pos. eapply dl_eq; [|apply (dl_div (fun t => sin (vnorm (phi t))) (fun t => vnorm (phi t)) _ _ _ (dl_sin _ _ _ n_moves) n_moves)].
  - cbn beta. fold n. unfold a, b, Rsqr. field. lra.
  - fold n. lra.
Qed.
Lemma verc_moves : moves (fun t => (1 - cos (vnorm (phi t))) / (vnorm (phi t) * vnorm (phi t))) ((b * s - a * a) * m).
Proof.
  pose proof n_pos.
  eapply dl_eq; [|apply (dl_div (fun t => 1 - cos (vnorm (phi t))) (fun t => vnorm (phi t) * vnorm (phi t)));
    [apply dl_minus; [apply dl_const|apply cos_moves]|apply dl_mult; apply n_moves|fold n; nra]].
  cbn beta. fold n. unfold a, b, s, Rsqr. pose proof (sin2_cos2 n) as SC. unfold Rsqr in SC.
  apply Rmult_eq_reg_r with (n ^ 4); [|apply pow_nonzero; lra].
  transitivity (m * (n * sin n - 2 * (1 - cos n))); [field; lra|].
  transitivity (m * ((n - sin n) * sin n - (1 - cos n) * (1 - cos n))); [|field; lra].
  f_equal. nra.
Qed.

(** Rodrigues' formula without dividing the axis. *)
Lemma turn_expand : forall v u, 0 < vnorm v ->
  turn (vnorm v) (vdiv v (vnorm v)) u =
  vadd (vadd (vscale (cos (vnorm v)) u) (vscale (sin (vnorm v) / vnorm v) (vcross v u)))
       (vscale ((1 - cos (vnorm v)) / (vnorm v * vnorm v) * vdot v u) v).
Proof.
  intros v u H. set (k := vnorm v) in *. unfold turn. destruct v as [x y z], u as [p q w].
  unfold vadd, vscale, vcross, vdot, vdiv. cbn [vx vy vz]. f_equal; field; lra.
Qed.

Definition rot_of (v u : V3) : V3 := qrot (RotVecToQuat v) u.

Lemma near_big : near (fun t => 1 / 1000000000 < vnorm (phi t)).
Proof. apply (moves_gt _ _ _ n_moves). exact Hbig. Qed.

Lemma rot_moves_raw : forall u w, vmoves u w ->
  vmoves (fun t => rot_of (phi t) (u t))
    (vadd (rot_of (phi 0) w)
      (vadd (vadd (vadd (vscale (- s * m) (u 0)) (vscale ((b - a) * m) (vcross (phi 0) (u 0))))
                  (vscale s (vcross r (u 0))))
        (vadd (vscale ((b * s - a * a) * m * vdot (phi 0) (u 0) + a * vdot r (u 0)) (phi 0))
              (vscale (a * vdot (phi 0) (u 0)) r)))).
Proof.
  intros u w Hu. pose proof n_pos as P.
  apply (vmoves_loc (fun t => vadd (vadd (vscale (cos (vnorm (phi t))) (u t))
     (vscale (sin (vnorm (phi t)) / vnorm (phi t)) (vcross (phi t) (u t))))
     (vscale ((1 - cos (vnorm (phi t))) / (vnorm (phi t) * vnorm (phi t)) * vdot (phi t) (u t)) (phi t)))).
  { eapply near_impl; [|exact near_big]. cbn beta. intros t Ht. unfold rot_of.
    rewrite rotvec_turns by exact Ht. symmetry. apply turn_expand. lra. }
  eapply vmoves_eq; [|apply vmoves_add; [apply vmoves_add|]].
  2: apply vmoves_scale; [apply cos_moves|exact Hu].
  2: apply vmoves_scale; [apply sinc_moves|apply vmoves_cross; [exact Hphi|exact Hu]].
  2: apply (vmoves_scale (fun t => (1 - cos (vnorm (phi t))) / (vnorm (phi t) * vnorm (phi t)) * vdot (phi t) (u t)));
     [apply (dl_mult (fun t => (1 - cos (vnorm (phi t))) / (vnorm (phi t) * vnorm (phi t))));
        [apply verc_moves|apply moves_dot; [exact Hphi|exact Hu]]|exact Hphi].
  cbv beta. unfold rot_of. rewrite rotvec_turns by exact Hbig. rewrite turn_expand by exact P. fold n.
  replace ((1 - cos n) / (n * n)) with a by (unfold a; field; lra). fold s.
  destruct (phi 0) as [f g h]. destruct (u 0) as [x y z]. destruct w as [wx wy wz]. destruct r as [p q k].
  unfold vadd, vscale, vcross, vdot. cbn [vx vy vz]. f_equal; ring.
Qed.

Lemma s_b : s = 1 - b * vdot (phi 0) (phi 0).
Proof.
  pose proof n_pos. change (vdot (phi 0) (phi 0)) with (vnorm2 (phi 0)). rewrite <- vnorm_sq. fold n.
  unfold s, b. field. lra.
Qed.
Lemma c_a : cos n = 1 - a * vdot (phi 0) (phi 0).
Proof.
  pose proof n_pos. change (vdot (phi 0) (phi 0)) with (vnorm2 (phi 0)). rewrite <- vnorm_sq. fold n.
  unfold a. field. lra.
Qed.
Lemma s_a : s * s = 2 * a - a * a * vdot (phi 0) (phi 0).
Proof.
  pose proof n_pos. change (vdot (phi 0) (phi 0)) with (vnorm2 (phi 0)). rewrite <- vnorm_sq. fold n.
  unfold s, a. pose proof (sin2_cos2 n) as SC. unfold Rsqr in SC.
  apply Rmult_eq_reg_r with (n * n); [|nra].
  transitivity (sin n * sin n); [field; lra|]. transitivity (1 - cos n * cos n); [lra|]. field. lra.
Qed.

(** The left Jacobian applied to [r]. *)
Definition left_jac (v x : V3) : V3 :=
  vadd (vadd x (vscale ((1 - cos (vnorm v)) / vnorm v ^ 2) (vcross v x)))
       (vscale ((vnorm v - sin (vnorm v)) / vnorm v ^ 3) (vcross v (vcross v x))).
Definition right_jac (v x : V3) : V3 :=
  vadd (vsub x (vscale ((1 - cos (vnorm v)) / vnorm v ^ 2) (vcross v x)))
       (vscale ((vnorm v - sin (vnorm v)) / vnorm v ^ 3) (vcross v (vcross v x))).

Lemma rot_moves_left : forall u w, vmoves u w ->
  vmoves (fun t => rot_of (phi t) (u t))
    (vadd (rot_of (phi 0) w) (vcross (left_jac (phi 0) r) (rot_of (phi 0) (u 0)))).
Proof.
  intros u w Hu. eapply vmoves_eq; [|apply (rot_moves_raw u w Hu)]. f_equal.
  pose proof s_b as SB. pose proof c_a as CA. pose proof s_a as SA. pose proof n_pos as P.
  unfold rot_of. rewrite rotvec_turns by exact Hbig. rewrite turn_expand by exact P. fold n.
  replace ((1 - cos n) / (n * n)) with a by (unfold a; field; lra). fold s.
  unfold left_jac. fold n. fold a. fold b. rewrite CA. unfold m.
  clearbody a b s. clear n m P CA Hbig.
  destruct (phi 0) as [f g h]. destruct (u 0) as [x y z]. destruct r as [p q k].
  unfold vdot in *. cbn [vx vy vz] in *.
  assert (K : s * s - 2 * a + a * a * (f * f + g * g + h * h) = 0) by lra.
  set (d := p * x + q * y + k * z).
  unfold vadd, vscale, vcross. cbn [vx vy vz].
  f_equal; rewrite SB in K |- *; clear SB SA Hphi Hu; unfold d.
  - match goal with |- ?A = ?B => assert (Z : A - B = - f * d * 0) end; [rewrite <- K; unfold d; ring|lra].
  - match goal with |- ?A = ?B => assert (Z : A - B = - g * d * 0) end; [rewrite <- K; unfold d; ring|lra].
  - match goal with |- ?A = ?B => assert (Z : A - B = - h * d * 0) end; [rewrite <- K; unfold d; ring|lra].
Qed.

Lemma rot_right_left : forall x, rot_of (phi 0) (right_jac (phi 0) x) = left_jac (phi 0) x.
Proof.
  intros x. pose proof s_b as SB. pose proof c_a as CA. pose proof s_a as SA. pose proof n_pos as P.
  unfold rot_of. rewrite rotvec_turns by exact Hbig. rewrite turn_expand by exact P. fold n.
  replace ((1 - cos n) / (n * n)) with a by (unfold a; field; lra). fold s.
  unfold left_jac, right_jac. fold n. fold a. fold b. rewrite CA.
  clearbody a b s. clear n m P CA Hbig.
  destruct (phi 0) as [f g h]. destruct x as [x y z].
  unfold vdot in *. cbn [vx vy vz] in *.
  assert (K : s * s - 2 * a + a * a * (f * f + g * g + h * h) = 0) by lra.
  unfold vadd, vsub, vscale, vcross, vdot. cbn [vx vy vz].
  set (d := f * x + g * y + h * z). set (N := f * f + g * g + h * h) in *.
  f_equal; rewrite SB in K |- *; clear SB SA Hphi.
  - match goal with |- ?A = ?B => assert (Z : A - B = (g * z - h * y) * 0) end; [rewrite <- K; unfold d, N; ring|lra].
  - match goal with |- ?A = ?B => assert (Z : A - B = (h * x - f * z) * 0) end; [rewrite <- K; unfold d, N; ring|lra].
  - match goal with |- ?A = ?B => assert (Z : A - B = (f * y - g * x) * 0) end; [rewrite <- K; unfold d, N; ring|lra].
Qed.
End Rot.
