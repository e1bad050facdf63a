(** Eigen's conversion reads rotations. *)
From Coq Require Import Reals Lra Lia.
From Verif Require Import Base.Mat Base.RDec Base.Geom Base.RMat Model.TypeHelper Model.Matrix3 Model.EigenQuat Spec.Rotation Spec.AtRest.
Open Scope R_scope.

Lemma sqrt_4sq : forall x, sqrt (4 * (x * x)) = 2 * Rabs x.
Proof.
  intros x. replace (4 * (x * x)) with ((2 * x) * (2 * x)) by ring. rewrite <- (sqrt_Rsqr_abs (2 * x)) || idtac.
  change ((2 * x) * (2 * x)) with (Rsqr (2 * x)). rewrite sqrt_Rsqr_abs, Rabs_mult, (Rabs_right 2) by lra. reflexivity.
Qed.
Ltac fin x := unfold Rabs; destruct (Rcase_abs x);
  [right; unfold opposite; cbn; f_equal; field; lra | left; f_equal; field; lra].

Lemma eigen_reads : reads_rotations eigen_mat_quat.
Proof.
  intros m [w x y z] U H. unfold qnorm2 in U. cbn [qw qx qy qz] in U.
  assert (D0 : ent m 0 0 = 1 - 2 * (y * y + z * z)) by (rewrite H by lia; unfold qmat, of_list; cbn; ring).
  assert (D1 : ent m 1 1 = 1 - 2 * (x * x + z * z)) by (rewrite H by lia; unfold qmat, of_list; cbn; ring).
  assert (D2 : ent m 2 2 = 1 - 2 * (x * x + y * y)) by (rewrite H by lia; unfold qmat, of_list; cbn; ring).
  assert (E01 : ent m 0 1 = 2 * (x * y - w * z)) by (rewrite H by lia; unfold qmat, of_list; cbn; ring).
  assert (E10 : ent m 1 0 = 2 * (x * y + w * z)) by (rewrite H by lia; unfold qmat, of_list; cbn; ring).
  assert (E02 : ent m 0 2 = 2 * (x * z + w * y)) by (rewrite H by lia; unfold qmat, of_list; cbn; ring).
  assert (E20 : ent m 2 0 = 2 * (x * z - w * y)) by (rewrite H by lia; unfold qmat, of_list; cbn; ring).
  assert (E12 : ent m 1 2 = 2 * (y * z - w * x)) by (rewrite H by lia; unfold qmat, of_list; cbn; ring).
  assert (E21 : ent m 2 1 = 2 * (y * z + w * x)) by (rewrite H by lia; unfold qmat, of_list; cbn; ring).
  clear H. unfold eigen_mat_quat. cbv zeta.
  destruct (Rltb 0 (ent m 0 0 + ent m 1 1 + ent m 2 2)) eqn:ET.
  - apply Rltb_spec in ET. rewrite E01, E10, E02, E20, E12, E21.
    replace (ent m 0 0 + ent m 1 1 + ent m 2 2 + 1) with (4 * (w * w)) by (rewrite D0, D1, D2; lra).
    rewrite sqrt_4sq. assert (w <> 0) by (intros ->; rewrite D0, D1, D2 in ET; lra). fin w.
  - apply Rltb_false in ET. rewrite D0, D1, D2 in ET.
    destruct (Rltb (ent m 0 0) (ent m 1 1)) eqn:E1.
    + apply Rltb_spec in E1. rewrite D0, D1 in E1. destruct (Rltb (ent m 1 1) (ent m 2 2)) eqn:E2.
      * apply Rltb_spec in E2. rewrite D1, D2 in E2. cbn [Nat.modulo Nat.divmod snd fst Nat.sub].
        rewrite E01, E10, E02, E20, E12, E21. replace (ent m 2 2 - ent m 0 0 - ent m 1 1 + 1) with (4 * (z * z)) by (rewrite D0, D1, D2; lra).
        rewrite sqrt_4sq. assert (z <> 0) by (intros ->; nra). fin z.
      * apply Rltb_false in E2. rewrite D1, D2 in E2. cbn [Nat.modulo Nat.divmod snd fst Nat.sub].
        rewrite E01, E10, E02, E20, E12, E21. replace (ent m 1 1 - ent m 2 2 - ent m 0 0 + 1) with (4 * (y * y)) by (rewrite D0, D1, D2; lra).
        rewrite sqrt_4sq. assert (y <> 0) by (intros ->; nra). fin y.
    + apply Rltb_false in E1. rewrite D0, D1 in E1. destruct (Rltb (ent m 0 0) (ent m 2 2)) eqn:E2.
      * apply Rltb_spec in E2. rewrite D0, D2 in E2. cbn [Nat.modulo Nat.divmod snd fst Nat.sub].
        rewrite E01, E10, E02, E20, E12, E21. replace (ent m 2 2 - ent m 0 0 - ent m 1 1 + 1) with (4 * (z * z)) by (rewrite D0, D1, D2; lra).
        rewrite sqrt_4sq. assert (z <> 0) by (intros ->; nra). fin z.
      * apply Rltb_false in E2. rewrite D0, D2 in E2. cbn [Nat.modulo Nat.divmod snd fst Nat.sub].
        rewrite E01, E10, E02, E20, E12, E21. replace (ent m 0 0 - ent m 1 1 - ent m 2 2 + 1) with (4 * (x * x)) by (rewrite D0, D1, D2; lra).
        rewrite sqrt_4sq. assert (x <> 0) by (intros ->; nra). fin x.
Qed.
