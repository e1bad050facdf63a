(** Triangulation finds the point closest to all viewing rays. *)
From Coq Require Import Reals List Arith Bool Lia Lra.
From Verif Require Import Base.Res Base.Mat Base.RDec Base.RSum Base.LinAlg Base.Inverse Base.Geom Base.AMap Base.RMat
  Model.TypeHelper Model.Types Model.MathHelper Model.Matrix3 Model.Ekf Model.Updater Model.MsckfUpdater
  Spec.Triangulation Proofs.Rotations Proofs.Jacobians.
Import ListNotations.
Open Scope R_scope.

Ltac vcrush := unfold vnorm2, vdot, vcross, vadd, vsub, vscale, vopp, v0 in *; cbn [vx vy vz] in *.
Lemma v3_eq : forall a b, vx a = vx b -> vy a = vy b -> vz a = vz b -> a = b.
Proof. intros [x y z] [x' y' z']; cbn; intros; subst; reflexivity. Qed.
Lemma norm2_zero : forall a, vnorm2 a = 0 -> a = v0.
Proof. intros [x y z] H. vcrush. assert (x = 0) by nra. assert (y = 0) by nra. assert (z = 0) by nra. subst; reflexivity. Qed.
Lemma norm2_nonneg : forall a, 0 <= vnorm2 a.
Proof. intros [x y z]. vcrush. nra. Qed.
Lemma norm2_pos : forall a, a <> v0 -> 0 < vnorm2 a.
Proof. intros a H. destruct (norm2_nonneg a) as [|E]; [assumption|]. elim H. apply norm2_zero. symmetry; exact E. Qed.

(** *** Distances from lines by cross products *)
Lemma dist_cross : forall o d p, d <> v0 -> line_dist2 (o, d) p = vnorm2 (vcross d (vsub p o)) / vnorm2 d.
Proof.
  intros o d p H. apply norm2_pos in H. unfold line_dist2, foot. cbn [fst snd].
  destruct o as [ox oy oz], d as [dx dy dz], p as [px py pz]. vcrush. field.
  apply Rgt_not_eq. exact H.
Qed.

(** *** Rotations preserve products *)
Lemma qrot_dot : forall q a b, qnorm2 q = 1 -> vdot (qrot q a) (qrot q b) = vdot a b.
Proof.
  intros [w x y z] [a b c] [d e f] H. unfold qnorm2 in H. cbn [qw qx qy qz] in H.
  assert (E : w * w = 1 - x * x - y * y - z * z) by lra. clear H.
  unfold qrot, qvec, vadd, vcross, vscale, vdot. cbn [qw qx qy qz vx vy vz]. ring [E].
Qed.

Lemma qrot_add : forall q u v, qrot q (vadd u v) = vadd (qrot q u) (qrot q v).
Proof. intros q u v. unfold qrot, qvec. destruct u, v. vcrush. f_equal; ring. Qed.
Lemma qrot_sub : forall q u v, qrot q (vsub u v) = vsub (qrot q u) (qrot q v).
Proof. intros q u v. unfold qrot, qvec. destruct u, v. vcrush. f_equal; ring. Qed.
Lemma qrot_scale : forall q s v, qrot q (vscale s v) = vscale s (qrot q v).
Proof. intros q s v. unfold qrot, qvec. destruct v. vcrush. f_equal; ring. Qed.
Lemma qrot_zero : forall q, qrot q v0 = v0.
Proof. intros q. unfold qrot, qvec. vcrush. f_equal; ring. Qed.

(** *** The normal equations *)
(** What one observation contributes: [x] without its part along [d] (times the
    squared length of [d]). *)
Definition across (d x : V3) : V3 := vcross (vcross d x) d.
Lemma skew_square : forall d x, mat_vec (m3mul (m3tr (SkewSymmetric d)) (SkewSymmetric d)) x = across d x.
Proof.
  intros [dx dy dz] [x y z]. rewrite m3mul_vec, skew_cross. unfold across, m3tr, mat_vec, tr, SkewSymmetric. cbn. vcrush.
  f_equal; ring.
Qed.
Lemma m3add_vec : forall A B x, mat_vec (m3add A B) x = vadd (mat_vec A x) (mat_vec B x).
Proof. intros. unfold mat_vec, m3add, madd, vadd. cbn [ent vx vy vz]. f_equal; ring. Qed.

(** Sums over pairs of a camera centre and a direction. *)
Definition lhs (l : list (V3 * V3)) (x : V3) : V3 := fold_right (fun r s => vadd (across (snd r) x) s) v0 l.
Definition rhs (l : list (V3 * V3)) : V3 := fold_right (fun r s => vadd (across (snd r) (fst r)) s) v0 l.
Definition cost (l : list (V3 * V3)) (x : V3) : R :=
  fold_right (fun r s => vnorm2 (vcross (snd r) (vsub x (fst r))) + s) 0 l.
Definition form (l : list (V3 * V3)) (x : V3) : R := fold_right (fun r s => vnorm2 (vcross (snd r) x) + s) 0 l.

Lemma cost_square : forall l x y,
  cost l y = cost l x + 2 * vdot (vsub y x) (vsub (lhs l x) (rhs l)) + form l (vsub y x).
Proof.
  induction l as [|[c d] l IH]; intros x y.
  - cbn. destruct x, y. vcrush. ring.
  - cbn [cost lhs rhs form fold_right fst snd] in *. fold (cost l y) (cost l x) (lhs l x) (rhs l) (form l (vsub y x)).
    rewrite (IH x y). set (L := lhs l x). set (Q := rhs l). clearbody L Q.
    destruct c, d, x, y, L, Q. unfold across. vcrush. ring.
Qed.
Lemma form_lhs : forall l x, vdot x (lhs l x) = form l x.
Proof.
  induction l as [|[c d] l IH]; intros x.
  - cbn. destruct x. vcrush. ring.
  - cbn [lhs form fold_right fst snd]. fold (lhs l x) (form l x). rewrite <- IH.
    set (L := lhs l x). clearbody L. destruct d, x, L. unfold across. vcrush. ring.
Qed.
Lemma lhs_sym : forall l x y, vdot x (lhs l y) = vdot (lhs l x) y.
Proof.
  induction l as [|[c d] l IH]; intros x y.
  - cbn. destruct x, y. vcrush. ring.
  - cbn [lhs fold_right fst snd]. fold (lhs l x) (lhs l y). specialize (IH x y).
    set (L := lhs l x) in *. set (M := lhs l y) in *. clearbody L M.
    destruct d, x, y, L, M. unfold across. vcrush. lra.
Qed.
Lemma form_nonneg : forall l x, 0 <= form l x.
Proof.
  induction l as [|r l IH]; intros x; [apply Rle_refl|]. cbn [form fold_right]. fold (form l x).
  pose proof (norm2_nonneg (vcross (snd r) x)). specialize (IH x). lra.
Qed.
Lemma form_zero : forall l x, form l x = 0 -> forall r, In r l -> vcross (snd r) x = v0.
Proof.
  induction l as [|r l IH]; intros x H r' Hr; [destruct Hr|]. cbn [form fold_right] in H. fold (form l x) in H.
  pose proof (norm2_nonneg (vcross (snd r) x)). pose proof (form_nonneg l x).
  destruct Hr as [<-|Hr]; [apply norm2_zero; lra|]. apply IH; [lra|exact Hr].
Qed.
Lemma cross_both : forall a b x, vcross a b <> v0 -> vcross a x = v0 -> vcross b x = v0 -> x = v0.
Proof.
  intros a b x H A B. pose proof (norm2_pos _ H) as P.
  assert (Ea : forall i, vget (vcross a x) i = 0) by (rewrite A; intros [|[|]]; reflexivity).
  assert (Eb : forall i, vget (vcross b x) i = 0) by (rewrite B; intros [|[|]]; reflexivity).
  assert (vscale (vnorm2 (vcross a b)) x = v0).
  { pose proof (Ea 0%nat) as a0. pose proof (Ea 1%nat) as a1. pose proof (Ea 2%nat) as a2.
    pose proof (Eb 0%nat) as b0. pose proof (Eb 1%nat) as b1. pose proof (Eb 2%nat) as b2. clear Ea Eb A B H P.
    destruct a as [ax ay az], b as [bx by_ bz], x as [x y z]. cbn [vget vcross vx vy vz] in *.
    unfold vscale, vnorm2, vdot, vcross, v0. cbn [vx vy vz].
    (* (a x b) . x = 0 and (a x b) x x = b(a.x) - a(b.x) *)
    set (n1 := ay * bz - az * by_). set (n2 := az * bx - ax * bz). set (n3 := ax * by_ - ay * bx).
    assert (N1 : n2 * z - n3 * y = bx * (ax * x + ay * y + az * z) - ax * (bx * x + by_ * y + bz * z)) by (unfold n1, n2, n3; ring).
    assert (N2 : n3 * x - n1 * z = by_ * (ax * x + ay * y + az * z) - ay * (bx * x + by_ * y + bz * z)) by (unfold n1, n2, n3; ring).
    assert (N3 : n1 * y - n2 * x = bz * (ax * x + ay * y + az * z) - az * (bx * x + by_ * y + bz * z)) by (unfold n1, n2, n3; ring).
    (* x n1 = (ay z - az y) ... *)
    assert (X1 : x * n1 = 0). { unfold n1. replace (x * (ay * bz - az * by_)) with (- bz * (ax * y - ay * x) - by_ * (az * x - ax * z) + ax * (y * bz - z * by_)) by ring.
      rewrite a1, a2. replace (y * bz - z * by_) with (- (by_ * z - bz * y)) by ring. rewrite b0. ring. }
    assert (X2 : x * n2 = 0). { unfold n2. replace (x * (az * bx - ax * bz)) with (bx * (az * x - ax * z) - ax * (bz * x - bx * z)) by ring. rewrite a1, b1. ring. }
    assert (X3 : x * n3 = 0). { unfold n3. replace (x * (ax * by_ - ay * bx)) with (bx * (ax * y - ay * x) - ax * (bx * y - by_ * x)) by ring. rewrite a2, b2. ring. }
    assert (Y1 : y * n1 = 0). { unfold n1. replace (y * (ay * bz - az * by_)) with (- by_ * (az * y - ay * z) + ay * (bz * y - by_ * z)) by ring.
      replace (az * y - ay * z) with (- (ay * z - az * y)) by ring. replace (bz * y - by_ * z) with (- (by_ * z - bz * y)) by ring. rewrite a0, b0. ring. }
    assert (Y2 : y * n2 = 0). { unfold n2. replace (y * (az * bx - ax * bz)) with (- bx * (ay * z - az * y) - bz * (ax * y - ay * x) + ay * (bx * z - x * bz)) by ring.
      rewrite a0, a2. replace (bx * z - x * bz) with (- (bz * x - bx * z)) by ring. rewrite b1. ring. }
    assert (Y3 : y * n3 = 0). { unfold n3. replace (y * (ax * by_ - ay * bx)) with (by_ * (ax * y - ay * x) - ay * (bx * y - by_ * x)) by ring. rewrite a2, b2. ring. }
    assert (Z1 : z * n1 = 0). { unfold n1. replace (z * (ay * bz - az * by_)) with (bz * (ay * z - az * y) - az * (by_ * z - bz * y)) by ring. rewrite a0, b0. ring. }
    assert (Z2 : z * n2 = 0). { unfold n2. replace (z * (az * bx - ax * bz)) with (bz * (az * x - ax * z) - az * (bz * x - bx * z)) by ring. rewrite a1, b1. ring. }
    assert (Z3 : z * n3 = 0). { unfold n3. replace (z * (ax * by_ - ay * bx)) with (- by_ * (az * x - ax * z) - bx * (ay * z - az * y) - az * (bx * y - by_ * x)) by ring. rewrite a0, a1, b2. ring. }
    f_equal.
    - replace ((n1 * n1 + n2 * n2 + n3 * n3) * x) with (n1 * (x * n1) + n2 * (x * n2) + n3 * (x * n3)) by ring. rewrite X1, X2, X3. ring.
    - replace ((n1 * n1 + n2 * n2 + n3 * n3) * y) with (n1 * (y * n1) + n2 * (y * n2) + n3 * (y * n3)) by ring. rewrite Y1, Y2, Y3. ring.
    - replace ((n1 * n1 + n2 * n2 + n3 * n3) * z) with (n1 * (z * n1) + n2 * (z * n2) + n3 * (z * n3)) by ring. rewrite Z1, Z2, Z3. ring. }
  unfold vscale, v0 in H0. apply v3_eq; unfold v0; cbn [vx vy vz].
  - apply (f_equal vx) in H0. cbn in H0. apply Rmult_integral in H0. destruct H0; [lra|assumption].
  - apply (f_equal vy) in H0. cbn in H0. apply Rmult_integral in H0. destruct H0; [lra|assumption].
  - apply (f_equal vz) in H0. cbn in H0. apply Rmult_integral in H0. destruct H0; [lra|assumption].
Qed.

(** *** Camera frames *)
Section Frames.
Variables (pos_c : V3) (ang_c : quat) (a0 : AugState).
Hypothesis Uc : qnorm2 ang_c = 1.
Hypothesis U0 : qnorm2 (a_ang a0) = 1.

(** From local vectors to vectors of the first camera. *)
Definition down (v : V3) : V3 := qrot (qinv ang_c) (qrot (qinv (a_ang a0)) v).
Definition up (v : V3) : V3 := qrot (a_ang a0) (qrot ang_c v).
Lemma up_down : forall v, up (down v) = v.
Proof.
  intros v. unfold up, down. rewrite (proj2 (qrot_inv ang_c _ Uc)). apply (proj2 (qrot_inv _ _ U0)).
Qed.
Lemma up_cross : forall v w, up (vcross v w) = vcross (up v) (up w).
Proof. intros. unfold up. rewrite !qrot_cross by assumption. reflexivity. Qed.
Lemma up_norm2 : forall v, vnorm2 (up v) = vnorm2 v.
Proof. intros. unfold up, vnorm2. rewrite !qrot_dot by assumption. reflexivity. Qed.
Lemma up_sub : forall v w, up (vsub v w) = vsub (up v) (up w).
Proof. intros. unfold up. rewrite !qrot_sub. reflexivity. Qed.
Lemma down_scale : forall s v, down (vscale s v) = vscale s (down v).
Proof. intros. unfold down. rewrite !qrot_scale. reflexivity. Qed.
Lemma from_up : forall c, from_camera pos_c ang_c a0 c = vadd (from_camera pos_c ang_c a0 v0) (up c).
Proof.
  intros c. unfold from_camera, up. rewrite !qrot_add, qrot_zero, qrot_zero.
  destruct (a_pos a0), (qrot (a_ang a0) pos_c), (qrot (a_ang a0) (qrot ang_c c)). vcrush. f_equal; ring.
Qed.
Lemma from_onto : forall p, exists c, p = from_camera pos_c ang_c a0 c.
Proof.
  intros p. exists (down (vsub p (from_camera pos_c ang_c a0 v0))). rewrite from_up, up_down.
  destruct p, (from_camera pos_c ang_c a0 v0). vcrush. f_equal; ring.
Qed.
Lemma from_inj : forall c c', from_camera pos_c ang_c a0 c = from_camera pos_c ang_c a0 c' -> c = c'.
Proof.
  intros c c' H. rewrite (from_up c), (from_up c') in H.
  assert (E : up (vsub c c') = v0).
  { rewrite up_sub. destruct (up c) as [x y z], (up c') as [x' y' z'], (from_camera pos_c ang_c a0 v0) as [o1 o2 o3]. vcrush.
    injection H as H1 H2 H3. f_equal; lra. }
  assert (N : vsub c c' = v0) by (apply norm2_zero; rewrite <- up_norm2, E; vcrush; ring).
  destruct c as [x y z], c' as [x' y' z']. vcrush. injection N as N1 N2 N3. apply v3_eq; cbn; lra.
Qed.

(** An observation in the frame of the first camera. *)
Definition local_ray (l : line) : V3 * V3 :=
  (down (vsub (fst l) (from_camera pos_c ang_c a0 v0)), down (vscale (1 / vnorm (snd l)) (snd l))).
Lemma dist_local : forall l c, snd l <> v0 ->
  line_dist2 l (from_camera pos_c ang_c a0 c) = vnorm2 (vcross (snd (local_ray l)) (vsub c (fst (local_ray l)))).
Proof.
  intros [o d] c H. cbn [fst snd local_ray] in *. rewrite dist_cross by exact H.
  rewrite <- (up_norm2 (vcross (down _) _)), up_cross, up_down, up_sub, up_down, from_up.
  assert (P : 0 < vnorm2 d) by (apply norm2_pos, H).
  assert (S : vnorm d * vnorm d = vnorm2 d) by (unfold vnorm; apply sqrt_sqrt; lra).
  assert (Q : 0 < vnorm d) by (unfold vnorm; apply sqrt_lt_R0, P).
  rewrite <- S. set (n := vnorm d) in *. clearbody n. set (t := from_camera pos_c ang_c a0 v0). set (w := up c). clearbody t w.
  destruct o, d, t, w. vcrush. field. lra.
Qed.
Lemma miss_local : forall ls c, Forall (fun l => snd l <> v0) ls ->
  miss ls (from_camera pos_c ang_c a0 c) = cost (map local_ray ls) c.
Proof.
  induction ls as [|l ls IH]; intros c H; [reflexivity|]. inversion H; subst. cbn [miss fold_right map cost].
  fold (miss ls (from_camera pos_c ang_c a0 c)). rewrite dist_local, IH by assumption. reflexivity.
Qed.
Lemma local_spread : forall l1 l2, snd l1 <> v0 -> snd l2 <> v0 -> vcross (snd l1) (snd l2) <> v0 ->
  vcross (snd (local_ray l1)) (snd (local_ray l2)) <> v0.
Proof.
  intros [o1 d1] [o2 d2] H1 H2 H E. cbn [fst snd local_ray] in *. apply H. apply norm2_zero.
  apply (f_equal vnorm2) in E. rewrite <- (up_norm2 (vcross _ _)), up_cross, !up_down in E.
  assert (Q1 : 0 < vnorm d1) by (unfold vnorm; apply sqrt_lt_R0, norm2_pos, H1).
  assert (Q2 : 0 < vnorm d2) by (unfold vnorm; apply sqrt_lt_R0, norm2_pos, H2).
  set (n1 := vnorm d1) in *. set (n2 := vnorm d2) in *. clearbody n1 n2.
  replace (vnorm2 (vcross (vscale (1 / n1) d1) (vscale (1 / n2) d2))) with (vnorm2 (vcross d1 d2) / (n1 * n1 * (n2 * n2))) in E
    by (destruct d1, d2; vcrush; field; split; lra).
  replace (vnorm2 v0) with 0 in E by (vcrush; ring).
  assert (P : 0 < n1 * n1 * (n2 * n2)) by (apply Rmult_lt_0_compat; apply Rmult_lt_0_compat; assumption).
  apply (f_equal (fun x => x * (n1 * n1 * (n2 * n2)))) in E. unfold Rdiv in E. rewrite Rmult_assoc, Rinv_l in E by lra. lra.
Qed.

End Frames.

Lemma view_dir : forall k pos_c ang_c f a, qnorm2 ang_c = 1 -> qnorm2 (a_ang a) = 1 ->
  let x := (kp_x (fp_kp f) - in_width k / 2) / (in_f_x k / in_pixel_size k) in
  let y := (kp_y (fp_kp f) - in_height k / 2) / (in_f_y k / in_pixel_size k) in
  snd (view_line k pos_c ang_c f a) = up ang_c a (mkV3 x y 1).
Proof.
  intros k pos_c ang_c f a Hc Ha x y. unfold view_line. cbn [snd]. fold x y. rewrite from_up.
  destruct (from_camera pos_c ang_c a v0), (up ang_c a (mkV3 x y 1)). vcrush. f_equal; ring.
Qed.
Lemma view_nonzero : forall k pos_c ang_c f a, qnorm2 ang_c = 1 -> qnorm2 (a_ang a) = 1 ->
  snd (view_line k pos_c ang_c f a) <> v0.
Proof.
  intros k pos_c ang_c f a Hc Ha H. rewrite view_dir in H by assumption. apply (f_equal vnorm2) in H.
  rewrite up_norm2 in H by assumption.
  match type of H with context [mkV3 ?a ?b 1] => set (x := a) in *; set (y := b) in *; clearbody x y end. vcrush. nra.
Qed.

Lemma undo_ok : forall k p, has_lens k ->
  undo_pixel k p = OK ((kp_x p - in_width k / 2) / (in_f_x k / in_pixel_size k),
                       (kp_y p - in_height k / 2) / (in_f_y k / in_pixel_size k)).
Proof.
  intros k p [Hx [Hy Hs]].
  assert (D : forall a b, b <> 0 -> rdiv a b = OK (a / b)).
  { intros a b H. unfold rdiv. destruct (Reqb b 0) eqn:E; [|reflexivity]. apply Reqb_spec in E. contradiction. }
  assert (Nx : in_f_x k / in_pixel_size k <> 0) by (unfold Rdiv; apply Rmult_integral_contrapositive_currified; [exact Hx|apply Rinv_neq_0_compat, Hs]).
  assert (Ny : in_f_y k / in_pixel_size k <> 0) by (unfold Rdiv; apply Rmult_integral_contrapositive_currified; [exact Hy|apply Rinv_neq_0_compat, Hs]).
  unfold undo_pixel. rewrite (D _ _ Hs). cbn [bind]. rewrite (D _ _ Hs). cbn [bind]. rewrite (D _ _ Nx). cbn [bind]. rewrite (D _ _ Ny). reflexivity.
Qed.

Lemma rows_value : forall u k pos_c ang_c a0 e, has_lens k -> qnorm2 ang_c = 1 -> qnorm2 (a_ang a0) = 1 ->
  forall fs augs A b,
  Forall2 (fun f a => GetAugState e (mu_id u) (fp_frame f) (fp_time f) = OK (a, e) /\ qnorm2 (a_ang a) = 1) fs augs ->
  exists A' b', tri_rows u k pos_c ang_c a0 e fs A b = OK (A', b', e) /\
    (forall x, mat_vec A' x = vadd (mat_vec A x) (lhs (map (local_ray pos_c ang_c a0) (view_lines k pos_c ang_c fs augs)) x)) /\
    b' = vadd b (rhs (map (local_ray pos_c ang_c a0) (view_lines k pos_c ang_c fs augs))).
Proof.
  intros u k pos_c ang_c a0 e HL Uc U0 fs. induction fs as [|f fs IH]; intros augs A b H.
  - inversion H; subst. exists A, b. cbn. repeat split.
    + intros x. destruct (mat_vec A x). vcrush. f_equal; ring.
    + destruct b. vcrush. f_equal; ring.
  - inversion H as [|? a ? augs' [E Ua] H']; subst. cbn [tri_rows]. rewrite E. cbn [bind]. rewrite undo_ok by exact HL. cbn [bind].
    set (x := (kp_x (fp_kp f) - in_width k / 2) / (in_f_x k / in_pixel_size k)).
    set (y := (kp_y (fp_kp f) - in_height k / 2) / (in_f_y k / in_pixel_size k)).
    assert (N : 0 < vnorm (mkV3 x y 1)) by (unfold vnorm; apply sqrt_lt_R0; vcrush; nra).
    unfold rdiv. destruct (Reqb (vnorm (mkV3 x y 1)) 0) eqn:Z; [apply Reqb_spec in Z; lra|]. clear Z. cbn [bind].
    match goal with |- context [tri_rows _ _ _ _ _ _ _ ?A1 ?b1] => destruct (IH augs' A1 b1 H') as [A' [b' [T [TA Tb]]]] end.
    exists A', b'. split; [exact T|]. cbn [view_lines map]. set (ll := map _ (view_lines k pos_c ang_c fs augs')) in *.
    cbn [lhs rhs fold_right]. 
    set (r := local_ray pos_c ang_c a0 (view_line k pos_c ang_c f a)).
    assert (D : mat_vec (m3mul (m3mul (m3mul (m3tr (qmat ang_c)) (m3tr (qmat (a_ang a0)))) (qmat (a_ang a))) (qmat ang_c))
                  (vscale (1 / vnorm (mkV3 x y 1)) (mkV3 x y 1)) = snd r).
    { unfold r, local_ray. cbn [snd]. rewrite view_dir by assumption. fold x y.
      replace (vnorm (up ang_c a (mkV3 x y 1))) with (vnorm (mkV3 x y 1)) by (unfold vnorm; rewrite up_norm2 by assumption; reflexivity).
      rewrite !m3mul_vec, !m3tr_qmat by assumption. rewrite !qmat_vec by assumption. unfold down, up. rewrite !qrot_scale. reflexivity. }
    assert (C : mat_vec (m3mul (m3tr (qmat ang_c)) (m3tr (qmat (a_ang a0))))
                  (vsub (vadd (mat_vec (qmat (a_ang a)) pos_c) (a_pos a)) (vadd (mat_vec (qmat (a_ang a0)) pos_c) (a_pos a0))) = fst r).
    { unfold r, local_ray, view_line. cbn [fst]. rewrite !m3mul_vec, !m3tr_qmat, !qmat_vec by assumption. unfold down. f_equal. f_equal.
      unfold from_camera. rewrite !qrot_add, !qrot_zero.
      destruct (qrot (a_ang a) pos_c), (qrot (a_ang a0) pos_c), (a_pos a), (a_pos a0). vcrush. f_equal; ring. }
    rewrite D, C in *. split.
    + intros z. rewrite TA, m3add_vec, skew_square. fold (lhs ll z).
      destruct (mat_vec A z), (across (snd r) z), (lhs ll z). vcrush. f_equal; ring.
    + rewrite Tb, skew_square. fold (rhs ll). destruct b, (across (snd r) (fst r)), (rhs ll). vcrush. f_equal; ring.
Qed.

Lemma lines_nonzero : forall k pos_c ang_c fs augs (P : FeaturePoint -> AugState -> Prop), qnorm2 ang_c = 1 ->
  Forall2 (fun f a => P f a /\ qnorm2 (a_ang a) = 1) fs augs ->
  Forall (fun l => snd l <> v0) (view_lines k pos_c ang_c fs augs).
Proof.
  intros k pos_c ang_c fs augs P Uc H. induction H as [|f a fs augs [_ Ua] H IH]; cbn; constructor; auto.
  apply view_nonzero; assumption.
Qed.

Lemma triangulated : forall solve u k pos_c ang_c e t a0 augs, solver solve -> mu_use_true u = false ->
  has_lens k -> qnorm2 ang_c = 1 -> observed_from e (mu_id u) t (a0 :: augs) ->
  spread_out (view_lines k pos_c ang_c (ft_track t) (a0 :: augs)) ->
  exists c, let p := from_camera pos_c ang_c a0 c in
    TriangulateFeature solve u k pos_c ang_c e t = OK (if accepted u c then Some p else None, e) /\
    forall q, q <> p -> miss (view_lines k pos_c ang_c (ft_track t) (a0 :: augs)) p <
                        miss (view_lines k pos_c ang_c (ft_track t) (a0 :: augs)) q.
Proof.
  intros solve u k pos_c ang_c e t a0 augs HS Hu HL Uc HO Sp. unfold observed_from in HO.
  assert (NZ : Forall (fun l => snd l <> v0) (view_lines k pos_c ang_c (ft_track t) (a0 :: augs)))
    by (eapply lines_nonzero; [exact Uc|exact HO]).
  destruct (ft_track t) as [|f fs] eqn:Et; [inversion HO|].
  assert (H1 : GetAugState e (mu_id u) (fp_frame f) (fp_time f) = OK (a0, e) /\ qnorm2 (a_ang a0) = 1) by (inversion HO; assumption).
  destruct H1 as [E0 U0].
  destruct (rows_value u k pos_c ang_c a0 e HL Uc U0 _ _ (mzero 3 3) v0 HO) as [A [b [T [TA Tb]]]].
  set (ls := view_lines k pos_c ang_c (f :: fs) (a0 :: augs)) in *.
  set (rs := map (local_ray pos_c ang_c a0) ls) in *.
  assert (TA' : forall x, mat_vec A x = lhs rs x).
  { intros x. rewrite TA. destruct (lhs rs x), x. unfold mat_vec, mzero. cbn. vcrush. f_equal; ring. }
  assert (Tb' : b = rhs rs) by (rewrite Tb; destruct (rhs rs); vcrush; f_equal; ring).
  assert (PD : posdef A).
  { split.
    - intros x y. rewrite !TA'. apply lhs_sym.
    - intros x Hx. rewrite TA', form_lhs. destruct (form_nonneg rs x) as [|Z]; [assumption|]. symmetry in Z.
      elim Hx. destruct Sp as [l1 [l2 [I1 [I2 N]]]]. rewrite Forall_forall in NZ.
      apply (cross_both (snd (local_ray pos_c ang_c a0 l1)) (snd (local_ray pos_c ang_c a0 l2))).
      + apply local_spread; auto.
      + eapply form_zero; [exact Z|]. apply (in_map (local_ray pos_c ang_c a0)), I1.
      + eapply form_zero; [exact Z|]. apply (in_map (local_ray pos_c ang_c a0)), I2. }
  set (c := solve A b). exists c. cbv zeta. split.
  - unfold TriangulateFeature. rewrite Et. cbn [vnth nth_error bind]. rewrite E0. cbn [bind]. rewrite T. cbn [bind]. rewrite Hu. fold c.
    unfold accepted. 
    assert (G : Rltb (vz c) (mu_min_dist u) || Rltb (mu_max_dist u) (vz c) = negb (Rleb (mu_min_dist u) (vz c) && Rleb (vz c) (mu_max_dist u))).
    { assert (W : forall a b, Rltb a b = negb (Rleb b a)).
      { intros x y. destruct (Rltb x y) eqn:L; destruct (Rleb y x) eqn:M; try reflexivity.
        - apply Rltb_spec in L. apply Rleb_spec in M. lra.
        - apply Rltb_false in L. apply Rleb_spec in L. congruence. }
      rewrite !W. destruct (Rleb (mu_min_dist u) (vz c)), (Rleb (vz c) (mu_max_dist u)); reflexivity. }
    rewrite G. destruct (Rleb (mu_min_dist u) (vz c) && Rleb (vz c) (mu_max_dist u)); cbn [negb]; [|reflexivity].
    do 3 f_equal. unfold from_camera. rewrite qmat_vec by exact U0.
    replace (vadd (qrot ang_c c) pos_c) with (vadd pos_c (qrot ang_c c)) by (destruct (qrot ang_c c), pos_c; vcrush; f_equal; ring).
    destruct (qrot (a_ang a0) (vadd pos_c (qrot ang_c c))), (a_pos a0). vcrush. f_equal; ring.
  - intros q Hq. destruct (from_onto pos_c ang_c a0 Uc U0 q) as [c' ->].
    rewrite !miss_local by assumption. fold rs. rewrite (cost_square rs c c').
    replace (vsub (lhs rs c) (rhs rs)) with v0.
    2:{ rewrite <- TA', <- Tb'. unfold c. rewrite (HS A b PD). destruct b. vcrush. f_equal; ring. }
    assert (D : vsub c' c <> v0).
    { intros Z. apply Hq. f_equal. destruct c as [x y z], c' as [x' y' z']. vcrush. injection Z as Z1 Z2 Z3. apply v3_eq; cbn; lra. }
    pose proof (proj2 PD _ D) as P. rewrite TA', form_lhs in P. 
    replace (vdot (vsub c' c) v0) with 0 by (destruct (vsub c' c); vcrush; ring). lra.
Qed.
