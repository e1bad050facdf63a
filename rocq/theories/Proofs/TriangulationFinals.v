(** Exact observations; the updater as constructed; examples. *)
From Coq Require Import Reals List Arith Bool ZArith Lia Lra.
From Verif Require Import Base.Res Base.Mat Base.RDec Base.RSum Base.LinAlg Base.Inverse Base.Geom Base.AMap Base.RMat
  Model.TypeHelper Model.Types Model.MathHelper Model.Matrix3 Model.Ekf Model.Updater Model.MsckfUpdater
  Spec.Triangulation Proofs.Rotations Proofs.Jacobians Proofs.Triangulation Proofs.Demo.
Import ListNotations.
Open Scope R_scope.

Lemma dist_nonneg : forall l p, 0 <= line_dist2 l p.
Proof. intros. unfold line_dist2. apply norm2_nonneg. Qed.
Lemma miss_nonneg : forall ls p, 0 <= miss ls p.
Proof.
  induction ls as [|l ls IH]; intros p; [apply Rle_refl|]. cbn [miss fold_right]. fold (miss ls p).
  pose proof (dist_nonneg l p). specialize (IH p). lra.
Qed.
Lemma sees_on : forall k pos_c ang_c p f a, has_lens k -> qnorm2 ang_c = 1 -> qnorm2 (a_ang a) = 1 ->
  sees k pos_c ang_c p f a -> line_dist2 (view_line k pos_c ang_c f a) p = 0.
Proof.
  intros k pos_c ang_c p f a [Hx [Hy Hs]] Uc Ua [c [Hc [Hp [Kx Ky]]]].
  pose proof (view_nonzero k pos_c ang_c f a Uc Ua) as NZ.
  destruct (view_line k pos_c ang_c f a) as [o d] eqn:EL. cbn [snd] in NZ. rewrite dist_cross by exact NZ.
  assert (Eo : o = from_camera pos_c ang_c a v0) by (unfold view_line in EL; injection EL as <- _; reflexivity).
  assert (Ed : d = vscale (/ vz c) (up ang_c a c)).
  { pose proof (view_dir k pos_c ang_c f a Uc Ua) as V. cbv zeta in V. rewrite EL in V. cbn [snd] in V. rewrite V.
    rewrite Kx, Ky. unfold up. rewrite <- !qrot_scale. do 2 f_equal. unfold vscale.
    f_equal; field; repeat split; try assumption; lra. }
  rewrite Hp, from_up, <- Eo.
  replace (vcross d (vsub (vadd o (up ang_c a c)) o)) with v0.
  - replace (vnorm2 v0) with 0 by (vcrush; ring). unfold Rdiv. ring.
  - rewrite Ed. destruct o, (up ang_c a c). vcrush. f_equal; ring.
Qed.
Lemma sees_miss : forall k pos_c ang_c p fs augs (P : FeaturePoint -> AugState -> Prop), has_lens k -> qnorm2 ang_c = 1 ->
  Forall2 (fun f a => P f a /\ qnorm2 (a_ang a) = 1) fs augs -> Forall2 (sees k pos_c ang_c p) fs augs ->
  miss (view_lines k pos_c ang_c fs augs) p = 0.
Proof.
  intros k pos_c ang_c p fs augs P HL Uc H. induction H as [|f a fs augs [_ Ua] H IH]; intros S; [reflexivity|].
  inversion S; subst. cbn [view_lines miss fold_right]. fold (miss (view_lines k pos_c ang_c fs augs) p).
  rewrite IH, sees_on by assumption. ring.
Qed.

Lemma exact_track : forall solve u k pos_c ang_c e t a0 augs p, solver solve -> mu_use_true u = false ->
  has_lens k -> qnorm2 ang_c = 1 -> observed_from e (mu_id u) t (a0 :: augs) ->
  spread_out (view_lines k pos_c ang_c (ft_track t) (a0 :: augs)) ->
  Forall2 (sees k pos_c ang_c p) (ft_track t) (a0 :: augs) ->
  exists c, p = from_camera pos_c ang_c a0 c /\
    TriangulateFeature solve u k pos_c ang_c e t = OK (if accepted u c then Some p else None, e).
Proof.
  intros solve u k pos_c ang_c e t a0 augs p HS Hu HL Uc HO Sp HV.
  destruct (triangulated solve u k pos_c ang_c e t a0 augs HS Hu HL Uc HO Sp) as [c [T M]]. cbv zeta in *.
  exists c. assert (E : p = from_camera pos_c ang_c a0 c).
  { assert (Z : miss (view_lines k pos_c ang_c (ft_track t) (a0 :: augs)) p = 0) by (eapply sees_miss; [exact HL|exact Uc|exact HO|exact HV]).
    assert (D : {p = from_camera pos_c ang_c a0 c} + {p <> from_camera pos_c ang_c a0 c}).
    { set (q := from_camera pos_c ang_c a0 c). destruct p as [x y z], q as [x' y' z'].
      destruct (Req_EM_T x x'); [|right; congruence]. destruct (Req_EM_T y y'); [|right; congruence].
      destruct (Req_EM_T z z'); [left; congruence|right; congruence]. }
    destruct D as [|D]; [assumption|]. specialize (M p D). rewrite Z in M.
    pose proof (miss_nonneg (view_lines k pos_c ang_c (ft_track t) (a0 :: augs)) (from_camera pos_c ang_c a0 c)). lra. }
  split; [exact E|]. rewrite T, E. reflexivity.
Qed.

Lemma parallel_blind : forall ls, all_parallel ls -> forall p, exists q, q <> p /\ miss ls q = miss ls p.
Proof.
  intros ls [d [Hd H]] p. exists (vadd p d). split.
  - intros E. apply Hd. destruct p as [x y z], d as [a b c]. vcrush. injection E as E1 E2 E3. f_equal; lra.
  - induction ls as [|[o l] ls IH]; [reflexivity|]. inversion H as [|? ? [N C] H']; subst. cbn [snd] in *. cbn [miss fold_right].
    fold (miss ls (vadd p d)) (miss ls p). rewrite IH by assumption. f_equal. rewrite !dist_cross by assumption. f_equal. f_equal.
    replace (vcross l (vsub (vadd p d) o)) with (vadd (vcross l (vsub p o)) (vcross l d)) by (destruct l, p, d, o; vcrush; f_equal; ring).
    rewrite C. destruct (vcross l (vsub p o)). vcrush. f_equal; ring.
Qed.

Lemma as_built : forall solve id ext min_dist k pos_c ang_c e t augs p, has_lens k -> qnorm2 ang_c = 1 ->
  observed_from e id t augs -> augs <> [] -> ft_true t = Some p ->
  TriangulateFeature solve (msckf_updater_init id ext min_dist) k pos_c ang_c e t = OK (Some p, e).
Proof.
  intros solve id ext min_dist k pos_c ang_c e t augs p HL Uc HO Hn Hp. unfold observed_from in HO.
  destruct augs as [|a0 augs]; [contradiction|]. destruct (ft_track t) as [|f fs] eqn:Et; [inversion HO|].
  assert (H1 : GetAugState e id (fp_frame f) (fp_time f) = OK (a0, e) /\ qnorm2 (a_ang a0) = 1) by (inversion HO; assumption).
  destruct H1 as [E0 U0].
  destruct (rows_value (msckf_updater_init id ext min_dist) k pos_c ang_c a0 e HL Uc U0 _ _ (mzero 3 3) v0 HO) as [A [b [T _]]].
  unfold TriangulateFeature. rewrite Et. cbn [vnth nth_error bind]. cbn [mu_id msckf_updater_init] in *. rewrite E0. cbn [bind].
  rewrite T. cbn [bind mu_use_true]. rewrite Hp. reflexivity.
Qed.

(** *** A solver *)
Definition inv_solve (A : mat R) (b : V3) : V3 := mat_vec (mkmat 3 3 (finv 3 (ent A))) b.
Lemma posdef_spd : forall A, posdef A -> spd 3 (ent A).
Proof.
  intros A [S P]. split.
  - assert (K : forall i j, (i < 3)%nat -> (j < 3)%nat -> exists a b, vdot a (mat_vec A b) = ent A i j /\ vdot (mat_vec A a) b = ent A j i).
    { intros i j Hi Hj.
      exists (mkV3 (if Nat.eqb i 0 then 1 else 0) (if Nat.eqb i 1 then 1 else 0) (if Nat.eqb i 2 then 1 else 0)),
             (mkV3 (if Nat.eqb j 0 then 1 else 0) (if Nat.eqb j 1 then 1 else 0) (if Nat.eqb j 2 then 1 else 0)).
      destruct i as [|[|[|]]]; [| | |lia]; (destruct j as [|[|[|]]]; [| | |lia]); unfold vdot, mat_vec; cbn [Nat.eqb vx vy vz]; split; ring. }
    intros i j Hi Hj. destruct (K i j Hi Hj) as [a [b [E1 E2]]]. rewrite <- E1, <- E2. apply S.
  - intros x [i [Hi Hx]]. specialize (P (mkV3 (x 0%nat) (x 1%nat) (x 2%nat))).
    replace (qf 3 (ent A) x) with (vdot (mkV3 (x 0%nat) (x 1%nat) (x 2%nat)) (mat_vec A (mkV3 (x 0%nat) (x 1%nat) (x 2%nat)))).
    + apply P. intros E. injection E as E0 E1 E2. destruct i as [|[|[|]]]; [contradiction|contradiction|contradiction|lia].
    + rewrite qf_expand. unfold vdot, mat_vec. cbn [rsum vx vy vz]. ring.
Qed.
Lemma inv_solver : solver inv_solve.
Proof.
  intros A b H. apply posdef_spd in H. destruct (inv_spd 3 (ent A) H) as [I _]. unfold inv_solve.
  set (B := finv 3 (ent A)) in *. clearbody B.
  assert (E : forall i j, (i < 3)%nat -> (j < 3)%nat ->
    ent A i 0%nat * B 0%nat j + ent A i 1%nat * B 1%nat j + ent A i 2%nat * B 2%nat j = idm i j).
  { intros i j Hi Hj. rewrite <- (I i j Hi Hj). unfold mm. cbn [rsum]. ring. }
  rewrite <- m3mul_vec. destruct b as [x y z]. unfold mat_vec, m3mul, mm. cbn [ent rsum vx vy vz].
  rewrite !Rplus_0_l. rewrite !E by lia. unfold idm. cbn [Nat.eqb]. f_equal; ring.
Qed.

(** *** Two views of a point two metres ahead *)
Definition tri_a0 : AugState := mkAug 1 0 v0 qid 0 0.
Definition tri_a1 : AugState := mkAug 2 1 (mkV3 1 0 0) qid 0 0.
Definition tri_k : Intrinsics := mkIntrinsics 1 1 0 0 0 0 640 480 1.
Definition tri_track (p : option V3) : FeatureTrack :=
  mkFT [mkFP 1 0 (mkKP 320 240 7); mkFP 2 1 (mkKP (320 - / 2) 240 7)] p.
Definition tri_u (use_true : bool) (far : R) : msckf_updater := mkMU 2 true false None 1 far use_true.
Definition tri_e : ekf := with_state (demo0 AAll false) (state_with_aug (e_state (demo0 AAll false)) [(2%nat, [tri_a0; tri_a1])]).

Lemma tri_observed : forall p, observed_from tri_e 2 (tri_track p) [tri_a0; tri_a1].
Proof.
  intros p. unfold observed_from, tri_track. cbn [ft_track].
  repeat constructor; try (unfold qnorm2, tri_a0, tri_a1, qid; cbn; ring).
Qed.
Lemma turn_id : forall v, qrot qid v = v.
Proof. intros [x y z]. unfold qrot, qvec, qid. vcrush. cbn [qw qx qy qz]. f_equal; ring. Qed.
Lemma from0 : forall c, from_camera v0 qid tri_a0 c = c.
Proof. intros [x y z]. unfold from_camera, tri_a0. cbn [a_pos a_ang]. rewrite !turn_id. vcrush. f_equal; ring. Qed.
Lemma from1 : forall c, from_camera v0 qid tri_a1 c = vadd (mkV3 1 0 0) c.
Proof. intros [x y z]. unfold from_camera, tri_a1. cbn [a_pos a_ang]. rewrite !turn_id. vcrush. f_equal; ring. Qed.
Lemma tri_spread : forall p, spread_out (view_lines tri_k v0 qid (ft_track (tri_track p)) [tri_a0; tri_a1]).
Proof.
  intros p. eexists. eexists. cbn [tri_track ft_track view_lines]. split; [left; reflexivity|]. split; [right; left; reflexivity|].
  rewrite !view_dir by (unfold qnorm2, tri_a0, tri_a1, qid; cbn; ring). intros E. apply (f_equal vy) in E.
  unfold up in E. cbn [a_ang tri_a0 tri_a1] in E. rewrite !turn_id in E. unfold tri_k, vcross, v0 in E.
  cbn [vx vy vz qw qx qy qz a_pos a_ang in_f_x in_f_y in_width in_height in_pixel_size kp_x kp_y fp_kp] in E. field_simplify in E; lra.
Qed.
Lemma tri_lens : has_lens tri_k.
Proof. unfold has_lens, tri_k. cbn [in_f_x in_f_y in_pixel_size]. repeat split; apply R1_neq_R0. Qed.
Lemma tri_sees : forall p, Forall2 (sees tri_k v0 qid (mkV3 0 0 2)) (ft_track (tri_track p)) [tri_a0; tri_a1].
Proof.
  intros p. constructor; [|constructor; [|constructor]].
  - exists (mkV3 0 0 2). rewrite from0. unfold tri_k. cbn [vx vy vz qw qx qy qz a_pos a_ang in_f_x in_f_y in_width in_height in_pixel_size kp_x kp_y fp_kp].
    split; [lra|]. split; [f_equal; ring|]. split; field.
  - exists (mkV3 (-1) 0 2). rewrite from1. unfold tri_k, vadd. cbn [vx vy vz qw qx qy qz a_pos a_ang in_f_x in_f_y in_width in_height in_pixel_size kp_x kp_y fp_kp].
    split; [lra|]. split; [f_equal; ring|]. split; field.
Qed.
Lemma qid_unit : qnorm2 qid = 1.
Proof. unfold qnorm2, qid. cbn. ring. Qed.
Lemma tri_found : forall far p, TriangulateFeature inv_solve (tri_u false far) tri_k v0 qid tri_e (tri_track p) =
  OK (if Rleb 2 far then Some (mkV3 0 0 2) else None, tri_e).
Proof.
  intros far p.
  destruct (exact_track inv_solve (tri_u false far) tri_k v0 qid tri_e (tri_track p) tri_a0 [tri_a1] (mkV3 0 0 2)
    inv_solver eq_refl tri_lens qid_unit (tri_observed p) (tri_spread p) (tri_sees p)) as [c [E T]].
  rewrite T. 
  assert (Z : vz c = 2).
  { rewrite from0 in E. rewrite <- E. reflexivity. }
  unfold accepted, tri_u. cbn [mu_min_dist mu_max_dist]. rewrite Z.
  replace (Rleb 1 2) with true by (symmetry; apply Rleb_spec; lra). reflexivity.
Qed.
