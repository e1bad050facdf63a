(** Self-alignment of the GPS reference. *)
From Coq Require Import Reals List Arith Bool Lia Lra ZArith.
From Verif Require Import Base.Res Base.Mat Base.RDec Base.Geom Base.AMap Base.RMat
  Model.TypeHelper Model.Types Model.MathHelper Model.Matrix3 Model.GpsHelper Model.Ekf Model.GpsUpdater
  Spec.Points Spec.Svd Spec.Earth Spec.SelfAlign Proofs.Align Proofs.Svd2 Proofs.GpsFrames Proofs.Matches
  Model.Geodetic Spec.Geodesy Proofs.GeodesyFinals.
Import ListNotations.
Open Scope R_scope.

Lemma mapM_f2 : forall A B (f : A -> res B) l m, Forall2 (fun x y => f x = OK y) l m -> mapM f l = OK m.
Proof. intros A B f l m H. induction H; cbn [mapM]; [reflexivity|]. rewrite H, IHForall2. reflexivity. Qed.
Lemma f2_len : forall A B (P : A -> B -> Prop) l m, Forall2 P l m -> length l = length m.
Proof. intros A B P l m H. induction H; cbn; congruence. Qed.

Lemma ok_inj : forall A (x y : A), OK x = OK y -> x = y.
Proof. intros A x y H. now inversion H. Qed.

Section Sa.
Variable svd : m2 -> m2 * m2.
Variable hull : list (Z * Z) -> list (Z * Z).
Variable ecef_to_lla : V3 -> V3.
Hypothesis SVD : forall M, let '(U, V) := svd M in svd_of M U V.

Lemma fits_align : forall p yaw t xyz ecef ref enu, fits ecef_to_lla yaw t xyz ecef ref enu ->
  exists T, af_tr T = t /\ af_lin T = lift_rot (m2rot yaw) /\
  gps_align svd hull ecef_to_lla p xyz ecef =
    match p_gps_init p with
    | GBaseline => if Rltb (p_gps_baseline p) (maximum_distance hull enu) then
        let* q := enu_to_lla ecef_to_lla (vopp t) ref in let* a := affine_angle T in OK (Some (q, a)) else OK None
    | _ => OK None
    end.
Proof.
  intros p yaw t xyz ecef ref enu (H1 & H2 & H3 & H4 & H5).
  destruct (kabsch_recovers svd yaw t enu H5 H4 SVD) as [T [K1 [_ [K2 K3]]]]. exists T. split; [exact K2|]. split; [exact K3|].
  unfold gps_align. rewrite average_ok by (intros ->; apply f2_len in H2; cbn in H2; lia). cbn [bind]. rewrite <- H1.
  rewrite (mapM_f2 _ _ _ _ _ H2). cbn [bind]. rewrite H3, K1. cbn [bind].
  destruct (p_gps_init p); cbn [bind].
  - reflexivity.
  - destruct (Rltb (p_gps_baseline p) (maximum_distance hull enu)); cbn [bind]; [|reflexivity]. rewrite K2. reflexivity.
  - destruct (Rltb 0 (p_gps_pos_thresh p)); cbn [bind]; [|reflexivity].
    replace (Reqb 0 0) with true by (symmetry; apply Reqb_spec; reflexivity). reflexivity.
Qed.

(** *** One more fix *)
Lemma attempt_value : forall e time lla c r, lla_to_ecef lla = OK c -> (3 <= length (e_gps_time e))%nat ->
  gps_align svd hull ecef_to_lla (e_par e) (e_gps_xyz e ++ [b_pos (s_body (e_state e))]) (e_gps_ecef e ++ [c]) = OK r ->
  let e1 := with_gps_samples e (e_gps_time e ++ [time]) (e_gps_ecef e ++ [c]) (e_gps_xyz e ++ [b_pos (s_body (e_state e))]) in
  AttemptGps svd hull ecef_to_lla e time lla = OK (match r with Some (p, a) => SetGpsReference e1 p a | None => e1 end).
Proof.
  intros e time lla c r C L A e1. unfold AttemptGps. rewrite C. cbn [bind].
  assert (L4 : Nat.leb 4 (length (e_gps_time e ++ [time])) = true) by (apply Nat.leb_le; rewrite app_length; cbn; lia).
  rewrite L4, A. cbn [bind]. unfold AttemptGpsInitialization. cbn [e_gps_time with_gps_samples]. rewrite L4. reflexivity.
Qed.
Lemma attempt_short : forall e time lla c, lla_to_ecef lla = OK c -> (length (e_gps_time e) < 3)%nat ->
  AttemptGps svd hull ecef_to_lla e time lla =
    OK (with_gps_samples e (e_gps_time e ++ [time]) (e_gps_ecef e ++ [c]) (e_gps_xyz e ++ [b_pos (s_body (e_state e))])).
Proof.
  intros e time lla c C L. unfold AttemptGps. rewrite C. cbn [bind].
  assert (L4 : Nat.leb 4 (length (e_gps_time e ++ [time])) = false) by (apply Nat.leb_gt; rewrite app_length; cbn; lia).
  rewrite L4. cbn [bind]. unfold AttemptGpsInitialization. cbn [e_gps_time with_gps_samples]. rewrite L4. reflexivity.
Qed.
Lemma fits_long : forall e c yaw t xyz ref enu, fits ecef_to_lla yaw t xyz (e_gps_ecef e ++ [c]) ref enu ->
  length (e_gps_time e) = length (e_gps_ecef e) -> (3 <= length (e_gps_time e))%nat.
Proof. intros e c yaw t xyz ref enu (_ & H & _ & _ & L) E. apply f2_len in H. rewrite app_length in H. cbn in H. lia. Qed.

(** Fixes that fit never pass the error threshold. *)
Lemma threshold_never : forall e time lla c yaw t ref enu, p_gps_init (e_par e) = GError -> lla_to_ecef lla = OK c ->
  length (e_gps_time e) = length (e_gps_ecef e) ->
  fits ecef_to_lla yaw t (e_gps_xyz e ++ [b_pos (s_body (e_state e))]) (e_gps_ecef e ++ [c]) ref enu ->
  exists e', AttemptGps svd hull ecef_to_lla e time lla = OK e' /\ e_lla_init e' = e_lla_init e /\
    e_pos_e_in_g e' = e_pos_e_in_g e /\ e_ang_l_to_e e' = e_ang_l_to_e e.
Proof.
  intros e time lla c yaw t ref enu G C L F. destruct (fits_align (e_par e) _ _ _ _ _ _ F) as [T [_ [_ A]]]. rewrite G in A.
  eexists. split; [apply (attempt_value e time lla c None C (fits_long _ _ _ _ _ _ _ F L) A)|]. cbn. auto.
Qed.

(** The baseline criterion: what is set. *)
Lemma baseline_sets : forall e time lla c yaw t ref enu, p_gps_init (e_par e) = GBaseline -> lla_to_ecef lla = OK c ->
  length (e_gps_time e) = length (e_gps_ecef e) ->
  fits ecef_to_lla yaw t (e_gps_xyz e ++ [b_pos (s_body (e_state e))]) (e_gps_ecef e ++ [c]) ref enu ->
  p_gps_baseline (e_par e) < maximum_distance hull enu -> - PI <= yaw <= PI ->
  exists e' q, AttemptGps svd hull ecef_to_lla e time lla = OK e' /\ enu_to_ecef (vopp t) ref = OK q /\
    e_lla_init e' = true /\ e_pos_e_in_g e' = ecef_to_lla q /\ e_ang_l_to_e e' = Rabs yaw.
Proof.
  intros e time lla c yaw t ref enu G C L F B Y. destruct (fits_align (e_par e) _ _ _ _ _ _ F) as [T [T1 [T2 A]]].
  rewrite G in A. rewrite (proj2 (Rltb_spec _ _) B) in A.
  assert (Q : exists q, enu_to_ecef (vopp t) ref = OK q).
  { destruct F as (_ & F & _ & _ & L4). destruct F as [|p q' ? ? P]; [cbn in L4; lia|]. unfold ecef_to_enu in P.
    destruct (lla_to_ecef ref) as [r|] eqn:R; [|discriminate P]. unfold enu_to_ecef. rewrite R. cbn [bind]. eauto. }
  destruct Q as [q Q]. unfold enu_to_lla in A. rewrite Q in A. cbn [bind] in A.
  assert (H : affine_angle T = OK (Rabs yaw)).
  { destruct (heading yaw T T2) as [H1 H2]. destruct (Rle_lt_dec 0 yaw) as [P|P].
    - rewrite Rabs_right by lra. apply H1. lra.
    - rewrite Rabs_left by lra. apply H2. lra. }
  rewrite H in A. cbn [bind] in A.
  exists (SetGpsReference (with_gps_samples e (e_gps_time e ++ [time]) (e_gps_ecef e ++ [c]) (e_gps_xyz e ++ [b_pos (s_body (e_state e))])) (ecef_to_lla q) (Rabs yaw)), q.
  split; [apply (attempt_value e time lla c (Some (ecef_to_lla q, Rabs yaw)) C (fits_long _ _ _ _ _ _ _ F L) A)|]. cbn. auto.
Qed.

(** The point the filter takes for its origin, and where the fit has it. *)
Lemma reference_fitted : forall yaw t ref q, enu_to_ecef (vopp t) ref = OK q -> lla_to_ecef (ecef_to_lla q) = OK q ->
  (forall heading, placed_at (ecef_to_lla q) heading q v0) /\
  exists enu, ecef_to_enu q ref = OK enu /\ (rigid yaw t enu = v0 <-> yawed yaw t = t).
Proof.
  intros yaw t ref q Q E. split.
  - intros h. exists v0. split; [|unfold enu_to_local, v0; cbn; f_equal; ring].
    unfold ecef_to_enu. rewrite E. cbn [bind]. f_equal. unfold mat_vec, vsub, v0. cbn [vx vy vz]. f_equal; ring.
  - exists (vopp t). split; [apply ecef_enu_roundtrip; exact Q|]. destruct t as [x y z]. unfold rigid, yawed, vadd, vopp, v0. cbn [vx vy vz].
    split; intros H; [injection H as H1 H2 H3|injection H as H1 H2]; f_equal; lra.
Qed.

(** Only up or down: every sample is where it should be. *)
Lemma vertical_placed : forall yaw h xyz ecef ref enu q, fits ecef_to_lla yaw (mkV3 0 0 h) xyz ecef ref enu ->
  enu_to_ecef (vopp (mkV3 0 0 h)) ref = OK q ->
  (forall p, vx p = vx ref -> vy p = vy ref -> lla_to_ecef p = OK q -> ecef_to_lla q = p) ->
  Forall2 (placed_at (ecef_to_lla q) yaw) ecef xyz.
Proof.
  intros yaw h xyz ecef ref enu q (_ & F & -> & _) Q I.
  assert (G : on_globe ref). { unfold enu_to_ecef in Q. destruct (lla_to_ecef ref) eqn:R; [|discriminate]. eapply lla_range; eauto. }
  set (ref' := mkV3 (vx ref) (vy ref) (vz ref - h)).
  assert (G' : on_globe ref') by exact G.
  destruct (lla_ok ref' G') as [q' Q']. destruct (lla_ok ref G) as [r R].
  assert (X : q' = q).
  { pose proof (vertical ref' ref G eq_refl eq_refl) as V. unfold lla_to_enu in V. rewrite Q' in V. cbn [bind] in V.
    apply enu_ecef_roundtrip in V. assert (V' : mkV3 0 0 (vz ref' - vz ref) = vopp (mkV3 0 0 h)) by (unfold ref', vopp; cbn; f_equal; ring).
    rewrite V' in V. congruence. }
  subst q'. rewrite (I ref' eq_refl eq_refl Q').
  pose proof (vertical ref ref' G' eq_refl eq_refl) as V. unfold lla_to_enu in V. rewrite R in V. cbn [bind] in V.
  induction F as [|p e1 ecef enu P F IH]; cbn [map]; constructor; [|exact IH].
  unfold ecef_to_enu in P, V. rewrite R in P. rewrite Q' in V. cbn [bind] in P, V. apply ok_inj in P, V.
  exists (vadd e1 (mkV3 0 0 h)). split.
  - unfold ecef_to_enu. rewrite Q'. cbn [bind]. f_equal. change (enu_rot ref') with (enu_rot ref) in *. rewrite <- P.
    assert (W : mkV3 0 0 h = mat_vec (enu_rot ref) (vsub r q)).
    { rewrite V. unfold ref'. cbn [vz]. f_equal. ring. }
    rewrite W. unfold mat_vec, vsub, vadd. cbn [vx vy vz]. f_equal; ring.
  - destruct e1 as [x y z]. unfold rigid, yawed, enu_to_local, vadd. cbn [vx vy vz]. f_equal; ring.
Qed.
End Sa.

(** *** Standing still at the origin *)
Lemma mean_const : forall A (l : list A) c, l <> [] -> mean (map (fun _ => c) l) = c.
Proof.
  intros A l c H. assert (N : INR (length l) <> 0) by (apply not_0_INR; destruct l; [congruence|discriminate]).
  assert (T : forall f : V3 -> R, total (map f (map (fun _ => c) l)) = INR (length l) * f c).
  { intros f. clear H N. induction l as [|x l IH]; [cbn; ring|]. cbn [map total fold_right length]. fold (total (map f (map (fun _ : A => c) l))).
    rewrite IH, S_INR. ring. }
  unfold mean, mean_of. rewrite !T, !map_length. destruct c. cbn. f_equal; field; exact N.
Qed.
Lemma standing : forall svd hull ecef_to_lla e time lla c, p_gps_init (e_par e) = GError -> 0 < p_gps_pos_thresh (e_par e) ->
  lla_to_ecef lla = OK c -> lla_to_ecef (ecef_to_lla c) = OK c -> (3 <= length (e_gps_time e))%nat ->
  length (e_gps_ecef e) = length (e_gps_time e) -> length (e_gps_xyz e) = length (e_gps_time e) ->
  Forall (fun p => p = c) (e_gps_ecef e) -> Forall (fun x => x = v0) (e_gps_xyz e) -> b_pos (s_body (e_state e)) = v0 ->
  AttemptGps svd hull ecef_to_lla e time lla = UB.
Proof.
  intros svd hull ecef e time lla c G TH C RT L L1 L2 F1 F2 B. unfold AttemptGps. rewrite C. cbn [bind].
  assert (L4 : Nat.leb 4 (length (e_gps_time e ++ [time])) = true) by (apply Nat.leb_le; rewrite app_length; cbn; lia).
  rewrite L4. rewrite B.
  set (n := e_gps_time e ++ [time]) in *.
  assert (Ln : length n = S (length (e_gps_time e))) by (unfold n; rewrite app_length; cbn; lia).
  assert (CE : forall A (d : A) (l : list A) k, Forall (fun x => x = d) l -> length l = length k -> l ++ [d] = map (fun _ : R => d) (k ++ [time])).
  { intros A d l k FF LL. revert k LL. induction FF as [|x l X FF IH]; intros [|y k] LL; try discriminate LL; [reflexivity|].
    cbn [app map]. rewrite X. f_equal. apply IH. now injection LL. }
  rewrite (CE V3 c _ (e_gps_time e) F1 L1), (CE V3 v0 _ (e_gps_time e) F2 L2). fold n.
  assert (N0 : n <> []) by (intros Z; rewrite Z in Ln; discriminate).
  unfold gps_align. rewrite average_ok by (destruct n; [congruence|discriminate]). cbn [bind]. rewrite mean_const by exact N0.
  assert (M : mapM (fun x => ecef_to_enu x (ecef c)) (map (fun _ => c) n) = OK (map (fun _ => v0) n)).
  { apply mapM_f2. clear - RT. induction n; cbn [map]; constructor; auto. unfold ecef_to_enu. rewrite RT. cbn [bind]. f_equal.
    unfold mat_vec, vsub, v0. cbn [vx vy vz]. f_equal; ring. }
  rewrite M. cbn [bind].
  assert (K : exists T, kabsch_2d svd (map (fun _ => v0) n) (map (fun _ => v0) n) = OK (Some (T, 0, None))).
  { unfold kabsch_2d. rewrite Nat.eqb_refl. cbn [negb orb]. rewrite !map_length.
    rewrite (proj2 (Nat.ltb_ge (length n) 4)) by lia.
    rewrite average_ok by (destruct n; [congruence|discriminate]). cbn [bind]. rewrite mean_const by exact N0.
    destruct (svd _) as [U V]. set (M3 := lift_rot _).
    assert (Z : mat_vec M3 v0 = v0) by (unfold mat_vec, v0; cbn [vx vy vz]; f_equal; ring).
    rewrite Z. assert (Z2 : vsub v0 v0 = v0) by (unfold vsub, v0; cbn; f_equal; ring). rewrite Z2.
    assert (CB : combine (map (fun _ : R => v0) n) (map (fun _ => v0) n) = map (fun _ => (v0, v0)) n) by (clear; induction n; cbn; congruence).
    rewrite CB.
    assert (E : map (fun p => vsub (fst p) (aff_apply (mkAff M3 v0) (snd p))) (map (fun _ : R => (v0, v0)) n) = map (fun _ => v0) n).
    { rewrite map_map. apply map_ext. intros _. cbn [fst snd]. unfold aff_apply. cbn [af_lin af_tr]. rewrite Z.
      unfold vsub, vadd, v0. cbn. f_equal; ring. }
    rewrite E, stddev_const0 by exact N0. cbn [bind].
    assert (FL : filter (fun p => Rltb (vnorm (vsub (fst p) (aff_apply (mkAff M3 v0) (snd p)))) (vnorm (vsub (fst p) v0))) (map (fun _ : R => (v0, v0)) n) = []).
    { clear - Z Z2. induction n; cbn [map filter]; [reflexivity|]. cbn [fst snd]. rewrite Z2, vnorm_v0.
      destruct (Rltb _ 0) eqn:X; [|exact IHn]. apply Rltb_spec in X.
      assert (0 <= vnorm (vsub v0 (aff_apply (mkAff M3 v0) v0))) by (unfold vnorm; apply sqrt_pos). lra. }
    rewrite FL. cbn [length INR]. replace (Reqb 0 0) with true by (symmetry; apply Reqb_spec; reflexivity). eauto. }
  destruct K as [T K]. rewrite K. cbn [bind]. rewrite G, (proj2 (Rltb_spec _ _) TH). reflexivity.
Qed.

(** *** The baseline is measured between whole metres *)
Lemma trunc_side : forall x, (x < 0 -> x <= IZR (trunc x) < x + 1 /\ IZR (trunc x) <= 0) /\ (0 <= x -> IZR (trunc x) <= x < IZR (trunc x) + 1 /\ 0 <= IZR (trunc x)).
Proof.
  intros x. unfold trunc. split; intros H.
  - rewrite (proj2 (Rltb_spec _ _) H). pose proof (Int_part_bounds (- x)) as [A B]. rewrite opp_IZR.
    split; [lra|]. assert (-1 < IZR (Int_part (- x))) by lra. apply lt_IZR in H0. assert (Z : (0 <= Int_part (- x))%Z) by lia. apply IZR_le in Z. lra.
  - rewrite Rltb_ff by lra. pose proof (Int_part_bounds x) as [A B]. split; [lra|].
    assert (-1 < IZR (Int_part x)) by lra. apply lt_IZR in H0. assert (Z : (0 <= Int_part x)%Z) by lia. apply IZR_le in Z. lra.
Qed.
Lemma trunc_diff : forall x y, Rabs (IZR (trunc x) - IZR (trunc y)) < Rabs (x - y) + 1 /\ Rabs (x - y) < Rabs (IZR (trunc x) - IZR (trunc y)) + 2.
Proof.
  intros x y. destruct (trunc_side x) as [X1 X2]. destruct (trunc_side y) as [Y1 Y2].
  destruct (Rlt_le_dec x 0) as [X|X]; [specialize (X1 X); clear X2|specialize (X2 X); clear X1];
  (destruct (Rlt_le_dec y 0) as [Y|Y]; [specialize (Y1 Y); clear Y2|specialize (Y2 Y); clear Y1]);
  unfold Rabs; destruct (Rcase_abs (x - y)); destruct (Rcase_abs (IZR (trunc x) - IZR (trunc y))); lra.
Qed.
Lemma norm_le : forall a b c d k, 0 <= k -> Rabs a < Rabs c + k -> Rabs b < Rabs d + k -> sqrt (a ^ 2 + b ^ 2) < sqrt (c ^ 2 + d ^ 2) + k * sqrt 2.
Proof.
  intros a b c d k K A B.
  apply Rlt_le_trans with (sqrt ((Rabs c + k) ^ 2 + (Rabs d + k) ^ 2)).
  - apply sqrt_lt_1_alt. pose proof (Rabs_pos a). pose proof (Rabs_pos b). rewrite <- (pow2_abs a), <- (pow2_abs b). split; nra.
  - pose proof (triangle (Rabs c + k) (Rabs d + k) 0 0 k k) as T. unfold dist_euc, Rsqr in T.
    replace (sqrt (c ^ 2 + d ^ 2)) with (sqrt ((Rabs c + k - k) * (Rabs c + k - k) + (Rabs d + k - k) * (Rabs d + k - k))).
    2:{ f_equal. rewrite <- (pow2_abs c), <- (pow2_abs d). ring. }
    replace (k * sqrt 2) with (sqrt ((k - 0) * (k - 0) + (k - 0) * (k - 0))).
    2:{ replace ((k - 0) * (k - 0) + (k - 0) * (k - 0)) with ((k * k) * 2) by ring. rewrite sqrt_mult_alt by nra. rewrite sqrt_square by exact K. reflexivity. }
    eapply Rle_trans; [|exact T]. right. f_equal. ring.
Qed.
Lemma fold_max : forall l a, a <= fold_left Rmax l a /\ (forall x, In x l -> x <= fold_left Rmax l a) /\ (fold_left Rmax l a = a \/ In (fold_left Rmax l a) l).
Proof.
  induction l as [|y l IH]; intros a; cbn [fold_left]; [split; [lra|split; [intros x []|auto]]|].
  destruct (IH (Rmax a y)) as [I1 [I2 I3]]. pose proof (Rmax_l a y). pose proof (Rmax_r a y). split; [lra|]. split.
  - intros x [<-|Hx]; [lra|auto].
  - destruct I3 as [I3|I3]; [|right; right; exact I3]. rewrite I3. unfold Rmax. destruct (Rle_dec a y); [right; left; reflexivity|auto].
Qed.
Lemma pix_dist_sq : forall a b, pix_dist a b = sqrt (IZR (sq_dist a b)).
Proof. intros a b. unfold pix_dist, sq_dist. cbv zeta. f_equal. rewrite plus_IZR, !Z.pow_2_r, !mult_IZR. reflexivity. Qed.
Lemma pix_near : forall a b, pix_dist (pix a) (pix b) < horizontal a b + sqrt 2 /\ horizontal a b < pix_dist (pix a) (pix b) + 2 * sqrt 2.
Proof.
  intros a b. unfold pix_dist, horizontal, pix. cbv zeta. cbn [fst snd]. rewrite !minus_IZR.
  destruct (trunc_diff (vx a) (vx b)) as [X1 X2]. destruct (trunc_diff (vy a) (vy b)) as [Y1 Y2]. split.
  - rewrite <- (Rmult_1_l (sqrt 2)). eapply Rle_lt_trans; [|apply (norm_le _ _ _ _ 1 ltac:(lra) X1 Y1)]. right. f_equal. ring.
  - eapply Rlt_le_trans; [apply (norm_le _ _ _ _ 2 ltac:(lra) X2 Y2)|]. right. do 2 f_equal. ring.
Qed.
Lemma extent : forall hull pts, keeps_extent hull -> pts <> [] ->
  (forall a b, In a pts -> In b pts -> horizontal a b < maximum_distance hull pts + 2 * sqrt 2) /\
  exists a b, In a pts /\ In b pts /\ maximum_distance hull pts < horizontal a b + sqrt 2.
Proof.
  intros hull pts H N. destruct (H (map pix pts)) as [I K]. unfold maximum_distance. cbv zeta. set (h := hull (map pix pts)) in *.
  destruct (fold_max (flat_map (fun a => map (pix_dist a) h) h) 0) as [_ [F2 F3]]. set (m := fold_left _ _ _) in *. split.
  - intros a b A B. destruct (K (pix a) (pix b)) as [a' [b' (A' & B' & D)]]; [now apply in_map|now apply in_map|].
    destruct (pix_near a b) as [_ P]. apply IZR_le in D.
    assert (D' : pix_dist (pix a) (pix b) <= pix_dist a' b') by (rewrite !pix_dist_sq; apply sqrt_le_1_alt; exact D).
    assert (M : pix_dist a' b' <= m). { apply F2. apply in_flat_map. exists a'. split; [exact A'|]. apply in_map. exact B'. }
    lra.
  - destruct F3 as [F3|F3].
    + destruct pts as [|a pts]; [congruence|]. exists a, a. split; [left; reflexivity|]. split; [left; reflexivity|]. rewrite F3.
      assert (0 <= horizontal a a) by apply sqrt_pos. assert (0 < sqrt 2) by (apply sqrt_lt_R0; lra). lra.
    + apply in_flat_map in F3. destruct F3 as [a' [A' F3]]. apply in_map_iff in F3. destruct F3 as [b' [F3 B']].
      apply I in A'. apply I in B'. apply in_map_iff in A'. destruct A' as [a [<- A]]. apply in_map_iff in B'. destruct B' as [b [<- B]].
      exists a, b. split; [exact A|]. split; [exact B|]. rewrite <- F3. apply pix_near.
Qed.

Section Bl.
Variable svd : m2 -> m2 * m2.
Variable hull : list (Z * Z) -> list (Z * Z).
Variable ecef_to_lla : V3 -> V3.
Hypothesis SVD : forall M, let '(U, V) := svd M in svd_of M U V.
Hypothesis HULL : keeps_extent hull.
Lemma far_sets : forall e time lla c yaw t ref enu a b, p_gps_init (e_par e) = GBaseline -> lla_to_ecef lla = OK c ->
  length (e_gps_time e) = length (e_gps_ecef e) ->
  fits ecef_to_lla yaw t (e_gps_xyz e ++ [b_pos (s_body (e_state e))]) (e_gps_ecef e ++ [c]) ref enu ->
  In a enu -> In b enu -> p_gps_baseline (e_par e) + 2 * sqrt 2 <= horizontal a b -> - PI <= yaw <= PI ->
  exists e' q, AttemptGps svd hull ecef_to_lla e time lla = OK e' /\ enu_to_ecef (vopp t) ref = OK q /\
    e_lla_init e' = true /\ e_pos_e_in_g e' = ecef_to_lla q /\ e_ang_l_to_e e' = Rabs yaw.
Proof.
  intros e time lla c yaw t ref enu a b G C L F A B D Y. apply (baseline_sets svd hull ecef_to_lla SVD e time lla c yaw t ref enu G C L F); [|exact Y].
  assert (N : enu <> []) by (intros ->; destruct A). pose proof (proj1 (extent hull enu HULL N) a b A B). lra.
Qed.
Lemma close_waits : forall e time lla c yaw t ref enu, p_gps_init (e_par e) = GBaseline -> lla_to_ecef lla = OK c ->
  length (e_gps_time e) = length (e_gps_ecef e) ->
  fits ecef_to_lla yaw t (e_gps_xyz e ++ [b_pos (s_body (e_state e))]) (e_gps_ecef e ++ [c]) ref enu ->
  (forall a b, In a enu -> In b enu -> horizontal a b + sqrt 2 <= p_gps_baseline (e_par e)) ->
  exists e', AttemptGps svd hull ecef_to_lla e time lla = OK e' /\ e_lla_init e' = e_lla_init e /\
    e_pos_e_in_g e' = e_pos_e_in_g e /\ e_ang_l_to_e e' = e_ang_l_to_e e.
Proof.
  intros e time lla c yaw t ref enu G C L F D. destruct (fits_align svd hull ecef_to_lla SVD (e_par e) _ _ _ _ _ _ F) as [T [_ [_ A]]]. rewrite G in A.
  assert (N : enu <> []) by (intros ->; destruct F as (_ & _ & _ & _ & Z); cbn in Z; lia).
  destruct (extent hull enu HULL N) as [_ [a [b (Ia & Ib & M)]]]. rewrite Rltb_ff in A by (specialize (D a b Ia Ib); lra).
  eexists. split; [apply (attempt_value svd hull ecef_to_lla e time lla c None C (fits_long _ _ _ _ _ _ _ _ F L) A)|]. cbn. auto.
Qed.
End Bl.
Lemma id_extent : keeps_extent (fun l => l).
Proof. intros l. split; [apply incl_refl|]. intros a b A B. exists a, b. split; [exact A|]. split; [exact B|]. lia. Qed.

(** *** A drive along the equator *)
Definition eq_lla (p : V3) : V3 := mkV3 0 (atan (vy p / vx p) / g_deg_to_rad) (sqrt (vx p * vx p + vy p * vy p) - g_wgs84_a).
Lemma d2r_pos : 0 < g_deg_to_rad.
Proof. unfold g_deg_to_rad. pose proof PI_RGT_0. lra. Qed.
Lemma eq_lon : forall p, vy (eq_lla p) * g_deg_to_rad = atan (vy p / vx p).
Proof. intros p. cbn [eq_lla vy]. field. apply Rgt_not_eq. exact d2r_pos. Qed.
Lemma eq_globe : forall p, on_globe (eq_lla p).
Proof.
  intros p. split; [cbn; lra|]. pose proof (eq_lon p) as E. pose proof d2r_pos as D. pose proof (atan_bound (vy p / vx p)) as [A1 A2].
  assert (H : 90 * g_deg_to_rad = PI / 2) by (unfold g_deg_to_rad; field). split.
  - apply (Rmult_le_reg_r g_deg_to_rad); [exact D|]. rewrite E. lra.
  - apply (Rmult_le_reg_r g_deg_to_rad); [exact D|]. rewrite E. lra.
Qed.
Lemma eq_right : forall p, vz p = 0 -> 0 < vx p -> lla_to_ecef (eq_lla p) = OK p.
Proof.
  intros p Z X. rewrite (lla_value _ (eq_globe p)). rewrite eq_lon.
  assert (L : vx (eq_lla p) * g_deg_to_rad = 0) by (cbn; ring). rewrite L, sin_0, cos_0.
  assert (S1 : 1 - (2 - g_wgs84_f) * g_wgs84_f * 0 * 0 = 1) by ring. 
  set (n := sqrt (vx p * vx p + vy p * vy p)).
  assert (NN : 0 < vx p * vx p + vy p * vy p) by (pose proof (Rle_0_sqr (vy p)); unfold Rsqr in *; nra).
  assert (N : 0 < n) by (apply sqrt_lt_R0; exact NN).
  assert (N2 : n * n = vx p * vx p + vy p * vy p) by (apply sqrt_sqrt; lra).
  assert (Q : sqrt (1 + (vy p / vx p)²) = n / vx p).
  { apply sqrt_lem_1; [|apply Rlt_le, Rdiv_lt_0_compat; assumption|].
    - pose proof (Rle_0_sqr (vy p / vx p)). lra.
    - unfold Rsqr. replace (n / vx p * (n / vx p)) with (n * n / (vx p * vx p)) by (field; lra). rewrite N2. field. lra. }
  rewrite cos_atan, sin_atan, Q. cbn [eq_lla vz]. fold n.
  f_equal. destruct p as [x y z]. cbn [vx vy vz] in *. subst z. rewrite ?S1, ?sqrt_1. f_equal; field; lra.
Qed.

Lemma conv_eq : forall p, vz p = 0 -> 400000 <= vx p -> converted p = eq_lla p.
Proof.
  intros p Z X. unfold converted.
  assert (G : geodetic g_wgs84_a g_wgs84_e (eq_lla p) = p).
  { pose proof (eq_right p Z ltac:(lra)) as H. rewrite (lla_geodetic _ (eq_globe p)) in H. apply ok_inj in H.
    transitivity (geodetic g_wgs84_a flat_e (eq_lla p)); [|exact H]. unfold geodetic, curvature.
    assert (S0 : sin (degrees (vx (eq_lla p))) = 0) by (unfold degrees; cbn [eq_lla vx]; rewrite Rmult_0_l; exact sin_0).
    rewrite S0. replace (1 - g_wgs84_e ^ 2 * 0 ^ 2) with 1 by ring. replace (1 - flat_e ^ 2 * 0 ^ 2) with 1 by ring. f_equal. ring. }
  rewrite <- G at 1. rewrite exact_back; [reflexivity|cbn; lra| |].
  - pose proof (eq_lon p) as E. pose proof d2r_pos as D. pose proof (atan_bound (vy p / vx p)) as [A1 A2]. pose proof PI_RGT_0.
    assert (H1 : 180 * g_deg_to_rad = PI) by (unfold g_deg_to_rad; field). split.
    + apply (Rmult_lt_reg_r g_deg_to_rad); [exact D|]. rewrite E. lra.
    + apply (Rmult_le_reg_r g_deg_to_rad); [exact D|]. rewrite E. lra.
  - cbn [eq_lla vz]. assert (vx p <= sqrt (vx p * vx p + vy p * vy p)); [|unfold g_wgs84_a; lra].
    rewrite <- (sqrt_square (vx p)) at 1 by lra. apply sqrt_le_1_alt. pose proof (Rle_0_sqr (vy p)). unfold Rsqr in *. lra.
Qed.

Definition eq_at (y : R) : V3 := mkV3 g_wgs84_a y 0.
Definition eq_ys : list R := [-3; -1; 1; 3].
Definition eq_fixes : list (V3 * V3) := map (fun y => (mkV3 1 y 0, eq_lla (eq_at y))) eq_ys.
Lemma eq_at_right : forall y, lla_to_ecef (eq_lla (eq_at y)) = OK (eq_at y).
Proof. intros y. apply eq_right; cbn; [reflexivity|unfold g_wgs84_a; lra]. Qed.
Lemma conv_at : forall y, converted (eq_at y) = eq_lla (eq_at y).
Proof. intros y. apply conv_eq; cbn; [reflexivity|unfold g_wgs84_a; lra]. Qed.
Lemma eq_origin : eq_lla (eq_at 0) = mkV3 0 0 0.
Proof.
  unfold eq_lla, eq_at. cbn [vx vy]. unfold Rdiv at 2. rewrite Rmult_0_l, atan_0. f_equal; [unfold Rdiv; ring|].
  replace (g_wgs84_a * g_wgs84_a + 0 * 0) with (g_wgs84_a * g_wgs84_a) by ring. rewrite sqrt_square; [ring|unfold g_wgs84_a; lra].
Qed.
Lemma eq_fit : fits converted (PI / 2) (mkV3 1 0 0) (map fst eq_fixes) (map eq_at eq_ys) (mkV3 0 0 0) (map (fun y => mkV3 y 0 0) eq_ys).
Proof.
  assert (M : mean (map eq_at eq_ys) = eq_at 0).
  { unfold mean, mean_of, total, eq_ys, eq_at. cbn. f_equal; field. }
  unfold fits. rewrite M. split; [rewrite conv_at; symmetry; exact eq_origin|]. split.
  - unfold eq_ys. cbn [map].
    assert (P : forall y, ecef_to_enu (eq_at y) (mkV3 0 0 0) = OK (mkV3 y 0 0)).
    { intros y. unfold ecef_to_enu. rewrite <- eq_origin at 1. rewrite eq_at_right. cbn [bind]. f_equal.
      unfold mat_vec, enu_rot, of_list, vsub, eq_at. cbn. rewrite !Rmult_0_l, sin_0, cos_0. f_equal; ring. }
    repeat (constructor; [apply P|]). constructor.
  - split; [|split].
    + unfold eq_fixes. rewrite !map_map. apply map_ext. intros y. cbn [fst]. unfold rigid, yawed, vadd. cbn [vx vy vz].
      rewrite cos_PI2, sin_PI2. f_equal; ring.
    + exists (mkV3 (-3) 0 0), (mkV3 3 0 0). split; [left; reflexivity|]. split; [right; right; right; left; reflexivity|]. left. cbn. lra.
    + cbn. lia.
Qed.
Lemma eq_far : 1 < maximum_distance (fun l => l) (map (fun y => mkV3 y 0 0) eq_ys).
Proof.
  unfold maximum_distance. set (h := map pix _).
  assert (T : forall z, trunc (IZR z) = z).
  { intros z. unfold trunc. destruct (Rltb (IZR z) 0).
    - rewrite <- opp_IZR. rewrite (Int_part_is _ (- z)%Z) by lra. lia.
    - apply Int_part_is. lra. }
  assert (H : h = [((-3)%Z, 0%Z); ((-1)%Z, 0%Z); (1%Z, 0%Z); (3%Z, 0%Z)]).
  { unfold h, eq_ys, pix. cbn [map vx vy]. now rewrite !T. }
  rewrite H.
  assert (G : forall l a, a <= fold_left Rmax l a /\ forall x, In x l -> x <= fold_left Rmax l a).
  { clear. induction l as [|y l IH]; intros a; cbn [fold_left]; [split; [lra|intros x []]|].
    destruct (IH (Rmax a y)) as [I1 I2]. pose proof (Rmax_l a y). pose proof (Rmax_r a y). split; [lra|].
    intros x [<-|Hx]; [lra|auto]. }
  apply Rlt_le_trans with (pix_dist ((-3)%Z, 0%Z) (3%Z, 0%Z)).
  - unfold pix_dist. cbn [fst snd Z.sub Z.add Z.opp Z.pos_sub Pos.add Pos.succ]. rewrite <- sqrt_1 at 1. apply sqrt_lt_1; simpl; lra.
  - apply G. apply in_flat_map. exists ((-3)%Z, 0%Z). split; [left; reflexivity|]. apply in_map. right; right; right; left; reflexivity.
Qed.
Definition eq_par : params := mkParams ANone 0 0 0 GBaseline 1 0 0 0 0 false false.

Lemma misplaced : forall q pe a, exists e', survey svd2 (fun l => l) converted (EKF_init eq_par q pe a) eq_fixes = OK e' /\
  e_lla_init e' = true /\ forall y, placed_at (e_pos_e_in_g e') (e_ang_l_to_e e') (eq_at 1) y -> y <> mkV3 1 1 0.
Proof.
  intros q pe a. set (e0 := EKF_init eq_par q pe a).
  assert (H0 : e_par e0 = eq_par /\ e_gps_time e0 = [] /\ e_gps_ecef e0 = [] /\ e_gps_xyz e0 = []) by (repeat split).
  clearbody e0. destruct H0 as (P & T & E & X).
  unfold eq_fixes, eq_ys. cbn [map survey].
  rewrite (attempt_short _ _ _ _ _ _ _ (eq_at_right _)) by (cbn; rewrite T; cbn; lia). cbn [bind survey].
  rewrite (attempt_short _ _ _ _ _ _ _ (eq_at_right _)) by (cbn; rewrite T; cbn; lia). cbn [bind survey].
  rewrite (attempt_short _ _ _ _ _ _ _ (eq_at_right _)) by (cbn; rewrite T; cbn; lia). cbn [bind survey].
  match goal with |- context [AttemptGps _ _ _ ?e _ _] => set (e4 := e) end.
  assert (H4 : p_gps_init (e_par e4) = GBaseline /\ p_gps_baseline (e_par e4) = 1 /\ length (e_gps_time e4) = length (e_gps_ecef e4) /\
    e_gps_xyz e4 ++ [b_pos (s_body (e_state e4))] = map fst eq_fixes /\ e_gps_ecef e4 ++ [eq_at 3] = map eq_at eq_ys).
  { unfold e4. cbn. rewrite P, T, E, X. repeat split. }
  clearbody e4. destruct H4 as (G & B & L & X4 & E4).
  pose proof eq_fit as F. rewrite <- X4, <- E4 in F. pose proof PI_RGT_0 as PP.
  destruct (baseline_sets svd2 (fun l => l) converted svd2_ok e4 0 (eq_lla (eq_at 3)) (eq_at 3) (PI / 2) (mkV3 1 0 0) _ _ G (eq_at_right 3) L F)
    as [e' [q' (A1 & A2 & A3 & A4 & A5)]]; [rewrite B; exact eq_far|lra|].
  rewrite A1. cbn [bind]. exists e'. split; [reflexivity|]. split; [exact A3|].
  assert (Q : q' = eq_at (-1)).
  { unfold enu_to_ecef in A2. rewrite <- eq_origin in A2 at 1. rewrite eq_at_right in A2. cbn [bind] in A2. apply ok_inj in A2. rewrite <- A2.
    unfold vadd, mat_vec, ecef_rot, of_list, vopp, eq_at. cbn. rewrite !Rmult_0_l, sin_0, cos_0. f_equal; ring. }
  rewrite A4, A5, Q, conv_at, Rabs_right by lra. intros y [u [U ->]] Z.
  unfold ecef_to_enu in U. rewrite eq_at_right in U. cbn [bind] in U. apply ok_inj in U.
  unfold enu_to_local in Z. injection Z as Z _ _. rewrite cos_PI2, sin_PI2 in Z.
  assert (V : vy u = 0).
  { rewrite <- U. unfold mat_vec, enu_rot, of_list, vsub. cbn. rewrite !Rmult_0_l, sin_0, cos_0. ring. }
  rewrite V in Z. lra.
Qed.

Definition still_par : params := mkParams ANone 0 0 0 GError 1 1 1 0 0 false false.
Lemma still_run : forall svd hull q pe a, survey svd hull converted (EKF_init still_par q pe a) (repeat (v0, eq_lla (eq_at 0)) 4) = UB.
Proof.
  intros svd hull q pe a. set (e0 := EKF_init still_par q pe a).
  assert (H0 : e_par e0 = still_par /\ e_gps_time e0 = [] /\ e_gps_ecef e0 = [] /\ e_gps_xyz e0 = []) by (repeat split).
  clearbody e0. destruct H0 as (P & T & E & X). cbn [repeat survey].
  rewrite (attempt_short _ _ _ _ _ _ _ (eq_at_right _)) by (cbn; rewrite T; cbn; lia). cbn [bind survey].
  rewrite (attempt_short _ _ _ _ _ _ _ (eq_at_right _)) by (cbn; rewrite T; cbn; lia). cbn [bind survey].
  rewrite (attempt_short _ _ _ _ _ _ _ (eq_at_right _)) by (cbn; rewrite T; cbn; lia). cbn [bind survey].
  rewrite (standing svd hull converted _ 0 _ (eq_at 0)); [reflexivity|..]; try (cbn; rewrite ?P, ?T, ?E, ?X; cbn; try lra; try lia; auto; fail).
  - apply eq_at_right.
  - rewrite conv_at. apply eq_at_right.
Qed.

Lemma misplaced_run : exists svd hull p q pe a fixes yaw t ecef ref enu e',
  (forall M, let '(U, V) := svd M in svd_of M U V) /\ keeps_extent hull /\
  Forall2 (fun f c => lla_to_ecef (snd f) = OK c) fixes ecef /\ fits converted yaw t (map fst fixes) ecef ref enu /\
  survey svd hull converted (EKF_init p q pe a) fixes = OK e' /\ e_lla_init e' = true /\
  exists f c, In f fixes /\ lla_to_ecef (snd f) = OK c /\
    forall y, placed_at (e_pos_e_in_g e') (e_ang_l_to_e e') c y -> y <> fst f.
Proof.
  destruct (misplaced (mzero 18 1) v0 0) as [e' (H1 & H2 & H3)].
  exists svd2, (fun l => l), eq_par, (mzero 18 1), v0, 0, eq_fixes, (PI / 2), (mkV3 1 0 0), (map eq_at eq_ys), (mkV3 0 0 0), (map (fun y => mkV3 y 0 0) eq_ys), e'.
  split; [exact svd2_ok|]. split; [exact id_extent|].  split.
  { unfold eq_fixes, eq_ys. cbn [map]. repeat (constructor; [cbn [snd]; apply eq_at_right|]). constructor. }
  split; [exact eq_fit|]. split; [exact H1|]. split; [exact H2|].
  exists (mkV3 1 1 0, eq_lla (eq_at 1)), (eq_at 1). split; [right; right; left; reflexivity|]. split; [apply eq_at_right|]. exact H3.
Qed.
(** The same drive from a frame five metres up. *)
Lemma eq_high : let t := mkV3 0 0 5 in let q := mkV3 (g_wgs84_a - 5) 0 0 in
  fits converted (PI / 2) t (map (fun y => mkV3 0 y 5) eq_ys) (map eq_at eq_ys) (mkV3 0 0 0) (map (fun y => mkV3 y 0 0) eq_ys) /\
  enu_to_ecef (vopp t) (mkV3 0 0 0) = OK q /\
  (forall p, vx p = vx (mkV3 0 0 0) -> vy p = vy (mkV3 0 0 0) -> lla_to_ecef p = OK q -> converted q = p).
Proof.
  cbv zeta. split; [|split].
  - destruct eq_fit as (A & B & _ & D & E). split; [exact A|]. split; [exact B|]. split; [|split; [exact D|exact E]].
    rewrite map_map. apply map_ext. intros y. unfold rigid, yawed, vadd. cbn [vx vy vz]. rewrite cos_PI2, sin_PI2. f_equal; ring.
  - unfold enu_to_ecef. rewrite <- eq_origin at 1. rewrite eq_at_right. cbn [bind]. f_equal.
    unfold vadd, mat_vec, ecef_rot, of_list, vopp, eq_at. cbn. rewrite !Rmult_0_l, sin_0, cos_0. f_equal; ring.
  - intros [x y z]. cbn [vx vy vz]. intros -> -> P. rewrite conv_eq by (cbn; unfold g_wgs84_a; lra). rewrite lla_value in P by (split; cbn; lra). cbn [vx vy vz] in P. rewrite !Rmult_0_l, sin_0, cos_0 in P.
    rewrite !Rmult_0_r, Rminus_0_r, sqrt_1 in P. apply ok_inj in P. injection P as P.
    unfold eq_lla. cbn [vx vy]. unfold Rdiv at 2. rewrite Rmult_0_l, atan_0. f_equal; [unfold Rdiv; ring|].
    replace ((g_wgs84_a - 5) * (g_wgs84_a - 5) + 0 * 0) with ((g_wgs84_a - 5) * (g_wgs84_a - 5)) by ring.
    rewrite sqrt_square by (unfold g_wgs84_a; lra). lra.
Qed.
