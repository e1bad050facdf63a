(** Exact pictures: the residual is what the lens does. *)
From Coq Require Import Reals List Arith Bool Lia Lra.
From Verif Require Import Base.Res Base.Mat Base.RDec Base.RSum Base.LinAlg Base.Inverse Base.Geom Base.AMap Base.RMat
  Model.TypeHelper Model.Types Model.MathHelperMat Model.QR Model.MathHelper Model.Matrix3 Model.Ekf Model.Updater Model.Ops Model.MsckfUpdater
  Spec.Layout Spec.History Spec.Contract Spec.Correct Spec.Named Spec.Callback Spec.KF Spec.Unused Spec.Towards Spec.Deriv Spec.Triangulation Spec.CamTrack Spec.Lens
  Proofs.Invariant Proofs.Named Proofs.Sizes Proofs.Update Proofs.Unused Proofs.Finals Proofs.Unused Proofs.CamTrack Proofs.CamTrackFinal.
Import ListNotations.
Open Scope R_scope.

Lemma through_back : forall k c x y, has_lens k -> through k c = (x, y) ->
  (x - in_width k / 2) / (in_f_x k / in_pixel_size k) = fst (bent k (vx c / vz c) (vy c / vz c)) /\
  (y - in_height k / 2) / (in_f_y k / in_pixel_size k) = snd (bent k (vx c / vz c) (vy c / vz c)).
Proof.
  intros k c x y (F1 & F2 & F3) H. unfold through in H. cbv zeta in H.
  destruct (bent k (vx c / vz c) (vy c / vz c)) as [a b]. cbn [fst snd] in *. injection H as <- <-.
  split; field; auto.
Qed.

Lemma miss_is_shift : forall e id k pc ac p l s, has_lens k -> exactly_seen e id k pc ac p l ->
  (misses e id k pc ac p l s <-> shifts e id k pc ac p l s).
Proof.
  intros e id k pc ac p l s HL H. revert s. induction H as [|f l (a & e' & G & T) H IH]; intros s; [reflexivity|].
  cbn [misses shifts]. destruct (through_back _ _ _ _ HL T) as [X Y].
  split; intros (a2 & e2 & s' & G2 & M & S); exists a2, e2, s'; rewrite G in G2; injection G2 as <- <-; (split; [exact G|]);
    (split; [apply IH; exact M|]); cbv zeta in S |- *; rewrite S; unfold shift2; rewrite X, Y; reflexivity.
Qed.

Lemma bent_none : forall k x y, no_distortion k -> bent k x y = (x, y).
Proof. intros k x y (A & B & C & D). unfold bent. rewrite A, B, C, D. cbv zeta. f_equal; ring. Qed.
Lemma no_shift : forall e id k pc ac p l s, no_distortion k -> shifts e id k pc ac p l s -> s = 0.
Proof.
  intros e id k pc ac p l. induction l as [|f l IH]; intros s N H; [exact H|].
  cbn [shifts] in H. destruct H as (a & e' & s' & _ & H & S). rewrite (IH s' N H) in S. cbv zeta in S. unfold shift2 in S.
  rewrite !(bent_none k _ _ N) in S. cbn [fst snd] in S. rewrite S. ring.
Qed.

Lemma shift2_nonneg : forall k x y, 0 <= shift2 k x y.
Proof. intros. unfold shift2. pose proof (Rle_0_sqr (fst (bent k x y) - x)). pose proof (Rle_0_sqr (snd (bent k x y) - y)). unfold Rsqr in *. lra. Qed.
Lemma shifts_nonneg : forall e id k pc ac p l s, shifts e id k pc ac p l s -> 0 <= s.
Proof.
  intros e id k pc ac p l. induction l as [|f l IH]; intros s H; [cbn in H; lra|].
  cbn [shifts] in H. destruct H as (a & e' & s' & _ & H & S). cbv zeta in S. pose proof (IH _ H).
  pose proof (shift2_nonneg k (vx (in_picture pc ac a p) / vz (in_picture pc ac a p)) (vy (in_picture pc ac a p) / vz (in_picture pc ac a p))). lra.
Qed.
(** A stretching lens leaves only the middle where it is. *)
Lemma stretch_middle : forall k x y, stretches k -> shift2 k x y = 0 <-> x = 0 /\ y = 0.
Proof.
  intros k x y (A & B & C & D). unfold shift2, bent. rewrite C, D. cbv zeta. cbn [fst snd].
  set (r := x * x + y * y). set (h := in_k_1 k * r + in_k_2 k * (r * r)).
  replace ((x * (1 + in_k_1 k * r + in_k_2 k * (r * r)) + 2 * 0 * x * y + 0 * (r + 2 * (x * x)) - x) *
    (x * (1 + in_k_1 k * r + in_k_2 k * (r * r)) + 2 * 0 * x * y + 0 * (r + 2 * (x * x)) - x) +
    (y * (1 + in_k_1 k * r + in_k_2 k * (r * r)) + 0 * (r + 2 * (y * y)) + 2 * 0 * x * y - y) *
    (y * (1 + in_k_1 k * r + in_k_2 k * (r * r)) + 0 * (r + 2 * (y * y)) + 2 * 0 * x * y - y)) with (h * h * r) by (unfold h, r; ring).
  assert (R0 : 0 <= r) by (unfold r; pose proof (Rle_0_sqr x); pose proof (Rle_0_sqr y); unfold Rsqr in *; lra).
  split.
  - intros Z. assert (R1 : r = 0).
    { destruct R0 as [R0|R0]; [|symmetry; exact R0]. exfalso. assert (0 < h).
      { unfold h. pose proof (Rmult_lt_0_compat _ _ A R0). pose proof (Rmult_le_pos _ _ B (Rmult_le_pos _ _ (Rlt_le _ _ R0) (Rlt_le _ _ R0))). lra. }
      pose proof (Rmult_lt_0_compat _ _ (Rmult_lt_0_compat _ _ H H) R0). lra. }
    unfold r in R1. pose proof (Rle_0_sqr x). pose proof (Rle_0_sqr y). unfold Rsqr in *.
    split; apply Rsqr_0_uniq; unfold Rsqr; lra.
  - intros [-> ->]. unfold r. ring.
Qed.
Lemma stretched_middle : forall e id k pc ac p l s, stretches k -> shifts e id k pc ac p l s ->
  (s = 0 <-> always_middle e id pc ac p l).
Proof.
  intros e id k pc ac p l. induction l as [|f l IH]; intros s K H.
  - cbn in H. split; [intros _; constructor|intros _; exact H].
  - cbn [shifts] in H. destruct H as (a & e' & s' & G & H & S). cbv zeta in S. pose proof (shifts_nonneg _ _ _ _ _ _ _ _ H) as N.
    pose proof (shift2_nonneg k (vx (in_picture pc ac a p) / vz (in_picture pc ac a p)) (vy (in_picture pc ac a p) / vz (in_picture pc ac a p))) as N2.
    destruct (IH s' K H) as [I1 I2]. split.
    + intros Z. constructor; [exists a, e'; split; [exact G|]; apply (stretch_middle k); [exact K|lra]|apply I1; lra].
    + intros M. inversion M as [|f0 l0 (a2 & e2 & G2 & X) M']; subst f0 l0. rewrite G in G2. injection G2 as <- <-.
      apply (stretch_middle k) in X; [|exact K]. rewrite X, (I2 M') in S. lra.
Qed.

(** Nothing to correct. *)
Lemma still_corrected : forall e H y N d e', reachable e -> nr y = nr H -> length2 (nr y) (column y) <= 0 -> moved_by e H y N d e' ->
  e_state e' = e_state e.
Proof.
  intros e H y N d e' Hr NY LY (D1 & D2 & -> & K & _ & KD).
  destruct (partition_ok e Hr) as [IX [_ LL]].
  assert (Z : forall i, (i < nr y)%nat -> column y i = 0).
  { assert (L0 : forall n, 0 <= length2 n (column y)) by (intros n; apply rsum_nonneg; intros; apply Rle_0_sqr).
    assert (S : forall n, length2 n (column y) <= 0 -> forall i, (i < n)%nat -> column y i = 0).
    { induction n as [|n IH]; intros L i Hi; [lia|]. unfold length2 in L. cbn [rsum] in L. fold (length2 n (column y)) in L.
      pose proof (L0 n). pose proof (Rle_0_sqr (column y n)) as Q. unfold Rsqr in Q.
      destruct (Nat.eq_dec i n) as [->|]; [apply Rsqr_0_uniq; unfold Rsqr; lra|apply IH; [lra|lia]]. }
    exact (S _ LY). }
  rewrite (correct_ext (e_state e) d (mzero (e_size e) 1) IX).
  - apply correct_zero. reflexivity.
  - intros i Hi. unfold dim in Hi. change (column d i = 0). rewrite KD by lia. unfold mv. apply rsum_0. intros j Hj. rewrite Z by lia. ring.
Qed.

(** The residual of one feature, observation by observation. *)
Lemma rows_bent : forall l u k pc ac n ci pf e i rf Hf Hc rf' Hf' Hc' e' e1, has_lens k -> same_estimates e1 e ->
  exactly_seen e1 (mu_id u) k pc ac pf l ->
  feature_rows u k pc ac n ci pf e i l rf Hf Hc = OK (rf', Hf', Hc', e') ->
  (forall r, (r < 2 * i)%nat -> column rf' r = column rf r) /\
  forall j f, nth_error l j = Some f -> exists a x, GetAugState e1 (mu_id u) (fp_frame f) (fp_time f) = OK (a, x) /\
    let q := in_picture pc ac a pf in
    let b := bent k (vx q / vz q) (vy q / vz q) in
    column rf' (2 * (i + j)) = fst b - vx q / vz q /\ column rf' (2 * (i + j) + 1) = snd b - vy q / vz q.
Proof.
  induction l as [|f l IH]; intros u k pc ac n ci pf e i rf Hf Hc rf' Hf' Hc' e' e1 HL SE X E.
  - cbn in E. injection E as <- <- <- <-. split; [reflexivity|]. intros [|j] f H; discriminate.
  - cbn [feature_rows] in E. rewrite feature_row_form in E.
    destruct (GetAugState e (mu_id u) (fp_frame f) (fp_time f)) as [[ai e2]|] eqn:EA; cbn [bind] in E; [|discriminate].
    destruct (aug_again _ _ _ _ _ _ _ SE EA) as [S2 [x EA1]].
    destruct (Project _) as [[px py]|] eqn:EP; cbn [bind] in E; [|discriminate].
    destruct (undo_pixel k (fp_kp f)) as [[mx my]|] eqn:EU; cbn [bind] in E; [|discriminate].
    destruct (set_block rf _ _ _ _ _) as [r1|] eqn:ER; cbn [bind] in E; [|discriminate].
    destruct (jac_part _ _ _ _ _ _ _ _ _ _ _ _ _) as [[f1 c1]|] eqn:EJ; cbn [bind] in E; [|discriminate].
    destruct (block_length _ _ _ _ _ ER) as (_ & _ & EE & _).
    inversion X as [|f0 l0 (a2 & x2 & G2 & T) X']; subst f0 l0. rewrite EA1 in G2. injection G2 as <- <-.
    destruct (IH _ _ _ _ _ _ _ _ _ _ _ _ _ _ _ _ _ HL S2 X' E) as [B A].
    destruct (undo_pixel_inv _ _ _ _ EU) as (_ & _ & _ & -> & ->). destruct (project_inv _ _ _ EP) as [-> ->].
    destruct (through_back _ _ _ _ HL T) as [TX TY].
    split.
    + intros r Hr. rewrite B by lia. unfold column. rewrite EE. destruct (in_range r _ _) eqn:Q; [apply in_range_spec in Q; lia|reflexivity].
    + intros [|j] g Hg.
      * cbn in Hg. injection Hg as <-. exists ai, x. split; [exact EA1|]. cbv zeta. rewrite Nat.add_0_r, !B by lia. unfold column. rewrite !EE.
        rewrite !(proj2 (in_range_spec _ _ _)) by lia.
        replace (2 * i - 2 * i)%nat with 0%nat by lia. replace (2 * i + 1 - 2 * i)%nat with 1%nat by lia.
        unfold res_block. cbn [ent]. rewrite TX, TY. split; reflexivity.
      * cbn in Hg. destruct (A j g Hg) as (a & y & G & Q). exists a, y. split; [exact G|].
        replace (i + S j)%nat with (S i + j)%nat by lia. exact Q.
Qed.

Section T.
Variable solve : mat R -> V3 -> V3.
Lemma exact_all : forall u e k pc ac T s, has_lens k -> no_distortion k -> 
  (forall tr p e2, In tr T -> TriangulateFeature solve u k pc ac e tr = OK (Some p, e2) -> exactly_seen e (mu_id u) k pc ac p (ft_track tr)) ->
  all_misses solve u e k pc ac T s -> s = 0.
Proof.
  intros u e k pc ac T. induction T as [|tr T IH]; intros s HL ND H M; [exact M|].
  cbn [all_misses] in M. destruct M as (o & e2 & s1 & s2 & ET & M2 & M1 & ->).
  rewrite (IH s2 HL ND (fun tr' p e3 I => H tr' p e3 (or_intror I)) M2).
  destruct o as [p|]; [|rewrite M1; ring].
  apply (miss_is_shift _ _ _ _ _ _ _ _ HL (H tr p e2 (or_introl eq_refl) ET)) in M1. rewrite (no_shift _ _ _ _ _ _ _ _ ND M1). ring.
Qed.
Lemma kept_settings : forall u e t T px u' e', msckf_UpdateEKF solve u e t T px = OK (u', e') ->
  mu_id u' = mu_id u /\ mu_use_true u' = mu_use_true u.
Proof.
  intros u e t T px u' e' H. unfold msckf_UpdateEKF in H.
  destruct (CalculateLocalTime e t) as [lt e0]. destruct (PredictModel e0 lt) as [e1|]; cbn [bind] in H; [|discriminate].
  destruct T as [|tr T]; [injection H as <- _; auto|].
  match type of H with (let '(_, _) := ?p in _) = _ => assert (EU : mu_id (fst p) = mu_id u /\ mu_use_true (fst p) = mu_use_true u);
    [destruct (negb (p_fej (e_par e1)) || mu_first u); [destruct (GetCamState e1 (mu_id u))|]; cbn; auto|destruct p as [u1 e2]] end.
  cbn [fst] in EU. destruct (mu_poses u1) as [[[k pc] ac]|]; [|discriminate].
  cbv zeta in H. destruct (GetCamState e2 (mu_id u1)) as [c e3].
  destruct (track_rows _ _ _ _ _ _ _ _ _ _ _ _) as [[[[Hx rx] ct] e4]|]; cbn [bind] in H; [|discriminate].
  destruct (Nat.eqb ct 0); [injection H as <- _; exact EU|].
  destruct (CompressMeasurements Hx rx) as [[H' r']|]; cbn [bind] in H; [|discriminate].
  destruct (Nat.leb (nr r') 1); [injection H as <- _; exact EU|].
  destruct (KalmanUpdate _ _ _ _); cbn [bind] in H; [|discriminate]. injection H as <- _. exact EU.
Qed.
Lemma true_position : forall u k pc ac e tr p e2, mu_use_true u = true -> TriangulateFeature solve u k pc ac e tr = OK (Some p, e2) -> ft_true tr = Some p.
Proof.
  intros u k pc ac e tr p e2 U H. unfold TriangulateFeature in H. rewrite U in H. 
  repeat match type of H with
  | bind ?x _ = _ => destruct x as [[]|]; cbn [bind] in H; [|discriminate]
  | (let '(_, _) := ?x in _) = _ => destruct x
  | match ?x with _ => _ end = OK (Some _, _) => destruct x eqn:?; try discriminate
  end; try (injection H as <- _; reflexivity); congruence.
Qed.
Lemma exact_tracks : forall u e t T px u' e' e1 ext k pc ac, reachable e -> has_cam e (mu_id u) ext -> T <> [] ->
  msckf_UpdateEKF solve u e t T px = OK (u', e') -> only_predicted e t e1 -> mu_poses u' = Some (k, pc, ac) -> has_lens k -> no_distortion k ->
  (forall tr p e2, In tr T -> TriangulateFeature solve u' k pc ac e1 tr = OK (Some p, e2) -> exactly_seen e1 (mu_id u) k pc ac p (ft_track tr)) ->
  exists e2, same_estimates e1 e2 /\ e_state e' = e_state e2.
Proof.
  intros u e t T px u' e' e1 ext k pc ac Hr HC NE E P PO HL ND X.
  destruct (tracks_towards solve u e t T px u' e' ext Hr HC NE E) as (e1' & k' & pc' & ac' & s & P' & PO' & M & D).
  assert (e1' = e1) by (destruct (CalculateLocalTime e t) as [lt e0] eqn:E0; destruct (predicted_split e t lt e0 E0) as [_ PS]; apply PS in P; apply PS in P'; congruence).
  subst e1'. rewrite PO in PO'. injection PO' as <- <- <-.
  rewrite <- (proj1 (kept_settings _ _ _ _ _ _ _ E)) in X. pose proof (exact_all u' e1 k pc ac T s HL ND X M) as ->.
  destruct D as [S|(e2 & H & y & d & S & R2 & NY & LY & MB)]; [exists e'; auto|].
  exists e2. split; [exact S|]. exact (still_corrected _ _ _ _ _ _ R2 NY LY MB).
Qed.
End T.

(** Through a stretching lens the residual is zero only in the middle. *)
Lemma stretched_rows : forall l u k pc ac n ci pf e Hf Hc rf' Hf' Hc' e', has_lens k -> stretches k ->
  exactly_seen e (mu_id u) k pc ac pf l ->
  feature_rows u k pc ac n ci pf e 0 l (mzero (2 * length l) 1) Hf Hc = OK (rf', Hf', Hc', e') ->
  ((forall r, (r < 2 * length l)%nat -> column rf' r = 0) <-> always_middle e (mu_id u) pc ac pf l).
Proof.
  intros l u k pc ac n ci pf e Hf Hc rf' Hf' Hc' e' HL K X E.
  destruct (rows_bent _ _ _ _ _ _ _ _ _ _ _ _ _ _ _ _ _ e HL (same_refl e) X E) as [_ A]. cbn [Nat.add] in A. split.
  - intros Z. apply Forall_forall. intros f Hf0. apply In_nth_error in Hf0. destruct Hf0 as [j Hj].
    assert (J : (j < length l)%nat) by (apply nth_error_Some; congruence).
    destruct (A j f Hj) as (a & x & G & Q). cbv zeta in Q. exists a, x. split; [exact G|].
    rewrite !Z in Q by lia. destruct Q as [Q1 Q2]. apply (stretch_middle k); [exact K|]. unfold shift2. rewrite <- Q1, <- Q2. ring.
  - intros M r Hr. unfold always_middle in M. rewrite Forall_forall in M.
    assert (D : (r / 2 < length l)%nat) by (apply Nat.div_lt_upper_bound; lia).
    destruct (nth_error l (r / 2)) as [f|] eqn:NE; [|apply nth_error_None in NE; lia].
    destruct (A _ f NE) as (a & x & G & Q). destruct (M f (nth_error_In _ _ NE)) as (a2 & x2 & G2 & X1 & X2).
    rewrite G in G2. injection G2 as <- <-. cbv zeta in Q. rewrite X1, X2 in Q.
    assert (B : bent k 0 0 = (0, 0)) by (unfold bent; cbv zeta; f_equal; ring). rewrite B in Q. cbn [fst snd] in Q.
    pose proof (Nat.div_mod_eq r 2) as DM. pose proof (Nat.mod_upper_bound r 2 ltac:(lia)).
    destruct (r mod 2)%nat as [|[|]] eqn:EM; [| |lia].
    + replace r with (2 * (r / 2))%nat by lia. rewrite (proj1 Q). ring.
    + replace r with (2 * (r / 2) + 1)%nat by lia. rewrite (proj2 Q). ring.
Qed.
