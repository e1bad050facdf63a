(** Feature tracks: every step from the reprojection errors to the residual of
    the update is an orthogonal projection or rotation. *)
From Coq Require Import Reals List Arith Bool Lia Lra FunctionalExtensionality.
From Verif Require Import Base.Res Base.Mat Base.RDec Base.RSum Base.LinAlg Base.Inverse Base.Geom Base.AMap Base.RMat
  Model.TypeHelper Model.Types Model.MathHelperMat Model.QR Model.MathHelper Model.Matrix3 Model.Ekf Model.Updater Model.Ops Model.MsckfUpdater
  Spec.Layout Spec.History Spec.Contract Spec.Correct Spec.Named Spec.Same Spec.Callback Spec.KF Spec.Unused Spec.Towards Spec.Deriv Spec.Chance Spec.CamTrack
  Proofs.QRProofs Proofs.Nullspace Proofs.Compress Proofs.MsckfCallback Proofs.Unused.
Import ListNotations.
Open Scope R_scope.

Lemma length2_nonneg : forall m x, 0 <= length2 m x.
Proof. intros m x. apply rsum_nonneg. intros i _. nra. Qed.
Lemma length2_ext : forall m x y, (forall i, (i < m)%nat -> x i = y i) -> length2 m x = length2 m y.
Proof. intros m x y H. apply rsum_ext. intros i Hi. rewrite H by exact Hi. reflexivity. Qed.
Lemma length2_split : forall a b x, length2 (a + b) x = length2 a x + length2 b (fun i => x (a + i)%nat).
Proof. intros a b x. unfold length2. rewrite rsum_split. reflexivity. Qed.
Lemma length2_le : forall a b x, (a <= b)%nat -> length2 a x <= length2 b x.
Proof.
  intros a b x H. replace b with (a + (b - a))%nat by lia. rewrite length2_split.
  pose proof (length2_nonneg (b - a) (fun i => x (a + i)%nat)). lra.
Qed.

(** *** Orthonormal columns *)
Lemma bessel : forall m q (Q : fmat) z, (forall a b, (a < q)%nat -> (b < q)%nat -> grm m Q a b = idm a b) ->
  length2 q (fun a => rsum m (fun k => Q k a * z k)) <= length2 m z.
Proof.
  intros m q Q z H. set (c := fun a => rsum m (fun k => Q k a * z k)).
  set (p := fun k => rsum q (fun a => Q k a * c a)).
  assert (P1 : rsum m (fun k => z k * p k) = length2 q c).
  { unfold p, length2. rewrite (rsum_ext m _ (fun k => rsum q (fun a => z k * (Q k a * c a)))) by (intros; rewrite rsum_scal_l; reflexivity).
    rewrite rsum_swap. apply rsum_ext. intros a Ha. unfold c at 2. rewrite <- rsum_scal_r. apply rsum_ext. intros k _. ring. }
  assert (P2 : rsum m (fun k => p k * p k) = length2 q c).
  { unfold p at 1. rewrite (rsum_ext m _ (fun k => rsum q (fun a => c a * (Q k a * p k)))).
    2:{ intros k _. rewrite <- rsum_scal_r. apply rsum_ext. intros a _. ring. }
    rewrite rsum_swap. unfold length2. apply rsum_ext. intros a Ha. rewrite rsum_scal_l. f_equal.
    unfold p. rewrite (rsum_ext m _ (fun k => rsum q (fun b => c b * (Q k a * Q k b)))).
    2:{ intros k _. rewrite <- rsum_scal_l. apply rsum_ext. intros b _. ring. }
    rewrite rsum_swap, (rsum_ext q _ (fun b => c b * idm a b)).
    2:{ intros b Hb. rewrite rsum_scal_l. f_equal. apply (H a b Ha Hb). }
    rewrite (rsum_single q a); [unfold idm; rewrite Nat.eqb_refl; ring|exact Ha|].
    intros b Hb N. unfold idm. rewrite (proj2 (Nat.eqb_neq a b)) by auto. ring. }
  assert (P3 : 0 <= rsum m (fun k => (z k - p k) * (z k - p k))) by (apply rsum_nonneg; intros i _; apply (Rle_0_sqr (z i - p i))).
  rewrite (rsum_ext m _ (fun k => z k * z k + (-2) * (z k * p k) + p k * p k)) in P3 by (intros; ring).
  rewrite !rsum_plus, rsum_scal_l, P1, P2 in P3. change (length2 q c <= rsum m (fun i => z i * z i)). lra.
Qed.

Lemma hqt_columns : forall m n A a b, (n <= m)%nat -> (a < m)%nat -> (b < m)%nat -> grm m (hqt m n A) a b = idm a b.
Proof.
  intros m. induction n; intros A a b H Ha Hb.
  - cbn. unfold grm. rewrite (rsum_single m a); [unfold idm; rewrite Nat.eqb_refl; ring|exact Ha|].
    intros i Hi N. unfold idm. rewrite (proj2 (Nat.eqb_neq i a)) by auto. ring.
  - cbn [hqt]. cbv zeta. unfold grm. rewrite refl_gram2; [apply IHn; lia|]. apply htau_hvec. lia.
Qed.

Lemma nullspace_map : forall Hf, (nc Hf <= nr Hf)%nat ->
  exists Q : fmat, (forall z, length2 (nr Hf - nc Hf) (mv (nr Hf) Q z) <= length2 (nr Hf) z) /\
  forall Hx r, nr Hx = nr Hf -> nr r = nr Hf ->
    exists A b, ApplyLeftNullspace Hf Hx r = OK (A, b) /\ nr A = (nr Hf - nc Hf)%nat /\ nc A = nc Hx /\ nr b = (nr Hf - nc Hf)%nat /\ nc b = nc r /\
      (forall i j, ent A i j = mv (nr Hf) Q (fun k => ent Hx k j) i) /\
      forall i j, ent b i j = mv (nr Hf) Q (fun k => ent r k j) i.
Proof.
  intros Hf H. exists (fun i k => hqt (nr Hf) (nc Hf) (ent Hf) k (nc Hf + i)%nat). split.
  - intros z. apply (bessel (nr Hf) (nr Hf - nc Hf) (fun k i => hqt (nr Hf) (nc Hf) (ent Hf) k (nc Hf + i)%nat) z).
    intros a b Ha Hb. unfold grm. pose proof (hqt_columns (nr Hf) (nc Hf) (ent Hf) (nc Hf + a) (nc Hf + b) H ltac:(lia) ltac:(lia)) as G.
    unfold grm in G. rewrite G. unfold idm. destruct (Nat.eqb_spec a b) as [->|N]; [rewrite Nat.eqb_refl; reflexivity|].
    rewrite (proj2 (Nat.eqb_neq _ _)) by lia. reflexivity.
  - intros Hx r H1 H2. destruct (nullspace_ok Hf Hx r H H1 H2) as [A [b [E [E1 [E2 [E3 [E4 [E5 E6]]]]]]]].
    exists A, b. repeat split; auto.
Qed.

(** *** Compression *)
Lemma givens_step_lin : forall m j r H (B r0 : fmat) n c a, (S r < m)%nat -> (forall i, (i < m)%nat -> r0 i a = rsum n (fun k => B i k * c k)) ->
  fst (givens_step j r (H, r0)) = fst (givens_step j r (H, B)) /\
  forall i, (i < m)%nat -> snd (givens_step j r (H, r0)) i a = rsum n (fun k => snd (givens_step j r (H, B)) i k * c k).
Proof.
  intros m j r H B r0 n c a Hr E. unfold givens_step. destruct (makeGivens _ _) as [co si]. cbn [fst snd]. split; [reflexivity|].
  intros i Hi. unfold rot_rows. cbn [Nat.ltb Nat.leb]. destruct (Nat.eqb i r), (Nat.eqb i (S r)); rewrite ?E by lia; try reflexivity;
    rewrite <- ?rsum_scal_l, <- ?rsum_minus, <- ?rsum_plus; apply rsum_ext; intros; ring.
Qed.
Lemma givens_fold_lin : forall m l j H (B r0 : fmat) n c a, Forall (fun r => (S r < m)%nat) l -> (forall i, (i < m)%nat -> r0 i a = rsum n (fun k => B i k * c k)) ->
  let F := fun X => fold_left (fun acc r => givens_step j r acc) l X in
  fst (F (H, r0)) = fst (F (H, B)) /\ forall i, (i < m)%nat -> snd (F (H, r0)) i a = rsum n (fun k => snd (F (H, B)) i k * c k).
Proof.
  intros m. induction l as [|r l IH]; intros j H B r0 n c a G E; cbv zeta; cbn [fold_left]; [split; [reflexivity|exact E]|].
  inversion G as [|? ? G1 G2]; subst.
  destruct (givens_step_lin m j r H B r0 n c a G1 E) as [S1 S2].
  destruct (givens_step j r (H, r0)) as [H1 r1], (givens_step j r (H, B)) as [H2 B2]. cbn [fst snd] in *. subst H2.
  apply (IH j H1 B2 r1 n c a G2 S2).
Qed.
Lemma givens_all_lin : forall m n H (B r0 : fmat) q c a, (forall i, (i < m)%nat -> r0 i a = rsum q (fun k => B i k * c k)) ->
  fst (givens_all m n (H, r0)) = fst (givens_all m n (H, B)) /\
  forall i, (i < m)%nat -> snd (givens_all m n (H, r0)) i a = rsum q (fun k => snd (givens_all m n (H, B)) i k * c k).
Proof.
  intros m n. unfold givens_all. induction (seq 0 n) as [|j l IH]; intros H B r0 q c a E; cbn [fold_left]; [split; [reflexivity|exact E]|].
  assert (G : Forall (fun r => (S r < m)%nat) (rev (seq j (m - 1 - j)))).
  { apply Forall_forall. intros x Hx. apply in_rev in Hx. apply in_seq in Hx. lia. }
  pose proof (givens_fold_lin m (rev (seq j (m - 1 - j))) j H B r0 q c a G E) as K. cbv zeta in K. destruct K as [S1 S2].
  fold (givens_col m j (H, r0)) in S1, S2. fold (givens_col m j (H, B)) in S1, S2.
  destruct (givens_col m j (H, r0)) as [H1 r1], (givens_col m j (H, B)) as [H2 B2]. cbn [fst snd] in *. subst H2.
  apply (IH H1 B2 r1 q c a S2).
Qed.

Lemma compress_map : forall J, exists (Q : fmat) J', nc J' = nc J /\ ((nr J' <= nr J)%nat /\ ((nr J < nc J)%nat -> nr J' = nr J)) /\
  (forall z, length2 (nr J') (mv (nr J) Q z) <= length2 (nr J) z) /\
  forall r, nr r = nr J -> nc r = 1%nat -> exists r', CompressMeasurements J r = OK (J', r') /\ nr r' = nr J' /\ nc r' = 1%nat /\
    forall i, (i < nr r')%nat -> ent r' i 0%nat = mv (nr J) Q (fun k => ent r k 0%nat) i.
Proof.
  intros J. destruct (Nat.leb_spec (nc J) (nr J)) as [Hn|Hn].
  - set (X := givens_all (nr J) (nc J) (ent J, idm)).
    set (rows := length (filter (live_row (nc J) (fst X)) (seq 0 (nr J)))).
    assert (LE : (rows <= nr J)%nat).
    { unfold rows. eapply Nat.le_trans; [apply filter_length_le|]. rewrite seq_length. lia. }
    assert (ID : forall r0 : fmat, forall i, (i < nr J)%nat -> r0 i 0%nat = rsum (nr J) (fun k => idm i k * r0 k 0%nat)).
    { intros r0 i Hi. rewrite (rsum_single (nr J) i); [unfold idm; rewrite Nat.eqb_refl; ring|exact Hi|].
      intros k Hk N. unfold idm. rewrite (proj2 (Nat.eqb_neq i k)) by auto. ring. }
    exists (snd X), (mkmat rows (nc J) (fst X)). cbn [nr nc]. split; [reflexivity|]. split; [split; [exact LE|lia]|]. split.
    + intros z. eapply Rle_trans; [apply (length2_le rows (nr J)); exact LE|].
      destruct (givens_all_lin (nr J) (nc J) (ent J) idm (fun i _ => z i) (nr J) z 0%nat (ID (fun i _ => z i))) as [_ G].
      destruct (givens_all_ok (nc J) (nr J) (ent J, fun i _ => z i) Hn) as [[_ [_ K]] _]. specialize (K 0%nat 0%nat).
      unfold ip in K. cbn [snd] in K. unfold length2. rewrite <- K. apply Req_le. apply rsum_ext. intros i Hi. rewrite G by exact Hi. reflexivity.
    + intros r H1 H2. unfold CompressMeasurements. rewrite (proj2 (Nat.leb_le _ _) Hn), H1, H2, !Nat.eqb_refl. cbn [andb guard bind].
      destruct (givens_all_lin (nr J) (nc J) (ent J) idm (ent r) (nr J) (fun k => ent r k 0%nat) 0%nat (ID (ent r))) as [G1 G2]. fold X in G1, G2.
      unfold fmat in G1, G2 |- *. destruct (givens_all (nr J) (nc J) (ent J, ent r)) as [H r1] eqn:EE. rewrite ?EE in G1, G2. cbn [fst snd] in G1, G2. rewrite G1. fold rows.
      eexists. split; [reflexivity|]. cbn [nr nc ent]. split; [reflexivity|]. split; [reflexivity|].
      intros i Hi. rewrite G2 by (eapply Nat.lt_le_trans; [exact Hi|exact LE]). reflexivity.
  - exists idm, J. split; [reflexivity|]. split; [split; [lia|reflexivity]|].
    assert (ID : forall z i, (i < nr J)%nat -> mv (nr J) idm z i = z i).
    { intros z i Hi. unfold mv. rewrite (rsum_single (nr J) i); [unfold idm; rewrite Nat.eqb_refl; ring|exact Hi|].
      intros k Hk N. unfold idm. rewrite (proj2 (Nat.eqb_neq i k)) by auto. ring. }
    split.
    + intros z. apply Req_le. apply length2_ext. intros i Hi. apply ID. exact Hi.
    + intros r H1 H2. exists r. split; [apply compress_fat; exact Hn|]. split; [exact H1|]. split; [exact H2|].
      intros i Hi. rewrite H1 in Hi. rewrite (ID (fun k => ent r k 0%nat) i Hi). reflexivity.
Qed.

(** *** The rows of one feature *)
Definition jac_part (u : msckf_updater) (k : Intrinsics) (pos_c : V3) (ang_c : quat) (state_size cam_index : nat) (pos_f : V3)
  (ai : AugState) (i : nat) (mx my : R) (H_f H_c : mat R) : res (mat R * mat R) :=
  let rot_b_to_c := m3tr (qmat ang_c) in
  let rot_l_to_b := m3tr (qmat (a_ang ai)) in
  let rot_l_to_c := m3mul rot_b_to_c rot_l_to_b in
  let d := vsub pos_f (a_pos ai) in
  let pos_f_in_b := mat_vec rot_l_to_b d in
  let pos_f_in_c := mat_vec rot_b_to_c (vsub pos_f_in_b pos_c) in
  let* H_p := ProjectionJacobian pos_f_in_c in
  let H_d := DistortionJacobian mx my k in
  let* H_f := set_block H_f (2 * i) 0 2 3 (dp H_d H_p rot_l_to_c) in
  let Ht := H_t (m3neg rot_l_to_c)
                (m3mul (m3mul rot_l_to_c (SkewSymmetric d)) (m3tr (QuaternionJacobian (a_ang ai)))) in
  let* H_c := (if mu_ext u then
      let* H_c := set_block H_c (2 * i) (cam_index + 0) 2 3 (neg2 (dp H_d H_p rot_b_to_c)) in
      set_block H_c (2 * i) (cam_index + 3) 2 3
        (dp H_d H_p (m3mul (m3mul rot_b_to_c (SkewSymmetric (vsub pos_f_in_b pos_c)))
                           (m3tr (QuaternionJacobian ang_c))))
    else OK H_c) in
  let H := dp H_d H_p Ht in
  let* H_c := (if negb (Reqb (a_alpha ai) 0) then
      let H_aug_0 := mscale (1 - a_alpha ai) H in
      let H_aug_1 := mscale (a_alpha ai) H in
      let* H_c := set_block H_c (2 * i) (a_index ai) 2 g_aug_state_size H_aug_0 in
      if Nat.ltb state_size (a_index ai + 2 * g_aug_state_size) then
        let* b0 := block H_aug_1 0 0 2 3 in
        let* b1 := block H_aug_1 0 3 2 3 in
        let* H_c := set_block H_c (2 * i) 0 2 3 b0 in
        set_block H_c (2 * i) 9 2 3 b1
      else set_block H_c (2 * i) (a_index ai + g_aug_state_size) 2 g_aug_state_size H_aug_1
    else set_block H_c (2 * i) (a_index ai) 2 g_aug_state_size H) in
  OK (H_f, H_c).

Definition res_block (mx my px py : R) : mat R := mkmat 2 1 (fun r _ => match r with 0%nat => mx - px | _ => my - py end).

Lemma feature_row_form : forall u k pc ac n ci pf e i f rf Hf Hc,
  feature_row u k pc ac n ci pf e i f rf Hf Hc =
  let* (ai, e) := GetAugState e (mu_id u) (fp_frame f) (fp_time f) in
  let* (px, py) := Project (in_picture pc ac ai pf) in
  let* (mx, my) := undo_pixel k (fp_kp f) in
  let* rf := set_block rf (2 * i) 0 2 1 (res_block mx my px py) in
  let* (Hf, Hc) := jac_part u k pc ac n ci pf ai i mx my Hf Hc in
  OK (rf, Hf, Hc, e).
Proof.
  intros. unfold feature_row, jac_part, in_picture, res_block. cbv zeta.
  destruct (GetAugState e _ _ _) as [[ai e1]|]; cbn [bind]; [|reflexivity].
  destruct (Project _) as [[px py]|]; cbn [bind]; [|reflexivity].
  destruct (undo_pixel k _) as [[mx my]|]; cbn [bind]; [|reflexivity].
  destruct (set_block rf _ _ _ _ _) as [r1|]; cbn [bind]; [|reflexivity].
  destruct (ProjectionJacobian _) as [Hp|]; cbn [bind]; [|reflexivity].
  destruct (set_block Hf _ _ _ _ _) as [f1|]; cbn [bind]; [|reflexivity].
  match goal with |- bind ?x _ = bind (bind ?x _) _ => destruct x as [c1|]; cbn [bind]; [|reflexivity] end.
  match goal with |- bind ?x _ = bind (bind ?x _) _ => destruct x as [c2|]; cbn [bind]; reflexivity end.
Qed.

Lemma flat_distortion : forall k x y x' y', no_distortion k -> DistortionJacobian x y k = DistortionJacobian x' y' k.
Proof.
  intros k x y x' y' (K1 & K2 & K3 & K4). unfold DistortionJacobian. rewrite K1, K2, K3, K4. cbv zeta. f_equal.
  extensionality i. extensionality j. destruct i, j; ring.
Qed.
Lemma flat_jac : forall u k pc ac n ci pf ai i x y x' y' Hf Hc, no_distortion k ->
  jac_part u k pc ac n ci pf ai i x y Hf Hc = jac_part u k pc ac n ci pf ai i x' y' Hf Hc.
Proof. intros u k pc ac n ci pf ai i x y x' y' Hf Hc K. unfold jac_part. rewrite (flat_distortion k x y x' y' K). reflexivity. Qed.

Lemma rdiv_inv' : forall a b c, rdiv a b = OK c -> b <> 0 /\ c = a / b.
Proof.
  intros a b c H. unfold rdiv in H. destruct (Reqb b 0) eqn:E; [discriminate|]. apply Reqb_false in E. injection H as <-. auto.
Qed.
Lemma undo_pixel_inv : forall k p x y, undo_pixel k p = OK (x, y) ->
  in_pixel_size k <> 0 /\ in_f_x k / in_pixel_size k <> 0 /\ in_f_y k / in_pixel_size k <> 0 /\
  x = (kp_x p - in_width k / 2) / (in_f_x k / in_pixel_size k) /\ y = (kp_y p - in_height k / 2) / (in_f_y k / in_pixel_size k).
Proof.
  intros k p x y H. unfold undo_pixel in H.
  destruct (rdiv (in_f_x k) _) as [fx|] eqn:E1; cbn [bind] in H; [|discriminate]. apply rdiv_inv' in E1. destruct E1 as [P ->].
  destruct (rdiv (in_f_y k) _) as [fy|] eqn:E2; cbn [bind] in H; [|discriminate]. apply rdiv_inv' in E2. destruct E2 as [_ ->].
  destruct (rdiv (kp_x p - _) _) as [x0|] eqn:E3; cbn [bind] in H; [|discriminate]. apply rdiv_inv' in E3. destruct E3 as [F1 ->].
  destruct (rdiv (kp_y p - _) _) as [y0|] eqn:E4; cbn [bind] in H; [|discriminate]. apply rdiv_inv' in E4. destruct E4 as [F2 ->].
  injection H as <- <-. auto.
Qed.
Lemma undo_pixel_ok : forall k p, in_pixel_size k <> 0 -> in_f_x k / in_pixel_size k <> 0 -> in_f_y k / in_pixel_size k <> 0 ->
  undo_pixel k p = OK ((kp_x p - in_width k / 2) / (in_f_x k / in_pixel_size k), (kp_y p - in_height k / 2) / (in_f_y k / in_pixel_size k)).
Proof. intros k p H1 H2 H3. unfold undo_pixel. rewrite !rdiv_ok by assumption. cbn [bind]. rewrite !rdiv_ok by assumption. reflexivity. Qed.
Lemma project_inv : forall q x y, Project q = OK (x, y) -> x = vx q / vz q /\ y = vy q / vz q.
Proof.
  intros q x y H. unfold Project in H. destruct (rdiv (vx q) _) as [a|] eqn:E1; cbn [bind] in H; [|discriminate].
  destruct (rdiv (vy q) _) as [b|] eqn:E2; cbn [bind] in H; [|discriminate]. apply rdiv_inv' in E1, E2. destruct E1 as [_ ->], E2 as [_ ->].
  injection H as <- <-. auto.
Qed.

(** A block written into a column. *)
Lemma block_length : forall (r : mat R) a q (b r' : mat R), set_block r a 0 q 1 b = OK r' -> nr r' = nr r /\ nc r' = nc r /\
  (forall i, ent r' i 0%nat = if in_range i a q then ent b (i - a) 0%nat else ent r i 0%nat) /\
  length2 (nr r) (column r') <= length2 (nr r) (column r) + length2 q (column b).
Proof.
  intros r a q b r' H. apply set_block_inv in H. destruct H as (H1 & H2 & H3 & H4 & ->). cbn [nr nc ent].
  assert (E : forall i, ent {| nr := nr r; nc := nc r; ent := fun x y => if in_range x a q && in_range y 0 1 then ent b (x - a) (y - 0) else ent r x y |} i 0%nat =
     if in_range i a q then ent b (i - a) 0%nat else ent r i 0%nat).
  { intros i. cbn [ent]. rewrite (proj2 (in_range_spec 0 0 1)) by lia. rewrite andb_true_r. reflexivity. }
  split; [reflexivity|]. split; [reflexivity|]. split; [exact E|].
  set (r' := {| nr := nr r; nc := nc r; ent := _ |}) in *. clearbody r'.
  replace (nr r) with (a + (q + (nr r - a - q)))%nat by lia. rewrite !length2_split.
  rewrite (length2_ext a (column r') (column r)).
  2:{ intros i Hi. unfold column. rewrite E. destruct (in_range i a q) eqn:X; [|reflexivity]. apply in_range_spec in X. lia. }
  rewrite (length2_ext q _ (column b)).
  2:{ intros i Hi. unfold column. rewrite E, (proj2 (in_range_spec _ _ _)) by lia. f_equal. lia. }
  rewrite (length2_ext (nr r - a - q) _ (fun i => column r (a + (q + i))%nat)).
  2:{ intros i Hi. unfold column. rewrite E. destruct (in_range _ a q) eqn:X; [|reflexivity]. apply in_range_spec in X. lia. }
  pose proof (length2_nonneg q (fun i => column r (a + i)%nat)). lra.
Qed.
Lemma res_block_length : forall mx my px py, length2 2 (column (res_block mx my px py)) = (mx - px) * (mx - px) + (my - py) * (my - py).
Proof. intros. unfold length2, column, res_block. cbn. ring. Qed.

Lemma aug_again : forall e1 e id f t a e', same_estimates e1 e -> GetAugState e id f t = OK (a, e') ->
  same_estimates e1 e' /\ exists x, GetAugState e1 id f t = OK (a, x).
Proof.
  intros e1 e id f t a e' S H. pose proof (get_aug_same e1 e id f t S) as G. rewrite H in G.
  destruct (GetAugState e1 id f t) as [[b x]|]; cbn in G; [|contradiction]. destruct G as [-> [_ G]]. split; [exact G|eauto].
Qed.

Lemma rows_misses : forall l u k pc ac n ci pf e i rf Hf Hc rf' Hf' Hc' e' e1, same_estimates e1 e ->
  feature_rows u k pc ac n ci pf e i l rf Hf Hc = OK (rf', Hf', Hc', e') ->
  same_estimates e1 e' /\ nr rf' = nr rf /\ nc rf' = nc rf /\ nr Hf' = nr Hf /\ nc Hf' = nc Hf /\ nr Hc' = nr Hc /\ nc Hc' = nc Hc /\
  exists s, misses e1 (mu_id u) k pc ac pf l s /\ length2 (nr rf) (column rf') <= length2 (nr rf) (column rf) + s.
Proof.
  induction l as [|f l IH]; intros u k pc ac n ci pf e i rf Hf Hc rf' Hf' Hc' e' e1 S E.
  - cbn in E. injection E as <- <- <- <-. split; [exact S|]. repeat (split; [reflexivity|]). exists 0. split; [reflexivity|]. lra.
  - cbn [feature_rows] in E. rewrite feature_row_form in E.
    destruct (GetAugState e (mu_id u) (fp_frame f) (fp_time f)) as [[ai e2]|] eqn:EA; cbn [bind] in E; [|discriminate].
    destruct (aug_again _ _ _ _ _ _ _ S EA) as [S2 [x EA1]].
    destruct (Project _) as [[px py]|] eqn:EP; cbn [bind] in E; [|discriminate].
    destruct (undo_pixel k (fp_kp f)) as [[mx my]|] eqn:EU; cbn [bind] in E; [|discriminate].
    destruct (set_block rf _ _ _ _ _) as [r1|] eqn:ER; cbn [bind] in E; [|discriminate].
    destruct (jac_part _ _ _ _ _ _ _ _ _ _ _ _ _) as [[f1 c1]|] eqn:EJ; cbn [bind] in E; [|discriminate].
    destruct (block_length _ _ _ _ _ ER) as (N1 & N2 & _ & LL).
    destruct (IH _ _ _ _ _ _ _ _ _ _ _ _ _ _ _ _ _ S2 E) as (S3 & M1 & M2 & M3 & M4 & M5 & M6 & s & MS & ML).
    assert (SH : nr f1 = nr Hf /\ nc f1 = nc Hf /\ nr c1 = nr Hc /\ nc c1 = nc Hc).
    { clear - EJ. unfold jac_part in EJ. cbv zeta in EJ. destruct (ProjectionJacobian _) as [Hp|]; cbn [bind] in EJ; [|discriminate].
      destruct (set_block Hf _ _ _ _ _) as [f2|] eqn:X1; cbn [bind] in EJ; [|discriminate]. apply set_block_shape in X1.
      match type of EJ with bind ?x _ = _ => destruct x as [c2|] eqn:X2; cbn [bind] in EJ; [|discriminate] end.
      match type of EJ with bind ?x _ = _ => destruct x as [c3|] eqn:X3; cbn [bind] in EJ; [|discriminate] end.
      injection EJ as <- <-.
      assert (Y2 : nr c2 = nr Hc /\ nc c2 = nc Hc).
      { destruct (mu_ext u); [|injection X2 as <-; auto]. destruct (set_block Hc _ _ _ _ _) as [m|] eqn:Y; cbn [bind] in X2; [|discriminate].
        apply set_block_shape in Y. apply set_block_shape in X2. destruct Y, X2. split; congruence. }
      assert (Y3 : nr c3 = nr c2 /\ nc c3 = nc c2).
      { destruct (negb _).
        - destruct (set_block c2 _ _ _ _ _) as [m|] eqn:Y; cbn [bind] in X3; [|discriminate]. apply set_block_shape in Y. destruct (Nat.ltb _ _).
          + destruct (block _ 0 0 2 3); cbn [bind] in X3; [|discriminate]. destruct (block _ 0 3 2 3); cbn [bind] in X3; [|discriminate].
            destruct (set_block m _ _ _ _ _) as [m'|] eqn:Z; cbn [bind] in X3; [|discriminate]. apply set_block_shape in Z. apply set_block_shape in X3.
            destruct Y, Z, X3. split; congruence.
          + apply set_block_shape in X3. destruct Y, X3. split; congruence.
        - apply set_block_shape in X3. exact X3. }
      destruct X1, Y2, Y3. repeat split; congruence. }
    destruct SH as (H1 & H2 & H3 & H4). split; [exact S3|]. repeat (split; [congruence|]).
    destruct (undo_pixel_inv _ _ _ _ EU) as (_ & _ & _ & -> & ->). destruct (project_inv _ _ _ EP) as [-> ->].
    eexists. split; [cbn [misses]; exists ai, x, s; split; [exact EA1|]; split; [exact MS|]; reflexivity|]. cbv zeta.
    rewrite res_block_length in LL. rewrite N1 in ML. lra.
Qed.

(** The scale from pixels to the picture at distance 1. *)
Definition scale_at (k : Intrinsics) (r : nat) : R :=
  if Nat.even r then 1 / (in_f_x k / in_pixel_size k) else 1 / (in_f_y k / in_pixel_size k).

Lemma rows_pixels : forall l u k pc ac n ci pf e i rf Hf Hc rf' Hf' Hc' e', no_distortion k ->
  feature_rows u k pc ac n ci pf e i l rf Hf Hc = OK (rf', Hf', Hc', e') ->
  exists c : nat -> R, forall p off rf2, nr rf2 = nr rf -> nc rf2 = nc rf -> exists rf2',
    feature_rows u k pc ac n ci pf e i (seen_at p off l) rf2 Hf Hc = OK (rf2', Hf', Hc', e') /\ nr rf2' = nr rf /\ nc rf2' = nc rf /\
    forall r, ent rf2' r 0%nat = if in_range r (2 * i) (2 * length l) then c r + scale_at k r * p (off + (r - 2 * i))%nat else ent rf2 r 0%nat.
Proof.
  induction l as [|f l IH]; intros u k pc ac n ci pf e i rf Hf Hc rf' Hf' Hc' e' K E.
  - cbn in E. injection E as <- <- <- <-. exists (fun _ => 0). intros p off rf2 N1 N2. exists rf2. cbn. split; [reflexivity|].
    split; [exact N1|]. split; [exact N2|]. intros r. destruct (in_range r _ 0) eqn:X; [apply in_range_spec in X; lia|reflexivity].
  - cbn [feature_rows] in E. rewrite feature_row_form in E.
    destruct (GetAugState e (mu_id u) (fp_frame f) (fp_time f)) as [[ai e2]|] eqn:EA; cbn [bind] in E; [|discriminate].
    destruct (Project _) as [[px py]|] eqn:EP; cbn [bind] in E; [|discriminate].
    destruct (undo_pixel k (fp_kp f)) as [[mx my]|] eqn:EU; cbn [bind] in E; [|discriminate].
    destruct (undo_pixel_inv _ _ _ _ EU) as (U1 & U2 & U3 & _ & _).
    destruct (set_block rf _ _ _ _ _) as [r1|] eqn:ER; cbn [bind] in E; [|discriminate].
    destruct (jac_part _ _ _ _ _ _ _ _ _ _ _ _ _) as [[f1 c1]|] eqn:EJ; cbn [bind] in E; [|discriminate].
    apply set_block_inv in ER. destruct ER as (R1 & R2 & _ & _ & ER).
    destruct (IH _ _ _ _ _ _ _ _ _ _ _ _ _ _ _ _ K E) as [c IHc].
    exists (fun r => if Nat.eqb r (2 * i) then - (in_width k / 2) / (in_f_x k / in_pixel_size k) - px
                     else if Nat.eqb r (2 * i + 1) then - (in_height k / 2) / (in_f_y k / in_pixel_size k) - py else c r).
    intros p off rf2 N1 N2. cbn [seen_at feature_rows]. rewrite feature_row_form. cbn [fp_frame fp_time fp_kp]. rewrite EA. cbn [bind].
    rewrite EP. cbn [bind]. rewrite undo_pixel_ok by assumption. cbn [bind kp_x kp_y].
    rewrite set_block_ok by (try reflexivity; lia). cbn [bind].
    rewrite (flat_jac _ _ _ _ _ _ _ _ _ _ _ mx my _ _ K), EJ. cbn [bind].
    match goal with |- context [feature_rows _ _ _ _ _ _ _ _ _ _ ?r _ _] => set (r2 := r) end.
    destruct (IHc p (S (S off)) r2) as [rf2' [F [M1 [M2 M3]]]]; [subst r1; exact N1|subst r1; exact N2|].
    exists rf2'. split; [exact F|]. subst r1. cbn [nr nc] in M1, M2. split; [exact M1|]. split; [exact M2|].
    intros r. rewrite M3. cbn [length].
    assert (C : (r = 2 * i \/ r = 2 * i + 1 \/ (r <> 2 * i /\ r <> 2 * i + 1))%nat) by lia.
    assert (B2 : forall q, ent r2 q 0%nat = if in_range q (2 * i) 2 then ent (res_block ((p off - in_width k / 2) / (in_f_x k / in_pixel_size k)) ((p (S off) - in_height k / 2) / (in_f_y k / in_pixel_size k)) px py) (q - 2 * i) 0%nat else ent rf2 q 0%nat).
    { intros q. unfold r2. cbn [ent]. rewrite (proj2 (in_range_spec 0 0 1)) by lia. rewrite andb_true_r. reflexivity. }
    destruct C as [->|[->|[C1 C2]]].
    + destruct (in_range (2 * i) (2 * S i) _) eqn:X; [apply in_range_spec in X; lia|]. rewrite B2.
      rewrite !(proj2 (in_range_spec _ _ _)) by lia. rewrite Nat.eqb_refl, Nat.sub_diag, Nat.add_0_r. cbn [res_block ent].
      unfold scale_at. rewrite Nat.even_mul. cbn [Nat.even orb]. unfold Rdiv. ring.
    + destruct (in_range (2 * i + 1) (2 * S i) _) eqn:X; [apply in_range_spec in X; lia|]. rewrite B2.
      rewrite !(proj2 (in_range_spec _ _ _)) by lia. rewrite (proj2 (Nat.eqb_neq (2 * i + 1) (2 * i))) by lia. rewrite Nat.eqb_refl.
      replace (2 * i + 1 - 2 * i)%nat with 1%nat by lia. replace (off + 1)%nat with (S off) by lia. cbn [res_block ent].
      unfold scale_at. rewrite Nat.even_add, Nat.even_mul. cbn [Nat.even orb Bool.eqb]. unfold Rdiv. ring.
    + rewrite (proj2 (Nat.eqb_neq _ _) C1), (proj2 (Nat.eqb_neq _ _) C2).
      destruct (in_range r (2 * S i) _) eqn:X.
      * apply in_range_spec in X. rewrite (proj2 (in_range_spec _ _ _)) by lia. do 2 f_equal. f_equal. lia.
      * rewrite B2. destruct (in_range r (2 * i) 2) eqn:Y; [apply in_range_spec in Y; lia|].
        destruct (in_range r (2 * i) (2 * S (length l))) eqn:Z; [|reflexivity]. apply in_range_spec in Z. exfalso.
        assert (in_range r (2 * S i) (2 * length l) = true) by (apply in_range_spec; lia). congruence.
Qed.

(** *** Whole tracks *)
Lemma seen_at_length : forall l p off, length (seen_at p off l) = length l.
Proof. induction l as [|f l IH]; intros p off; [reflexivity|]. cbn. f_equal. apply IH. Qed.
Lemma tri_rows_pixels : forall l u k pc ac a0 e A b A' b' e', tri_rows u k pc ac a0 e l A b = OK (A', b', e') ->
  forall p off A0 b0, exists A1 b1, tri_rows u k pc ac a0 e (seen_at p off l) A0 b0 = OK (A1, b1, e').
Proof.
  induction l as [|f l IH]; intros u k pc ac a0 e A b A' b' e' E p off A0 b0.
  - cbn in E. injection E as _ _ <-. cbn. eauto.
  - cbn [tri_rows] in E. destruct (GetAugState e (mu_id u) (fp_frame f) (fp_time f)) as [[ai e1]|] eqn:E1; [|discriminate].
    cbn [bind] in E. cbv zeta in E. destruct (undo_pixel k (fp_kp f)) as [[x y]|] eqn:EU; [|discriminate]. cbn [bind] in E.
    destruct (rdiv 1 _) as [s|]; [|discriminate]. cbn [bind] in E.
    destruct (undo_pixel_inv _ _ _ _ EU) as (U1 & U2 & U3 & _ & _).
    cbn [seen_at tri_rows fp_frame fp_time fp_kp]. rewrite E1. cbn [bind]. cbv zeta. rewrite undo_pixel_ok by assumption. cbn [bind].
    rewrite rdiv_ok; [cbn [bind]; eapply IH; exact E|].
    intros Z. unfold vnorm in Z. match type of Z with sqrt (vnorm2 ?v) = 0 => assert (P : 1 <= vnorm2 v) end.
    { unfold vnorm2, vdot. cbn [vx vy vz]. match goal with |- 1 <= ?a * ?a + ?b * ?b + _ => pose proof (Rle_0_sqr a); pose proof (Rle_0_sqr b); unfold Rsqr in * end. lra. }
    apply sqrt_eq_0 in Z; lra.
Qed.

Ltac mz := repeat match goal with
  | H : context [nr (mzero ?a ?b)] |- _ => change (nr (mzero a b)) with a in H
  | H : context [nc (mzero ?a ?b)] |- _ => change (nc (mzero a b)) with b in H end.

Section Tr.
Variable solve : mat R -> V3 -> V3.

Lemma triangulate_pixels : forall u k pc ac e t o e', mu_use_true u = true -> TriangulateFeature solve u k pc ac e t = OK (o, e') ->
  (exists q, o = Some q) /\
  forall p off, TriangulateFeature solve u k pc ac e (mkFT (seen_at p off (ft_track t)) (ft_true t)) = OK (o, e').
Proof.
  intros u k pc ac e t o e' U E. unfold TriangulateFeature in *. cbn [ft_track ft_true]. rewrite U in *.
  destruct (ft_track t) as [|f l] eqn:T; [discriminate|]. change (vnth (f :: l) 0) with (@OK FeaturePoint f) in E. cbn [bind] in E.
  destruct (GetAugState e (mu_id u) (fp_frame f) (fp_time f)) as [[a0 e1]|] eqn:E1; [|discriminate]. cbn [bind] in E.
  destruct (tri_rows u k pc ac a0 e1 (f :: l) (mzero 3 3) v0) as [[[A b] e2]|] eqn:E2; [|discriminate]. cbn [bind] in E.
  destruct (ft_true t) as [q|]; [|discriminate]. injection E as <- <-. split; [eauto|].
  intros p off. destruct (tri_rows_pixels _ _ _ _ _ _ _ _ _ _ _ _ E2 p off (mzero 3 3) v0) as [A1 [b1 E3]].
  change (vnth (seen_at p off (f :: l)) 0) with (@OK FeaturePoint (mkFP (fp_frame f) (fp_time f) (mkKP (p off) (p (S off)) (kp_class (fp_kp f))))).
  cbn [bind fp_frame fp_time]. rewrite E1. cbn [bind]. rewrite E3. cbn [bind]. reflexivity.
Qed.

Lemma null_le : forall Hf Hc r A b, ApplyLeftNullspace Hf Hc r = OK (A, b) -> (nc Hf <= nr Hf)%nat.
Proof.
  intros Hf Hc r A b H. destruct (Nat.leb_spec (nc Hf) (nr Hf)); [assumption|]. rewrite nullspace_short in H by assumption. discriminate.
Qed.

Lemma tracks_misses : forall l u k pc ac n ci e ct Hx rx Hx' rx' ct' e' e1, same_estimates e1 e ->
  track_rows solve u k pc ac n ci e l ct Hx rx = OK (Hx', rx', ct', e') ->
  same_estimates e1 e' /\ nr rx' = nr rx /\ exists s, all_misses solve u e1 k pc ac l s /\ length2 (nr rx) (column rx') <= length2 (nr rx) (column rx) + s.
Proof.
  induction l as [|t l IH]; intros u k pc ac n ci e ct Hx rx Hx' rx' ct' e' e1 S E.
  - cbn in E. injection E as <- <- <- <-. split; [exact S|]. split; [reflexivity|]. exists 0. split; [reflexivity|]. lra.
  - cbn [track_rows] in E. destruct (TriangulateFeature solve u k pc ac e t) as [[o e2]|] eqn:ET; cbn [bind] in E; [|discriminate].
    pose proof (triangulate_same solve u k pc ac e1 e t S) as G. rewrite ET in G.
    destruct (TriangulateFeature solve u k pc ac e1 t) as [[o' x]|] eqn:ET1; cbn in G; [|contradiction]. destruct G as [-> [_ S2]].
    destruct o as [pf|].
    + destruct (feature_rows _ _ _ _ _ _ _ _ _ _ _ _ _) as [[[[rf Hf] Hc] e3]|] eqn:EF; cbn [bind] in E; [|discriminate].
      destruct (rows_misses _ _ _ _ _ _ _ _ _ _ _ _ _ _ _ _ _ _ S2 EF) as (S3 & N1 & N2 & N3 & N4 & N5 & N6 & s1 & M1 & L1).
      mz.
      destruct (ApplyLeftNullspace Hf Hc rf) as [[A b]|] eqn:EN; cbn [bind] in E; [|discriminate].
      destruct (nullspace_map Hf (null_le _ _ _ _ _ EN)) as [Q [Q1 Q2]].
      destruct (Q2 Hc rf ltac:(congruence) ltac:(congruence)) as (A' & b' & EN' & Z1 & Z2 & Z3 & Z4 & Z5 & Z6).
      rewrite EN in EN'. injection EN' as <- <-.
      destruct (set_block Hx _ _ _ _ _) as [Hx2|]; cbn [bind] in E; [|discriminate].
      destruct (set_block rx _ _ _ _ _) as [rx2|] eqn:ER; cbn [bind] in E; [|discriminate].
      destruct (block_length _ _ _ _ _ ER) as (B1 & _ & _ & B2).
      destruct (IH _ _ _ _ _ _ _ _ _ _ _ _ _ _ _ S3 E) as (S4 & NN & s2 & M2 & L2). split; [exact S4|]. split; [congruence|].
      exists (s1 + s2). split; [cbn [all_misses]; exists (Some pf), x, s1, s2; auto|]. rewrite B1 in L2.
      assert (LB : length2 (nr b) (column b) <= s1).
      { rewrite Z3. rewrite (length2_ext _ (column b) (mv (nr Hf) Q (column rf))) by (intros i Hi; unfold column; rewrite Z6; reflexivity).
        eapply Rle_trans; [apply Q1|]. rewrite N3.
        assert (Z0 : length2 (2 * length (ft_track t)) (column (mzero (2 * length (ft_track t)) 1)) = 0) by (apply rsum_0; intros; unfold column; cbn; ring).
        rewrite Z0 in L1. lra. }
      lra.
    + destruct (IH _ _ _ _ _ _ _ _ _ _ _ _ _ _ _ S2 E) as (S4 & NN & s2 & M2 & L2). split; [exact S4|]. split; [exact NN|].
      exists (0 + s2). split; [cbn [all_misses]; exists None, x, 0, s2; auto|]. lra.
Qed.

(** A column that depends on [n] numbers linearly, stretching by at most [g]. *)
Definition fit (m n : nat) (c : nat -> R) (G : fmat) (p : nat -> R) (r : mat R) : Prop :=
  nr r = m /\ nc r = 1%nat /\ forall i, (i < m)%nat -> ent r i 0%nat = c i + mv n G p i.
Definition bounded (m n : nat) (g : R) (G : fmat) : Prop := forall v, length2 m (mv n G v) <= g * g * length2 n v.

Lemma patch_length : forall m ct q (A B : nat -> R), (ct + q <= m)%nat ->
  length2 m (fun i => if in_range i ct q then B (i - ct)%nat else A i) <= length2 m A + length2 q B.
Proof.
  intros m ct q A B H.
  pose proof (set_block_ok R (mkmat m 1 (fun i _ => A i)) ct 0 q 1 (mkmat q 1 (fun i _ => B i)) H (le_n 1) eq_refl eq_refl) as E.
  destruct (block_length _ _ _ _ _ E) as (_ & _ & X & L). cbn [nr] in L.
  eapply Rle_trans; [|exact L]. apply Req_le. apply length2_ext. intros i Hi. unfold column. rewrite X. reflexivity.
Qed.

Lemma scale_bound : forall k g r x, Rabs (1 / (in_f_x k / in_pixel_size k)) <= g -> Rabs (1 / (in_f_y k / in_pixel_size k)) <= g ->
  (scale_at k r * x) * (scale_at k r * x) <= g * g * (x * x).
Proof.
  intros k g r x H1 H2. assert (H : Rabs (scale_at k r) <= g) by (unfold scale_at; destruct (Nat.even r); assumption).
  assert (H3 : scale_at k r * scale_at k r <= g * g).
  { rewrite <- (Rabs_right (scale_at k r * scale_at k r)) by (apply Rle_ge, Rle_0_sqr). rewrite Rabs_mult.
    pose proof (Rabs_pos (scale_at k r)). apply Rmult_le_compat; lra. }
  replace (scale_at k r * x * (scale_at k r * x)) with (scale_at k r * scale_at k r * (x * x)) by ring.
  apply Rmult_le_compat_r; [apply Rle_0_sqr|exact H3].
Qed.

Lemma tracks_pixels : forall l u k pc ac n ci e ct Hx rx0 Hx' rx0' ct' e' g, mu_use_true u = true -> no_distortion k ->
  Rabs (1 / (in_f_x k / in_pixel_size k)) <= g -> Rabs (1 / (in_f_y k / in_pixel_size k)) <= g ->
  track_rows solve u k pc ac n ci e l ct Hx rx0 = OK (Hx', rx0', ct', e') ->
  forall off c G, bounded (nr rx0) off g G -> exists c' G', bounded (nr rx0) (off + pixels l) g G' /\
    forall p rx, fit (nr rx0) off c G p rx -> exists rx',
      track_rows solve u k pc ac n ci e (seen p off l) ct Hx rx = OK (Hx', rx', ct', e') /\ fit (nr rx0) (off + pixels l) c' G' p rx'.
Proof.
  induction l as [|t l IH]; intros u k pc ac n ci e ct Hx rx0 Hx' rx0' ct' e' g U K G1 G2 E off c0 G BD.
  - cbn in E. injection E as <- <- <- <-. exists c0, G. unfold pixels. cbn. rewrite Nat.add_0_r. split; [exact BD|].
    intros p rx F. exists rx. auto.
  - cbn [track_rows] in E. destruct (TriangulateFeature solve u k pc ac e t) as [[o e2]|] eqn:ET; cbn [bind] in E; [|discriminate].
    destruct (triangulate_pixels _ _ _ _ _ _ _ _ U ET) as [[pf ->] TP].
    destruct (feature_rows _ _ _ _ _ _ _ _ _ _ _ _ _) as [[[[rf Hf] Hc] e3]|] eqn:EF; cbn [bind] in E; [|discriminate].
    destruct (rows_misses _ _ _ _ _ _ _ _ _ _ _ _ _ _ _ _ _ _ (same_refl _) EF) as (_ & N1 & N2 & N3 & N4 & N5 & N6 & _).
    mz.
    destruct (rows_pixels _ _ _ _ _ _ _ _ _ _ _ _ _ _ _ _ _ K EF) as [c RP].
    destruct (ApplyLeftNullspace Hf Hc rf) as [[A b]|] eqn:EN; cbn [bind] in E; [|discriminate].
    destruct (nullspace_map Hf (null_le _ _ _ _ _ EN)) as [Q [Q1 Q2]].
    destruct (Q2 Hc rf ltac:(congruence) ltac:(congruence)) as (A' & b' & EN' & Z1 & Z2 & Z3 & Z4 & Z5 & Z6).
    rewrite EN in EN'. injection EN' as <- <-.
    destruct (set_block Hx _ _ _ _ _) as [Hx2|] eqn:EH; cbn [bind] in E; [|discriminate].
    destruct (set_block rx0 _ _ _ _ _) as [rx2|] eqn:ER; cbn [bind] in E; [|discriminate].
    destruct (block_length _ _ _ _ _ ER) as (B1 & _ & _ & _). apply set_block_inv in ER. destruct ER as (R1 & _ & _ & _ & _).
    set (N := (2 * length (ft_track t))%nat) in *. rewrite N3, N4 in *. set (q := (N - 3)%nat) in *. rewrite Z3 in R1.
    set (c1 := fun i => if in_range i ct q then mv N Q c (i - ct)%nat else c0 i).
    set (G' := fun i j => if in_range i ct q then (if Nat.ltb j off then 0 else Q (i - ct)%nat (j - off)%nat * scale_at k (j - off)%nat)
                          else (if Nat.ltb j off then G i j else 0)).
    assert (MV : forall v i, mv (off + N) G' v i = if in_range i ct q then mv N Q (fun r => scale_at k r * v (off + r)%nat) (i - ct)%nat else mv off G v i).
    { intros v i. unfold mv at 1. rewrite rsum_split. unfold G'. destruct (in_range i ct q).
      - rewrite rsum_0, Rplus_0_l by (intros j Hj; rewrite (proj2 (Nat.ltb_lt _ _) Hj); ring).
        unfold mv. apply rsum_ext. intros r _. destruct (Nat.ltb_spec (off + r) off); [lia|]. replace (off + r - off)%nat with r by lia. ring.
      - rewrite (rsum_0 N), Rplus_0_r by (intros j Hj; destruct (Nat.ltb_spec (off + j) off); [lia|ring]).
        unfold mv. apply rsum_ext. intros r Hr. rewrite (proj2 (Nat.ltb_lt _ _) Hr). reflexivity. }
    assert (BD' : bounded (nr rx0) (off + N) g G').
    { intros v. rewrite (length2_ext _ _ (fun i => if in_range i ct q then mv N Q (fun r => scale_at k r * v (off + r)%nat) (i - ct)%nat else mv off G v i)) by (intros i _; apply MV).
      eapply Rle_trans; [apply (patch_length (nr rx0) ct q (mv off G v) (mv N Q (fun r => scale_at k r * v (off + r)%nat)) R1)|].
      rewrite length2_split, Rmult_plus_distr_l. apply Rplus_le_compat; [apply BD|].
      eapply Rle_trans; [apply Q1|]. unfold length2. rewrite <- rsum_scal_l. apply rsum_le. intros r _. apply scale_bound; assumption. }
    destruct (IH _ _ _ _ _ _ _ _ _ _ _ _ _ _ g U K G1 G2 E (off + N)%nat c1 G') as [c' [G'' [BD'' IH2]]]; [rewrite B1; exact BD'|].
    rewrite B1 in BD'', IH2.
    assert (PX : (off + pixels (t :: l) = off + N + pixels l)%nat) by (unfold pixels, N; change (list_sum (map (fun t0 => length (ft_track t0)) (t :: l))) with (length (ft_track t) + list_sum (map (fun t0 => length (ft_track t0)) l))%nat; clear; lia). rewrite PX.
    exists c', G''. split; [exact BD''|]. intros p rx (P1 & P2 & P3).
    cbn [seen track_rows]. rewrite TP. cbn [bind ft_track].
    rewrite seen_at_length. fold N. destruct (RP p off (mzero N 1) eq_refl eq_refl) as [rf2 [F [F1 [F2 F3]]]]. mz.
    rewrite F. cbn [bind].
    destruct (Q2 Hc rf2 ltac:(congruence) ltac:(congruence)) as (A2 & b2 & EN2 & Y1 & Y2 & Y3 & Y4 & Y5 & Y6).
    assert (AE : A2 = A).
    { destruct A as [a1 a2 a3], A2 as [a1' a2' a3']. cbn in Z1, Z2, Z5, Y1, Y2, Y5. subst. f_equal.
      extensionality i. extensionality j. rewrite Z5, Y5. reflexivity. }
    rewrite EN2, AE. cbn [bind]. rewrite EH. cbn [bind].
    assert (SB : exists rx1, set_block rx ct 0 (nr b2) 1 b2 = OK rx1).
    { eexists. apply set_block_ok; [lia|lia|reflexivity|rewrite Y4; exact F2]. }
    destruct SB as [rx1 SB]. rewrite SB. cbn [bind].
    destruct (block_length _ _ _ _ _ SB) as (D1 & D2 & D3 & _).
    apply (IH2 p rx1). split; [congruence|]. split; [congruence|]. intros i Hi. rewrite D3, MV, Y3. unfold c1.
    destruct (in_range i ct q); [|apply P3; exact Hi]. rewrite Y6. unfold mv. rewrite <- rsum_plus. apply rsum_ext. intros r Hr.
    rewrite F3, (proj2 (in_range_spec _ _ _)) by (fold N; lia). replace (r - 2 * 0)%nat with r by lia. ring.
Qed.
End Tr.
