(** ToVector, SetState and GetStateSize. *)
From Coq Require Import Reals List Arith Bool Lia Lra FunctionalExtensionality.
From Verif Require Import Base.Res Base.Mat Base.RDec Base.LinAlg Base.Geom Base.AMap Base.RMat
  Model.TypeHelper Model.Types Model.Ekf Model.Ops Spec.Layout Spec.History Spec.Contract Spec.Correct Spec.Vector
  Proofs.Refresh Proofs.Wf Proofs.Register Proofs.PlusVec Proofs.Invariant Proofs.Rotations.
Import ListNotations.
Open Scope nat_scope.

(** *** Writing a list of entries *)
Definition wr (o : mat R) (i : nat) (l : list R) : mat R :=
  mkmat (nr o) (nc o) (fun x y => if in_range x i (length l) && in_range y 0 1 then nth (x - i) l 0%R else ent o x y).
Definition put (o : mat R) (i : nat) (l : list R) : res (mat R) :=
  if i + length l <=? nr o then OK (wr o i l) else UB.

Lemma wr_nil : forall o i, wr o i [] = o.
Proof.
  intros [r c f] i. unfold wr. cbn [nr nc ent length]. f_equal. extensionality x. extensionality y.
  replace (in_range x i 0) with false; [reflexivity|]. symmetry. apply not_true_iff_false. rewrite in_range_spec. lia.
Qed.
Lemma wr_app : forall o i l m, wr (wr o i l) (i + length l) m = wr o i (l ++ m).
Proof.
  intros o i l m. unfold wr. cbn [nr nc ent]. f_equal. extensionality x. extensionality y.
  destruct (in_range y 0 1) eqn:Ey; rewrite ?andb_true_r, ?andb_false_r; [|reflexivity].
  rewrite app_length.
  destruct (in_range x (i + length l) (length m)) eqn:E1.
  - apply in_range_spec in E1. replace (in_range x i (length l + length m)) with true by (symmetry; apply in_range_spec; lia).
    rewrite app_nth2 by lia. f_equal. lia.
  - destruct (in_range x i (length l)) eqn:E2.
    + apply in_range_spec in E2. replace (in_range x i (length l + length m)) with true by (symmetry; apply in_range_spec; lia).
      rewrite app_nth1 by lia. reflexivity.
    + apply not_true_iff_false in E1, E2. rewrite in_range_spec in E1, E2.
      replace (in_range x i (length l + length m)) with false; [reflexivity|].
      symmetry. apply not_true_iff_false. rewrite in_range_spec. lia.
Qed.
Lemma put_nil : forall o i, i <= nr o -> put o i [] = OK o.
Proof. intros o i H. unfold put. cbn [length]. rewrite (proj2 (Nat.leb_le _ _)) by lia. rewrite wr_nil. reflexivity. Qed.
Lemma put_app : forall o i l m, nr o < i + length l -> put o i (l ++ m) = UB.
Proof. intros o i l m H. unfold put. rewrite app_length, (proj2 (Nat.leb_gt _ _)) by lia. reflexivity. Qed.
(** [put] followed by [put]. *)
Lemma put_then : forall o i l m,
  (let* o' := put o i l in put o' (i + length l) m) = put o i (l ++ m).
Proof.
  intros o i l m. unfold put. rewrite app_length.
  destruct (Nat.leb_spec (i + length l) (nr o)) as [H|H]; cbn [bind].
  - cbn [nr wr]. rewrite wr_app. destruct (Nat.leb_spec (i + length l + length m) (nr o)) as [H2|H2].
    + rewrite (proj2 (Nat.leb_le _ _)) by lia. reflexivity.
    + rewrite (proj2 (Nat.leb_gt _ _)) by lia. reflexivity.
  - rewrite (proj2 (Nat.leb_gt _ _)) by lia. reflexivity.
Qed.

Definition col (l : list R) : mat R := mkmat (length l) 1 (fun x y => if in_range y 0 1 then nth x l 0%R else 0%R).
Lemma wr_all : forall l, wr (mzero (length l) 1) 0 l = mkmat (length l) 1 (fun x y => if in_range x 0 (length l) && in_range y 0 1 then nth x l 0%R else 0%R).
Proof. intros l. unfold wr. cbn [nr nc ent mzero mconst]. f_equal. extensionality x. extensionality y. rewrite Nat.sub_0_r. reflexivity. Qed.
Lemma set_seg : forall o i a, nc o = 1 -> set_seg3 o i a = put o i [vx a; vy a; vz a].
Proof.
  intros o i a Hc. unfold set_seg3, set_block, put. cbn [length v3mat nr nc ent]. rewrite Hc. cbn [Nat.add Nat.leb Nat.eqb andb].
  rewrite !andb_true_r. destruct (i + 3 <=? nr o); [|reflexivity]. cbn [andb]. f_equal. unfold wr. rewrite Hc. f_equal.
  extensionality x. extensionality y. destruct (in_range x i (length [vx a; vy a; vz a])) eqn:E; cbn [length] in E; rewrite E; [|reflexivity].
  cbn [length]. destruct (in_range y 0 1); [|reflexivity]. cbn [andb]. apply in_range_spec in E.
  assert (D : x - i = 0 \/ x - i = 1 \/ x - i = 2) by lia. destruct D as [->|[->| ->]]; reflexivity.
Qed.
Lemma set_vec : forall o i l, nc o = 1 -> set_block o i 0 (length l) 1 (wr (mzero (length l) 1) 0 l) = put o i l.
Proof.
  intros o i l Hc. unfold set_block, put. cbn [nr nc wr mzero mconst]. rewrite Hc, !Nat.eqb_refl. cbn [Nat.add Nat.leb andb].
  rewrite !andb_true_r. destruct (i + length l <=? nr o); [|reflexivity]. f_equal. unfold wr. rewrite Hc. f_equal.
  extensionality x. extensionality y. cbn [ent]. destruct (in_range x i (length l)) eqn:E; [|reflexivity].
  destruct (in_range y 0 1) eqn:Ey; [|reflexivity]. cbn [andb]. apply in_range_spec in E, Ey.
  replace (in_range (x - i) 0 (length l)) with true by (symmetry; apply in_range_spec; lia).
  replace (in_range (y - 0) 0 1) with true by (symmetry; apply in_range_spec; lia). cbn [andb].
  rewrite Nat.sub_0_r. reflexivity.
Qed.
Lemma put_nc : forall o i l o', put o i l = OK o' -> nc o' = nc o /\ nr o' = nr o.
Proof. intros o i l o' H. unfold put in H. destruct (_ <=? _); [|discriminate]. injection H as <-. auto. Qed.

Definition v3l (a : V3) : list R := [vx a; vy a; vz a].
Definition pose_l (p : V3) (q : quat) : list R := v3l p ++ v3l (QuatToRotVec q).
Definition body_l (b : BodyState) : list R :=
  v3l (b_pos b) ++ v3l (b_vel b) ++ v3l (b_acc b) ++ v3l (QuatToRotVec (b_ang b)) ++ v3l (b_ang_vel b) ++ v3l (b_ang_acc b).
Definition imu_l (s : ImuState) : list R :=
  (if i_ext s then pose_l (i_pos s) (i_ang s) else []) ++ (if i_int s then v3l (i_acc_bias s) ++ v3l (i_omg_bias s) else []).

Lemma two_segs : forall o i a b, nc o = 1 ->
  (let* o1 := set_seg3 o i a in set_seg3 o1 (i + 3) b) = put o i (v3l a ++ v3l b).
Proof.
  intros o i a b Hc. rewrite <- put_then. rewrite set_seg by exact Hc. fold (v3l a).
  destruct (put o i (v3l a)) as [o1|] eqn:E; [|reflexivity]. cbn [bind]. apply set_seg.
  rewrite (proj1 (put_nc _ _ _ _ E)). exact Hc.
Qed.
Lemma put_fits : forall n l, length l = n -> put (mzero n 1) 0 l = OK (wr (mzero n 1) 0 l).
Proof. intros n l H. unfold put. cbn [nr mzero mconst]. rewrite (proj2 (Nat.leb_le _ _)) by lia. reflexivity. Qed.

Lemma pose_vec : forall p q, pose_ToVector p q = OK (wr (mzero 6 1) 0 (pose_l p q)).
Proof.
  intros p q. unfold pose_ToVector. change (set_seg3 ?o 3 ?b) with (set_seg3 o (0 + 3) b).
  rewrite (two_segs (mzero 6 1) 0 p (QuatToRotVec q) eq_refl). apply put_fits. reflexivity.
Qed.
Lemma seg_step : forall o i l a, nc o = 1 -> i + length l + 3 <= nr o ->
  set_seg3 (wr o i l) (i + length l) a = OK (wr o i (l ++ v3l a)).
Proof.
  intros o i l a Hc H. rewrite set_seg by exact Hc. unfold put. cbn [nr wr length].
  rewrite (proj2 (Nat.leb_le _ _)) by lia. rewrite <- wr_app. reflexivity.
Qed.
Lemma seg_step_at : forall o l a n, nc o = 1 -> n = length l -> n + 3 <= nr o ->
  set_seg3 (wr o 0 l) n a = OK (wr o 0 (l ++ v3l a)).
Proof. intros o l a n Hc -> H. exact (seg_step o 0 l a Hc H). Qed.
Lemma body_vec : forall b, body_ToVector b = OK (wr (mzero 18 1) 0 (body_l b)).
Proof.
  intros b. unfold body_ToVector, body_l. change g_body_state_size with 18.
  rewrite <- (wr_nil (mzero 18 1) 0) at 1.
  assert (Hc : nc (mzero 18 1) = 1) by reflexivity. assert (Hr : nr (mzero 18 1) = 18) by reflexivity.
  set (z := mzero 18 1) in *. clearbody z.
  do 5 (rewrite (seg_step_at z) by (cbn [length v3l app]; lia || reflexivity || exact Hc); cbn [bind]).
  rewrite (seg_step_at z) by (cbn [length v3l app]; lia || reflexivity || exact Hc).
  reflexivity.
Qed.
Lemma imu_vec : forall s, i_size s = imu_len s -> imu_ToVector s = OK (wr (mzero (imu_len s) 1) 0 (imu_l s)).
Proof.
  intros s Hs. unfold imu_ToVector, imu_l, pose_l. rewrite Hs. unfold imu_len.
  change g_imu_extrinsic_state_size with 6. change g_imu_intrinsic_state_size with 6.
  destruct (i_ext s), (i_int s); cbn [Nat.add].
  - rewrite <- (wr_nil (mzero 12 1) 0) at 1.
    assert (Hc : nc (mzero 12 1) = 1) by reflexivity. assert (Hr : nr (mzero 12 1) = 12) by reflexivity.
    set (z := mzero 12 1) in *. clearbody z.
    do 2 (rewrite (seg_step_at z) by (cbn [length v3l app]; lia || reflexivity || exact Hc); cbn [bind]).
    rewrite (seg_step_at z) by (cbn [length v3l app]; lia || reflexivity || exact Hc); cbn [bind].
    rewrite (seg_step_at z) by (cbn [length v3l app]; lia || reflexivity || exact Hc). reflexivity.
  - rewrite <- (wr_nil (mzero 6 1) 0) at 1.
    assert (Hc : nc (mzero 6 1) = 1) by reflexivity. assert (Hr : nr (mzero 6 1) = 6) by reflexivity.
    set (z := mzero 6 1) in *. clearbody z.
    do 2 (rewrite (seg_step_at z) by (cbn [length v3l app]; lia || reflexivity || exact Hc); cbn [bind]).
    rewrite app_nil_r. reflexivity.
  - rewrite <- (wr_nil (mzero 6 1) 0) at 1.
    assert (Hc : nc (mzero 6 1) = 1) by reflexivity. assert (Hr : nr (mzero 6 1) = 6) by reflexivity.
    set (z := mzero 6 1) in *. clearbody z. cbn [bind].
    rewrite (seg_step_at z) by (cbn [length v3l app]; lia || reflexivity || exact Hc); cbn [bind].
    rewrite (seg_step_at z) by (cbn [length v3l app]; lia || reflexivity || exact Hc). reflexivity.
  - cbn [bind app]. rewrite wr_nil. reflexivity.
Qed.
Lemma fid_vec : forall s, f_ext s = true -> f_size s = fid_len s ->
  fid_ToVector s = OK (wr (mzero 6 1) 0 (pose_l (f_pos s) (f_ang s))).
Proof.
  intros s He Hs. unfold fid_ToVector. rewrite Hs. unfold fid_len. rewrite He. change g_fid_extrinsic_state_size with 6.
  exact (pose_vec (f_pos s) (f_ang s)).
Qed.
Lemma imu_l_len : forall s, length (imu_l s) = imu_len s.
Proof. intros s. unfold imu_l, imu_len. destruct (i_ext s), (i_int s); reflexivity. Qed.
Lemma pose_l_len : forall p q, length (pose_l p q) = 6.
Proof. reflexivity. Qed.

(** *** The whole state *)
Definition imu_w (x : nat * ImuState) : list R := if i_ext (snd x) then imu_l (snd x) else [].
Definition gps_w (x : nat * GpsState) : list R := if g_ext (snd x) then v3l (g_pos (snd x)) else [].
Definition cam_w (x : nat * CamState) : list R := if c_ext (snd x) then pose_l (c_pos (snd x)) (c_ang (snd x)) else [].
Definition fid_w (x : nat * FidState) : list R := if f_ext (snd x) then pose_l (f_pos (snd x)) (f_ang (snd x)) else [].
Definition clone_w (a : AugState) : list R := pose_l (a_pos a) (a_ang a).
Definition aug_w (x : nat * list AugState) : list R := flat_map clone_w (snd x).
Definition state_w (s : State) : list R :=
  body_l (s_body s) ++ flat_map imu_w (s_imu s) ++ flat_map gps_w (s_gps s) ++ flat_map cam_w (s_cam s) ++
  flat_map fid_w (s_fid s) ++ flat_map aug_w (s_aug s).

(** Writing [l] and returning the next free place. *)
Definition putn (o : mat R) (i : nat) (l : list R) : res (mat R * nat) :=
  let* o' := put o i l in OK (o', i + length l).
Lemma putn_nil : forall o i, i <= nr o -> putn o i [] = OK (o, i).
Proof. intros o i H. unfold putn. rewrite put_nil by exact H. cbn [bind length]. rewrite Nat.add_0_r. reflexivity. Qed.
Lemma putn_app : forall o i l m,
  (let* (o', j) := putn o i l in putn o' j m) = putn o i (l ++ m).
Proof.
  intros o i l m. unfold putn. rewrite <- put_then. destruct (put o i l) as [o'|]; [|reflexivity]. cbn [bind].
  rewrite app_length, Nat.add_assoc. reflexivity.
Qed.
(** One step of a loop: write [l], go on with the rest. *)
Lemma putn_step : forall o i l m (k : mat R -> nat -> res (mat R * nat)),
  nc o = 1 ->
  (forall o', nc o' = 1 -> nr o' = nr o -> i + length l <= nr o' -> k o' (i + length l) = putn o' (i + length l) m) ->
  (let* o' := put o i l in k o' (i + length l)) = putn o i (l ++ m).
Proof.
  intros o i l m k Hc H. rewrite <- putn_app. change (putn o i l) with (let* o' := put o i l in OK (o', i + length l)).
  destruct (put o i l) as [o'|] eqn:E; [|reflexivity].
  cbn [bind]. destruct (put_nc _ _ _ _ E) as [E1 E2]. apply H; [congruence|exact E2|]. rewrite E2.
  unfold put in E. destruct (Nat.leb_spec (i + length l) (nr o)); [assumption|discriminate].
Qed.
Lemma put_block : forall o i l n, nc o = 1 -> length l = n -> set_block o i 0 n 1 (wr (mzero n 1) 0 l) = put o i l.
Proof. intros o i l n Hc <-. apply set_vec. exact Hc. Qed.

Lemma imus_vec : forall m o i, nc o = 1 -> i <= nr o -> Forall (fun x => i_size (snd x) = imu_len (snd x)) m ->
  imus_ToVector m o i = putn o i (flat_map imu_w m).
Proof.
  induction m as [|[k s] t IH]; intros o i Hc Hi F; cbn [imus_ToVector flat_map].
  - symmetry. apply putn_nil. exact Hi.
  - inversion F as [|? ? F1 F2]; subst. cbn [snd] in F1. unfold imu_w at 1. cbn [snd]. rewrite orb_diag.
    destruct (i_ext s); [|cbn [app]; apply IH; assumption].
    rewrite imu_vec by exact F1. cbn [bind nr wr mzero mconst]. rewrite put_block by (exact Hc || apply imu_l_len).
    rewrite <- (imu_l_len s). apply (putn_step o i (imu_l s) (flat_map imu_w t) (fun o' j => imus_ToVector t o' j) Hc).
    intros o' H1 H2 H3. apply IH; assumption.
Qed.
Lemma gpss_vec : forall m o i, nc o = 1 -> i <= nr o -> gpss_ToVector m o i = putn o i (flat_map gps_w m).
Proof.
  induction m as [|[k s] t IH]; intros o i Hc Hi; cbn [gpss_ToVector flat_map].
  - symmetry. apply putn_nil. exact Hi.
  - unfold gps_w at 1. cbn [snd]. destruct (g_ext s); [|cbn [app]; apply IH; assumption].
    rewrite set_seg by exact Hc. apply (putn_step o i (v3l (g_pos s)) (flat_map gps_w t) (fun o' j => gpss_ToVector t o' j) Hc).
    intros o' H1 H2 H3. apply IH; assumption.
Qed.
Lemma cams_vec : forall m o i, nc o = 1 -> i <= nr o -> cams_ToVector m o i = putn o i (flat_map cam_w m).
Proof.
  induction m as [|[k s] t IH]; intros o i Hc Hi; cbn [cams_ToVector flat_map].
  - symmetry. apply putn_nil. exact Hi.
  - unfold cam_w at 1. cbn [snd]. destruct (c_ext s); [|cbn [app]; apply IH; assumption].
    rewrite pose_vec. cbn [bind]. change g_cam_extrinsic_state_size with 6.
    rewrite put_block by (exact Hc || reflexivity).
    apply (putn_step o i (pose_l (c_pos s) (c_ang s)) (flat_map cam_w t) (fun o' j => cams_ToVector t o' j) Hc).
    intros o' H1 H2 H3. apply IH; assumption.
Qed.
Lemma fids_vec : forall m o i, nc o = 1 -> i <= nr o -> Forall (fun x => f_size (snd x) = fid_len (snd x)) m ->
  fids_ToVector m o i = putn o i (flat_map fid_w m).
Proof.
  induction m as [|[k s] t IH]; intros o i Hc Hi F; cbn [fids_ToVector flat_map].
  - symmetry. apply putn_nil. exact Hi.
  - inversion F as [|? ? F1 F2]; subst. cbn [snd] in F1. unfold fid_w at 1. cbn [snd].
    destruct (f_ext s) eqn:E; [|cbn [app]; apply IH; assumption].
    rewrite fid_vec by assumption. cbn [bind]. change g_fid_extrinsic_state_size with 6. rewrite Nat.add_0_r.
    rewrite put_block by (exact Hc || reflexivity).
    apply (putn_step o i (pose_l (f_pos s) (f_ang s)) (flat_map fid_w t) (fun o' j => fids_ToVector t o' j) Hc).
    intros o' H1 H2 H3. apply IH; assumption.
Qed.
Lemma augv_vec : forall l o i, nc o = 1 -> i <= nr o -> augv_ToVector l o i = putn o i (flat_map clone_w l).
Proof.
  induction l as [|s t IH]; intros o i Hc Hi; cbn [augv_ToVector flat_map].
  - symmetry. apply putn_nil. exact Hi.
  - rewrite pose_vec. cbn [bind]. change g_aug_state_size with 6.
    rewrite put_block by (exact Hc || reflexivity).
    apply (putn_step o i (clone_w s) (flat_map clone_w t) (fun o' j => augv_ToVector t o' j) Hc).
    intros o' H1 H2 H3. apply IH; assumption.
Qed.
Lemma putn_ok : forall o i l o' j, putn o i l = OK (o', j) -> nc o' = nc o /\ nr o' = nr o /\ j <= nr o'.
Proof.
  intros o i l o' j H. unfold putn in H. destruct (put o i l) as [x|] eqn:E; [|discriminate]. cbn [bind] in H.
  injection H as <- <-. destruct (put_nc _ _ _ _ E) as [E1 E2]. repeat split; auto. rewrite E2.
  unfold put in E. destruct (Nat.leb_spec (i + length l) (nr o)); [assumption|discriminate].
Qed.
Lemma augs_vec : forall m o i, nc o = 1 -> i <= nr o -> augs_ToVector m o i = putn o i (flat_map aug_w m).
Proof.
  induction m as [|[k l] t IH]; intros o i Hc Hi; cbn [augs_ToVector flat_map].
  - symmetry. apply putn_nil. exact Hi.
  - rewrite augv_vec by assumption. unfold aug_w at 1. cbn [snd]. rewrite <- putn_app.
    destruct (putn o i (flat_map clone_w l)) as [[o' j]|] eqn:E; [|reflexivity]. cbn [bind].
    destruct (putn_ok _ _ _ _ _ E) as [E1 [E2 E3]]. apply IH; congruence.
Qed.

Lemma chain : forall o i l m, nc o = 1 -> forall (k : mat R * nat -> res (mat R)),
  (forall o' j, nc o' = 1 -> j <= nr o' -> k (o', j) = let* x := putn o' j m in OK (fst x)) ->
  (let* x := putn o i l in k x) = let* x := putn o i (l ++ m) in OK (fst x).
Proof.
  intros o i l m Hc k H. rewrite <- putn_app. destruct (putn o i l) as [[o' j]|] eqn:E; [|reflexivity]. cbn [bind].
  destruct (putn_ok _ _ _ _ _ E) as [E1 [E2 E3]]. apply H; congruence.
Qed.

Lemma state_size_18 : forall s, 18 <= GetStateSize s.
Proof. intros s. unfold GetStateSize. change g_body_state_size with 18. lia. Qed.

Lemma ToVector_put : forall s, sizes_ok s -> ToVector s = put (mzero (GetStateSize s) 1) 0 (state_w s).
Proof.
  intros s [S1 [S2 [S3 S4]]]. unfold ToVector. rewrite body_vec. cbn [bind]. change g_body_state_size with 18.
  set (o := mzero (GetStateSize s) 1). assert (Hc : nc o = 1) by reflexivity.
  rewrite put_block by reflexivity.
  transitivity (let* x := putn o 0 (state_w s) in OK (fst x)).
  2: { unfold putn. destruct (put o 0 (state_w s)); reflexivity. }
  unfold state_w. rewrite <- putn_app.
  change (putn o 0 (body_l (s_body s))) with (let* o' := put o 0 (body_l (s_body s)) in OK (o', 0 + length (body_l (s_body s)))).
  destruct (put o 0 (body_l (s_body s))) as [o1|] eqn:E; [|reflexivity]. cbn [bind].
  change (0 + length (body_l (s_body s))) with 18.
  destruct (put_nc _ _ _ _ E) as [E1 E2].
  assert (E3 : 18 <= nr o1) by (rewrite E2; apply state_size_18).
  clearbody o. rewrite imus_vec by (congruence || assumption).
  assert (Hc1 : nc o1 = 1) by congruence. clear Hc E E1 E2 o.
  rewrite <- chain with (k := fun x => let* x := putn (fst x) (snd x) (flat_map gps_w (s_gps s) ++ flat_map cam_w (s_cam s) ++
    flat_map fid_w (s_fid s) ++ flat_map aug_w (s_aug s)) in OK (fst x)); [|assumption|reflexivity].
  destruct (putn o1 18 (flat_map imu_w (s_imu s))) as [[o2 i2]|] eqn:E; [|reflexivity]. cbn [bind fst snd].
  destruct (putn_ok _ _ _ _ _ E) as [E1 [E2 E4]]. assert (Hc2 : nc o2 = 1) by congruence. clear E E1 E2 Hc1 E3 o1.
  rewrite gpss_vec by assumption.
  rewrite <- chain with (k := fun x => let* x := putn (fst x) (snd x) (flat_map cam_w (s_cam s) ++
    flat_map fid_w (s_fid s) ++ flat_map aug_w (s_aug s)) in OK (fst x)); [|assumption|reflexivity].
  destruct (putn o2 i2 (flat_map gps_w (s_gps s))) as [[o3 i3]|] eqn:E; [|reflexivity]. cbn [bind fst snd].
  destruct (putn_ok _ _ _ _ _ E) as [E1 [E2 E5]]. assert (Hc3 : nc o3 = 1) by congruence. clear E E1 E2 Hc2 E4 o2.
  rewrite cams_vec by assumption.
  rewrite <- chain with (k := fun x => let* x := putn (fst x) (snd x) (
    flat_map fid_w (s_fid s) ++ flat_map aug_w (s_aug s)) in OK (fst x)); [|assumption|reflexivity].
  destruct (putn o3 i3 (flat_map cam_w (s_cam s))) as [[o4 i4]|] eqn:E; [|reflexivity]. cbn [bind fst snd].
  destruct (putn_ok _ _ _ _ _ E) as [E1 [E2 E6]]. assert (Hc4 : nc o4 = 1) by congruence. clear E E1 E2 Hc3 E5 o3.
  rewrite fids_vec by assumption.
  rewrite <- chain with (k := fun x => let* x := putn (fst x) (snd x) (flat_map aug_w (s_aug s)) in OK (fst x)); [|assumption|reflexivity].
  destruct (putn o4 i4 (flat_map fid_w (s_fid s))) as [[o5 i5]|] eqn:E; [|reflexivity]. cbn [bind fst snd].
  destruct (putn_ok _ _ _ _ _ E) as [E1 [E2 E7]]. assert (Hc5 : nc o5 = 1) by congruence.
  rewrite augs_vec by assumption. destruct (putn o5 i5 (flat_map aug_w (s_aug s))) as [[? ?]|]; reflexivity.
Qed.

(** *** The entries are the estimates, in the order of the layout *)
Lemma map_flat : forall A B C (f : B -> C) (g : A -> list B) l, map f (flat_map g l) = flat_map (fun x => map f (g x)) l.
Proof. intros A B C f g l. induction l as [|x t IH]; [reflexivity|]. cbn [flat_map]. rewrite map_app, IH. reflexivity. Qed.
Lemma filter_flat : forall A B (p : B -> bool) (g : A -> list B) l, filter p (flat_map g l) = flat_map (fun x => filter p (g x)) l.
Proof. intros A B p g l. induction l as [|x t IH]; [reflexivity|]. cbn [flat_map]. rewrite filter_app, IH. reflexivity. Qed.
Lemma flat_map_in : forall A B (f g : A -> list B) l, (forall x, In x l -> f x = g x) -> flat_map f l = flat_map g l.
Proof.
  intros A B f g l H. induction l as [|x t IH]; [reflexivity|]. cbn [flat_map].
  rewrite (H x (or_introl eq_refl)), IH; [reflexivity|]. intros y Hy. apply H. right. exact Hy.
Qed.

Lemma sorted_find : forall A (m : amap A) k x, sorted m -> In (k, x) m -> mfind k m = Some x.
Proof.
  unfold sorted. induction m as [|[j y] m IH]; intros k x S H; [destruct H|]. cbn [keys map fst mfind] in *.
  inversion S as [|? ? S1 S2]; subst. destruct H as [H|H].
  - injection H as -> ->. rewrite Nat.eqb_refl. reflexivity.
  - destruct (Nat.eqb_spec k j) as [->|D]; [|apply IH; auto]. exfalso.
    rewrite Forall_forall in S2. assert (X : In j (keys m)) by (apply in_map_iff; exists (j, x); auto).
    specialize (S2 j X). lia.
Qed.

Lemma clones_est : forall (f : nat -> nat -> R) l n,
  (forall pos a, nth_error l pos = Some a -> map (f (n + pos)) (seq 0 6) = clone_w a) ->
  flat_map (fun pos => map (f pos) (seq 0 6)) (seq n (length l)) = flat_map clone_w l.
Proof.
  intros f l. induction l as [|a t IH]; intros n H; [reflexivity|]. cbn [length].
  change (seq n (S (length t))) with (n :: seq (S n) (length t)). cbn [flat_map].
  rewrite (IH (S n)).
  - f_equal. specialize (H 0 a eq_refl). rewrite Nat.add_0_r in H. exact H.
  - intros pos b Hb. specialize (H (S pos) b Hb). replace (S n + pos) with (n + S pos) by lia. exact H.
Qed.

Lemma state_est : forall s, sorted_state s -> map (estimate s) (written s) = state_w s.
Proof.
  intros s [S1 [S2 [S3 [S4 S5]]]]. unfold written, layout, state_w. rewrite !filter_app, !map_app, !filter_flat, !map_flat.
  apply f_equal2; [reflexivity|]. apply f_equal2; [|apply f_equal2; [|apply f_equal2; [|apply f_equal2]]].
  - apply flat_map_in. intros [k x] H. apply sorted_find in H; [|exact S1]. unfold imu_labels, imu_w, imu_l. cbn [fst snd].
    destruct (i_ext x) eqn:E1, (i_int x) eqn:E2; unfold six, bias_only; cbn [seq map app filter]; rewrite ?H, ?E1; cbn [negb map];
      unfold estimate; rewrite ?H; reflexivity.
  - apply flat_map_in. intros [k x] H. apply sorted_find in H; [|exact S2]. unfold gps_labels, gps_w. cbn [fst snd].
    destruct (g_ext x) eqn:E1; [|reflexivity]. unfold three, bias_only; cbn [seq map filter negb]. unfold estimate. rewrite H. reflexivity.
  - apply flat_map_in. intros [k x] H. apply sorted_find in H; [|exact S3]. unfold cam_labels, cam_w. cbn [fst snd].
    destruct (c_ext x) eqn:E1; [|reflexivity]. unfold six, bias_only; cbn [seq map filter negb]. unfold estimate. rewrite H. reflexivity.
  - apply flat_map_in. intros [k x] H. apply sorted_find in H; [|exact S4]. unfold fid_labels, fid_w. cbn [fst snd].
    destruct (f_ext x) eqn:E1; [|reflexivity]. unfold six, bias_only; cbn [seq map filter negb]. unfold estimate. rewrite H. reflexivity.
  - apply flat_map_in. intros [k l] H. apply sorted_find in H; [|exact S5]. unfold aug_labels, aug_w. cbn [fst snd].
    rewrite filter_flat, map_flat.
    transitivity (flat_map (fun pos => map (fun j => estimate s (LAug k pos j)) (seq 0 6)) (seq 0 (length l))).
    { apply flat_map_in. intros pos _. reflexivity. }
    apply (clones_est (fun pos j => estimate s (LAug k pos j))). intros pos a Ha. cbn [Nat.add].
    unfold estimate, mget. rewrite H, Ha. reflexivity.
Qed.

Lemma written_ok : forall s, sorted_state s -> sizes_ok s -> length (written s) <= GetStateSize s ->
  exists v, ToVector s = OK v /\ nr v = GetStateSize s /\ nc v = 1 /\
    (forall i a, nth_error (written s) i = Some a -> ent v i 0 = estimate s a) /\
    (forall i, length (written s) <= i -> ent v i 0 = 0%R).
Proof.
  intros s Hs Hz H. rewrite ToVector_put by exact Hz. rewrite <- state_est by exact Hs. unfold put.
  rewrite map_length. cbn [Nat.add nr mzero mconst]. rewrite (proj2 (Nat.leb_le _ _)) by exact H.
  eexists. split; [reflexivity|]. split; [reflexivity|]. split; [reflexivity|]. unfold wr. cbn [ent mzero mconst]. rewrite map_length. split.
  - intros i a Ha. assert (L : i < length (written s)) by (apply nth_error_Some; congruence).
    replace (in_range i 0 (length (written s))) with true by (symmetry; apply in_range_spec; lia).
    replace (in_range 0 0 1) with true by reflexivity. cbn [andb]. rewrite Nat.sub_0_r.
    apply nth_error_nth. rewrite nth_error_map, Ha. reflexivity.
  - intros i Hi. replace (in_range i 0 (length (written s))) with false; [reflexivity|].
    symmetry. apply not_true_iff_false. rewrite in_range_spec. lia.
Qed.
Lemma written_overflow : forall s, sorted_state s -> sizes_ok s -> GetStateSize s < length (written s) -> ToVector s = UB.
Proof.
  intros s Hs Hz H. rewrite ToVector_put by exact Hz. rewrite <- state_est by exact Hs. unfold put.
  rewrite map_length. cbn [Nat.add nr mzero mconst]. rewrite (proj2 (Nat.leb_gt _ _)) by exact H. reflexivity.
Qed.

(** *** Sizes *)
Lemma aug_sum : forall (m : amap (list AugState)), sum_len aug_len m = 6 * length (flat_map snd m).
Proof.
  induction m as [|[k l] t IH]; [reflexivity|]. rewrite sum_len_cons, IH. cbn [flat_map snd]. rewrite app_length.
  unfold aug_len. lia.
Qed.
Lemma tot_clones : forall s, tot s + 6 * window_count s = GetStateSize s + 6 * clone_count s.
Proof.
  intros s. unfold tot, start_aug, start_fid, start_cam, start_gps, GetStateSize, window_count, clone_count. rewrite aug_sum.
  change g_aug_state_size with 6. change g_body_state_size with 18. lia.
Qed.
Lemma filter_all : forall A (p : A -> bool) l, (forall x, In x l -> p x = true) -> filter p l = l.
Proof.
  intros A p l H. induction l as [|x t IH]; [reflexivity|]. cbn [filter]. rewrite (H x (or_introl eq_refl)), IH; [reflexivity|].
  intros y Hy. apply H. right. exact Hy.
Qed.
(** What a label of the layout names. *)
Definition names (s : State) (a : label) : Prop :=
  match a with
  | LBody k => k < 18
  | LImuExt id k => exists x, In (id, x) (s_imu s) /\ i_ext x = true /\ k < 6
  | LImuInt id k => exists x, In (id, x) (s_imu s) /\ i_int x = true /\ k < 6
  | LGps id k => exists x, In (id, x) (s_gps s) /\ g_ext x = true /\ k < 3
  | LCam id k => exists x, In (id, x) (s_cam s) /\ c_ext x = true /\ k < 6
  | LFid id k => exists x, In (id, x) (s_fid s) /\ f_ext x = true /\ k < 6
  | LAug key pos k => exists l x, In (key, l) (s_aug s) /\ nth_error l pos = Some x /\ k < 6
  end.
Lemma in_six_k : forall f x, In x (six f) -> exists k, k < 6 /\ x = f k.
Proof. intros f x H. unfold six in H. apply in_map_iff in H. destruct H as [k [E K]]. apply in_seq in K. exists k. split; [lia|auto]. Qed.
Lemma in_three_k : forall f x, In x (three f) -> exists k, k < 3 /\ x = f k.
Proof. intros f x H. unfold three in H. apply in_map_iff in H. destruct H as [k [E K]]. apply in_seq in K. exists k. split; [lia|auto]. Qed.
Lemma layout_names : forall s a, In a (layout s) -> names s a.
Proof.
  intros s a H. unfold layout in H. rewrite !in_app_iff, !in_flat_map in H.
  destruct H as [H|[H|[H|[H|[H|H]]]]].
  - apply in_map_iff in H. destruct H as [k [<- K]]. apply in_seq in K. cbn [names]. lia.
  - destruct H as [[id x] [H1 H2]]. unfold imu_labels in H2. cbn [fst snd] in H2. apply in_app_iff in H2. destruct H2 as [H2|H2].
    + destruct (i_ext x) eqn:E; [|destruct H2]. apply in_six_k in H2. destruct H2 as [k [K ->]]. cbn [names]. exists x. auto.
    + destruct (i_int x) eqn:E; [|destruct H2]. apply in_six_k in H2. destruct H2 as [k [K ->]]. cbn [names]. exists x. auto.
  - destruct H as [[id x] [H1 H2]]. unfold gps_labels in H2. cbn [fst snd] in H2.
    destruct (g_ext x) eqn:E; [|destruct H2]. apply in_three_k in H2. destruct H2 as [k [K ->]]. cbn [names]. exists x. auto.
  - destruct H as [[id x] [H1 H2]]. unfold cam_labels in H2. cbn [fst snd] in H2.
    destruct (c_ext x) eqn:E; [|destruct H2]. apply in_six_k in H2. destruct H2 as [k [K ->]]. cbn [names]. exists x. auto.
  - destruct H as [[id x] [H1 H2]]. unfold fid_labels in H2. cbn [fst snd] in H2.
    destruct (f_ext x) eqn:E; [|destruct H2]. apply in_six_k in H2. destruct H2 as [k [K ->]]. cbn [names]. exists x. auto.
  - destruct H as [[key l] [H1 H2]]. unfold aug_labels in H2. cbn [fst snd] in H2. apply in_flat_map in H2.
    destruct H2 as [pos [P H2]]. apply in_six_k in H2. destruct H2 as [k [K ->]]. cbn [names]. apply in_seq in P.
    destruct (nth_error l pos) as [x|] eqn:E; [exists l, x; auto|]. apply nth_error_None in E. lia.
Qed.
Lemma written_all : forall s, sorted_state s -> no_bias_only s -> written s = layout s.
Proof.
  intros s Hs H. unfold written. apply filter_all. intros a Ha. apply layout_names in Ha.
  destruct a; try reflexivity. unfold bias_only. cbn [names] in Ha. destruct Ha as [x [H1 [H2 _]]].
  apply sorted_find in H1; [|apply Hs]. rewrite H1, (H _ _ H1 H2). reflexivity.
Qed.
(** What is missing from the vector: six scalars for each IMU of which only the biases are estimated. *)
Lemma written_count : forall s, sorted_state s ->
  length (written s) + 6 * length (filter (fun x => i_int (snd x) && negb (i_ext (snd x))) (s_imu s)) = dim s.
Proof.
  intros s Hs. unfold dim. rewrite <- (map_length (estimate s)), state_est by exact Hs. unfold state_w, layout.
  rewrite !app_length.
  assert (L1 : length (flat_map imu_w (s_imu s)) + 6 * length (filter (fun x => i_int (snd x) && negb (i_ext (snd x))) (s_imu s))
     = length (flat_map imu_labels (s_imu s))).
  { induction (s_imu s) as [|[k x] t IH]; [reflexivity|]. cbn [flat_map filter snd]. rewrite !app_length.
    unfold imu_w at 1, imu_labels at 1. cbn [snd fst].
    destruct (i_ext x) eqn:E1, (i_int x) eqn:E2; cbn [andb negb]; rewrite ?imu_l_len; unfold imu_len; rewrite ?E1, ?E2;
      cbn [length app]; rewrite ?app_length; unfold six; rewrite ?map_length, ?seq_length; cbn [length];
      change g_imu_extrinsic_state_size with 6; change g_imu_intrinsic_state_size with 6; lia. }
  assert (L2 : length (flat_map gps_w (s_gps s)) = length (flat_map gps_labels (s_gps s))).
  { induction (s_gps s) as [|[k x] t IH]; [reflexivity|]. cbn [flat_map]. rewrite !app_length, IH. f_equal.
    unfold gps_w, gps_labels. cbn [snd fst]. destruct (g_ext x); reflexivity. }
  assert (L3 : length (flat_map cam_w (s_cam s)) = length (flat_map cam_labels (s_cam s))).
  { induction (s_cam s) as [|[k x] t IH]; [reflexivity|]. cbn [flat_map]. rewrite !app_length, IH. f_equal.
    unfold cam_w, cam_labels. cbn [snd fst]. destruct (c_ext x); reflexivity. }
  assert (L4 : length (flat_map fid_w (s_fid s)) = length (flat_map fid_labels (s_fid s))).
  { induction (s_fid s) as [|[k x] t IH]; [reflexivity|]. cbn [flat_map]. rewrite !app_length, IH. f_equal.
    unfold fid_w, fid_labels. cbn [snd fst]. destruct (f_ext x); reflexivity. }
  assert (L5 : length (flat_map aug_w (s_aug s)) = length (flat_map aug_labels (s_aug s))).
  { induction (s_aug s) as [|[k l] t IH]; [reflexivity|]. cbn [flat_map]. rewrite !app_length, IH. f_equal.
    unfold aug_w, aug_labels. cbn [snd fst]. generalize 0. induction l as [|a l IHl]; intros n; [reflexivity|].
    cbn [flat_map length seq]. rewrite !app_length, (IHl (S n)). reflexivity. }
  change (length (body_l (s_body s))) with 18. rewrite map_length, seq_length. lia.
Qed.
