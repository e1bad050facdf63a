(** Two images of ten points that move by one pixel. *)
From Coq Require Import Reals List Arith ZArith Bool Lia Lra.
From Verif Require Import Base.Res Base.RDec Base.Mat Base.Geom Base.AMap Model.Types Model.MathHelper Model.Ekf Model.MsckfUpdater Model.Trackers
  Spec.Sub Spec.Matches Spec.Tracks Proofs.Matches Proofs.Tracks Proofs.ImageTracks.
Import ListNotations.
Open Scope R_scope.

Fixpoint demo_line (s : R) (a k : nat) : list KeyPoint :=
  match k with O => [] | S k => mkKP (10 * INR a + s) 5 (-1) :: demo_line s (S a) k end.
Definition demo_matches : list (list DMatch) := map (fun i => [mkDM i i 1; mkDM i 0 2]) (seq 0 10).
Definition demo_image (s : R) : image :=
  mkIm 10 100 (demo_line s 0 10) (fun l => l) demo_matches demo_matches (repeat 1%nat 10) 0.

Lemma demo_grid : forall s k a taken, 0 <= s < 10 -> (a + k <= 10)%nat -> Forall (fun c => (snd c < Z.of_nat a)%Z) taken ->
  grid_loop 10 100 taken (demo_line s a k) = demo_line s a k.
Proof.
  intros s k. induction k as [|k IH]; intros a taken Hs Ha F; [reflexivity|]. cbn [demo_line grid_loop].
  assert (Ei : IZR (Z.of_nat a) = INR a) by (symmetry; apply INR_IZR_INZ).
  assert (Ex : cell_of (10 * INR a + s) = Z.of_nat a) by (apply cell_square; [lia|rewrite Ei; lra]).
  assert (Ey : cell_of 5 = 0%Z) by (apply cell_square; [lia|lra]).
  assert (Ec : cell_of 100 = 10%Z) by (apply cell_square; [lia|lra]).
  assert (Er : cell_of 10 = 1%Z) by (apply cell_square; [lia|lra]).
  assert (Ht : trunc 5 = 5%Z) by (apply trunc_is; [lia|lra]).
  assert (Hx : (0 <= trunc (10 * INR a + s) < 100)%Z).
  { apply trunc_lt'. assert (INR a <= 9) by (replace 9 with (INR 9) by (simpl; lra); apply le_INR; lia).
    pose proof (pos_INR a). lra. }
  unfold in_grid, cell. cbn [kp_x kp_y]. rewrite Ex, Ey, Ec, Er, Ht.
  assert (E1 : (Z.of_nat a <? 0)%Z = false) by (apply Z.ltb_ge; lia).
  assert (E2 : (10 <=? Z.of_nat a)%Z = false) by (apply Z.leb_gt; lia).
  assert (E3 : (trunc (10 * INR a + s) <? 0)%Z = false) by (apply Z.ltb_ge; lia).
  assert (E4 : (100 <=? trunc (10 * INR a + s))%Z = false) by (apply Z.leb_gt; lia).
  rewrite E1, E2, E3, E4. cbn [Z.ltb Z.leb Z.compare Pos.compare Pos.compare_cont orb negb].
  assert (E5 : existsb (same_cell (0%Z, Z.of_nat a)) taken = false).
  { clear - F. induction F as [|c l H _ IHl]; simpl; [reflexivity|]. rewrite IHl, orb_false_r. unfold same_cell. cbn [fst snd].
    apply andb_false_iff. right. apply Z.eqb_neq. lia. }
  rewrite E5. f_equal. apply IH; auto; [lia|]. constructor; [simpl; lia|]. eapply Forall_impl; [|exact F]. simpl. intros. lia.
Qed.
Lemma demo_current : forall s, 0 <= s < 10 -> current_points (demo_image s) = demo_line s 0 10.
Proof. intros s H. unfold current_points, GridFeatures. cbn [im_described im_rows im_cols im_detected demo_image]. apply demo_grid; auto. Qed.
Lemma demo_line_length : forall s k a, length (demo_line s a k) = k.
Proof. intros s. induction k; simpl; intros; auto. Qed.
Lemma demo_neighbours : neighbours 10 10 demo_matches.
Proof.
  intros i m d H1 H2. do 10 (destruct i as [|i]; [simpl in H1; injection H1 as <-; simpl in H2; destruct H2 as [<-|[<-|[]]]; simpl; lia|]).
  simpl in H1. destruct i; discriminate.
Qed.
Lemma demo_class : forall s k a, Forall (fun p => kp_class p = (-1)%Z) (demo_line s a k).
Proof. intros s. induction k; simpl; intros; constructor; auto. Qed.
Lemma demo_ok : forall s t, 0 <= s < 10 -> (it_prev t = [] \/ length (it_prev t) = 10%nat) -> image_ok t (demo_image s).
Proof.
  intros s t Hs H. split; [apply demo_class|]. split; [intros l; apply sub_refl|]. intros N _.
  destruct H as [H|H]; [contradiction|]. rewrite demo_current, demo_line_length, H by auto.
  split; [apply demo_neighbours|]. split; [apply demo_neighbours|]. simpl. lia.
Qed.
Lemma demo_dist : forall a, pixel_dist (mkKP (10 * INR a + 1) 5 (-1), mkKP (10 * INR a + 2) 5 (-1)) = 1.
Proof.
  intros a. unfold pixel_dist. cbn [kp_x kp_y fst snd].
  replace ((10 * INR a + 2 - (10 * INR a + 1)) * (10 * INR a + 2 - (10 * INR a + 1)) + (5 - 5) * (5 - 5)) with 1 by ring.
  apply sqrt_1.
Qed.
Definition demo_t (mn mx : nat) (now : R) : image_tracker := mkIT mn mx (7 / 10) (demo_line 1 0 10) 1 now [].
Lemma demo_final : forall mn mx now, final_matches (demo_t mn mx now) (demo_image 2) (demo_line 2 0 10) =
  OK (map (fun i => mkDM i i 1) (seq 0 10)).
Proof.
  intros mn mx now. unfold final_matches. cbn [im_forward im_backward im_mask demo_image it_ratio it_prev demo_t].
  assert (Q : quot_above 1 2 (7 / 10) = false).
  { unfold quot_above. rewrite (proj2 (Reqb_false 2 0)) by lra. apply Rltb_ff. lra. }
  assert (E : RatioTest (7 / 10) demo_matches = demo_matches).
  { unfold demo_matches, RatioTest. cbn [map seq dm_dist]. rewrite Q. reflexivity. }
  rewrite E.
  assert (E2 : SymmetryTest demo_matches demo_matches = map (fun i => mkDM i i 1) (seq 0 10)) by reflexivity.
  rewrite E2.
  assert (E3 : RANSAC (repeat 1%nat 10) (demo_line 1 0 10) (demo_line 2 0 10) (map (fun i => mkDM i i 1) (seq 0 10)) =
    OK (map (fun i => mkDM i i 1) (seq 0 10))) by reflexivity.
  rewrite E3. cbn [bind]. unfold DistanceTest.
  assert (E4 : mapM (match_points (demo_line 1 0 10) (demo_line 2 0 10)) (map (fun i => mkDM i i 1) (seq 0 10)) =
    OK (map (fun a => (mkKP (10 * INR a + 1) 5 (-1), mkKP (10 * INR a + 2) 5 (-1))) (seq 0 10))) by reflexivity.
  rewrite E4. cbn [bind].
  assert (E5 : map pixel_dist (map (fun a => (mkKP (10 * INR a + 1) 5 (-1), mkKP (10 * INR a + 2) 5 (-1))) (seq 0 10)) = repeat 1 10).
  { rewrite map_map. rewrite (map_ext _ (fun _ => 1)) by (intro; apply demo_dist). reflexivity. }
  rewrite E5.
  assert (E6 : fold_left Rplus (repeat 1 10) 0 / INR (length (map (fun i => mkDM i i 1) (seq 0 10))) * 3 = 3).
  { cbn [repeat fold_left length map seq]. rewrite INR_IZR_INZ. cbn. lra. }
  rewrite E6. assert (L : Rltb 1 3 = true) by (apply Rltb_true; lra).
  cbn [map seq combine repeat filter snd]. rewrite L. reflexivity.
Qed.
Definition demo_check (r : res (list (list FeaturePoint) * nat * image_tracker)) : bool :=
  match r with
  | OK (out, _, _) => Nat.eqb (length out) 10 && forallb (fun u => Nat.eqb (length u) 2) out
  | UB => false
  end.
Definition demo_result : res (list (list FeaturePoint) * nat * image_tracker) :=
  let* (n, _, curr, fm) := track_matches (demo_t 1 2 7) 2 8 (map (fun i => mkDM i i 1) (seq 0 10))
    (0%nat, demo_line 1 0 10, demo_line 2 0 10, []) in
  let* (out, fm) := flush 2 1 2 fm in
  OK (out, n, mkIT 1 2 (7 / 10) curr 2 8 fm).
Lemma demo_checked : demo_check demo_result = true.
Proof. vm_compute. reflexivity. Qed.
Lemma demo_imaged : exists out n t,
  imaged 1 2 [(1%nat, demo_line 1 0 10); (2%nat, demo_line 2 0 10)] out n t /\ length out = 10%nat /\
  Forall (fun u => length u = 2%nat) out.
Proof.
  assert (I1 : imaged 1 2 [(1%nat, demo_line 1 0 10)] [] 0 (demo_t 1 2 7)).
  { rewrite <- (demo_current 1) by lra.
    apply (imaged_next 1 2 [] [] 0 (image_tracker_new 1 2 0) 1 7 7 (demo_image 1) [] 0 (demo_t 1 2 7)); auto.
    - apply (imaged_new 1 2 0 0).
    - apply demo_ok; [lra|auto].
    - rewrite image_idle by (left; reflexivity). rewrite demo_current by lra. reflexivity. }
  assert (E : exists out n t, Track (demo_t 1 2 7) 0 8 8 2 (demo_image 2) = OK (out, n, t) /\ length out = 10%nat /\
    Forall (fun u => length u = 2%nat) out).
  { assert (E : Track (demo_t 1 2 7) 0 8 8 2 (demo_image 2) = demo_result).
    { unfold Track, demo_result. rewrite demo_current by lra. rewrite demo_final. reflexivity. }
    rewrite E. pose proof demo_checked as C. clear E.
    destruct demo_result as [[[out n] t]|]; [|discriminate].
    exists out, n, t. split; [reflexivity|]. unfold demo_check in C. apply andb_true_iff in C. destruct C as [C1 C2].
    apply Nat.eqb_eq in C1. split; [exact C1|]. rewrite forallb_forall in C2. apply Forall_forall. intros u Hu.
    apply Nat.eqb_eq. now apply C2. }
  destruct E as [out [n [t [E [L F]]]]]. exists out, n, t. split; auto.
  rewrite <- (demo_current 2) by lra.
  apply (imaged_next 1 2 [(1%nat, demo_line 1 0 10)] [] 0 (demo_t 1 2 7) 2 8 8 (demo_image 2) out n t); auto.
  apply demo_ok; [lra|auto].
Qed.

(** A feature in front of the camera in two frames, outside in the third. *)
Definition demo_view (u : R) : view :=
  mkView (mkmat 3 3 (fun i j => if Nat.eqb i j then 1 else 0)) (mkV3 0 0 0) 640 480 (fun _ => (u, 10)) (fun _ => []).
Definition demo_frames : list sim_frame :=
  [mkSF 1 1 (demo_view 5) []; mkSF 2 2 (demo_view 6) []; mkSF 3 3 (demo_view (-1)) []].
Definition demo_world : features := GenerateVisibleFeatures [mkV3 0 0 3] (mkFeat [] []).
Lemma demo_visible : forall u, 0 <= u <= 640 -> visible (demo_view u) (mkV3 0 0 3) = true.
Proof.
  intros u H. unfold visible, in_front. cbn [demo_view vw_rot vw_pos vw_width vw_height vw_project ent vx vy vz fst snd Nat.eqb].
  rewrite Rltb_true by lra. rewrite !(fun a b => proj2 (Rleb_spec a b)) by lra. reflexivity.
Qed.
Lemma demo_hidden : visible (demo_view (-1)) (mkV3 0 0 3) = false.
Proof.
  unfold visible, in_front. cbn [demo_view vw_rot vw_pos vw_width vw_height vw_project ent vx vy vz fst snd Nat.eqb].
  rewrite (proj2 (Rleb_false 0 (-1))) by lra. rewrite andb_false_r. reflexivity.
Qed.
Lemma demo_sim : exists f l outs s' f', grown f /\ ascending (map sf_frame l) /\
  sim_run (sim_tracker_new 1 5 0 true) f l = OK (outs, s', f') /\ map (@length _) outs = [0; 0; 1]%nat /\
  map (fun T => frames (ft_track T)) (concat outs) = [[1; 2]]%nat.
Proof.
  assert (V5 := demo_visible 5 ltac:(lra)). assert (V6 := demo_visible 6 ltac:(lra)). pose proof demo_hidden as V1.
  exists demo_world, demo_frames. eexists. eexists. eexists. split; [apply grown_more; constructor|].
  split; [repeat constructor|]. split.
  - unfold demo_frames, sim_run, GenerateMessage, GetVisibleKeypoints, FilterInvisiblePoints.
    cbn [sf_others sf_view sf_time sf_frame]. unfold demo_world.
    cbn -[visible demo_view key_point]. 
    rewrite V5. cbn -[visible demo_view]. rewrite V6. cbn -[visible demo_view]. rewrite V1. cbn -[demo_view]. reflexivity.
  - split; reflexivity.
Qed.
