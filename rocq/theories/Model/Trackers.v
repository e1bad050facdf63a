(** Feature detection thinning, match filters and feature tracks.
    /repo/src/trackers/feature_tracker.cpp 119-387,
    /repo/src/trackers/sim/sim_feature_tracker.cpp 46-181 and the feature list
    of /repo/src/infrastructure/sim/truth_engine.cpp 150-215.

    What OpenCV computes (detected points, points with a descriptor, nearest
    neighbour matches, fundamental matrix mask, projected points) is given
    with each frame.  Pixel coordinates and distances are [float] in the code
    and real numbers here; casts to [int] truncate and do not overflow.
    Drawing and log lines are omitted. *)
From Coq Require Import Reals List Arith Bool ZArith.
From Verif Require Import Base.Res Base.Mat Base.RDec Base.Geom Base.AMap
  Model.Types Model.MathHelper Model.Ekf Model.MsckfUpdater Model.Sensors.
Import ListNotations.
Open Scope R_scope.

(** *** GridFeatures, feature_tracker.cpp 119-164 *)
(** [min_pixel_distance], 126 *)
Definition cell_width : R := 10.
(** 129-130 and 147-148: [static_cast<int>(x / min_pixel_distance)] *)
Definition cell_of (x : R) : Z := trunc (x / cell_width).
(** 149-153 *)
Definition in_grid (rows cols : Z) (p : KeyPoint) : bool :=
  negb (Z.ltb (cell_of (kp_x p)) 0 || Z.leb (cell_of (IZR cols)) (cell_of (kp_x p))
     || Z.ltb (cell_of (kp_y p)) 0 || Z.leb (cell_of (IZR rows)) (cell_of (kp_y p))
     || Z.ltb (trunc (kp_x p)) 0 || Z.leb cols (trunc (kp_x p))
     || Z.ltb (trunc (kp_y p)) 0 || Z.leb rows (trunc (kp_y p))).
Definition cell (p : KeyPoint) : Z * Z := (cell_of (kp_y p), cell_of (kp_x p)).
Definition same_cell (a b : Z * Z) : bool := Z.eqb (fst a) (fst b) && Z.eqb (snd a) (snd b).
(** 141-162; [taken] lists the cells of [grid_2d] that hold 255. *)
Fixpoint grid_loop (rows cols : Z) (taken : list (Z * Z)) (l : list KeyPoint) : list KeyPoint :=
  match l with
  | [] => []
  | p :: l =>
      if negb (in_grid rows cols p) then grid_loop rows cols taken l
      else if existsb (same_cell (cell p)) taken then grid_loop rows cols taken l
      else p :: grid_loop rows cols (cell p :: taken) l
  end.
Definition GridFeatures (rows cols : Z) (l : list KeyPoint) : list KeyPoint := grid_loop rows cols [] l.

(** *** Match filters *)
(** cv::DMatch: [queryIdx], [trainIdx], [distance].  The matchers return no
    negative index. *)
Record DMatch : Type := mkDM { dm_query : nat; dm_train : nat; dm_dist : R }.

(** [a / b > r] on doubles: with [b] zero the quotient is an infinity of the
    sign of [a], or not a number, which compares false. *)
Definition quot_above (a b r : R) : bool := if Reqb b 0 then Rltb 0 a else Rltb r (a / b).
(** feature_tracker.cpp 279-290 *)
Definition RatioTest (knn_ratio : R) (ms : list (list DMatch)) : list (list DMatch) :=
  map (fun m => match m with
       | [_] => []
       | [a; b] => if quot_above (dm_dist a) (dm_dist b) knn_ratio then [] else m
       | _ => m
       end) ms.

(** 305-309 *)
Definition mutual (f : DMatch) (m : list DMatch) : bool :=
  match m with
  | [b; _] => Nat.eqb (dm_query f) (dm_train b) && Nat.eqb (dm_query b) (dm_train f)
  | _ => false
  end.
(** 292-316 *)
Fixpoint SymmetryTest (forward backward : list (list DMatch)) : list DMatch :=
  match forward with
  | [] => []
  | [f; _] :: l => if existsb (mutual f) backward then f :: SymmetryTest l backward else SymmetryTest l backward
  | _ :: l => SymmetryTest l backward
  end.

(** 333-338, 360-367: [at] on the key points *)
Definition match_points (prev curr : list KeyPoint) (m : DMatch) : res (KeyPoint * KeyPoint) :=
  let* p := vnth prev (dm_query m) in
  let* c := vnth curr (dm_train m) in
  OK (p, c).
(** 318-350.  [mask] is the output of findFundamentalMat; reading past its
    end is undefined. *)
Definition RANSAC (mask : list nat) (prev curr : list KeyPoint) (ms : list DMatch) : res (list DMatch) :=
  if Nat.ltb (length ms) 10 then OK []
  else
    let* _ := mapM (match_points prev curr) ms in
    let* _ := guard (Nat.leb (length ms) (length mask)) in
    OK (map fst (filter (fun q => Nat.eqb (snd q) 1) (combine ms mask))).

(** 368-370, 381-383 *)
Definition pixel_dist (pc : KeyPoint * KeyPoint) : R :=
  sqrt ((kp_x (snd pc) - kp_x (fst pc)) * (kp_x (snd pc) - kp_x (fst pc)) +
        (kp_y (snd pc) - kp_y (fst pc)) * (kp_y (snd pc) - kp_y (fst pc))).
(** 352-387.  Without matches the mean is not a number and unused. *)
Definition DistanceTest (prev curr : list KeyPoint) (ms : list DMatch) : res (list DMatch) :=
  let* ps := mapM (match_points prev curr) ms in
  let ds := map pixel_dist ps in
  let dist_sum := fold_left Rplus ds 0 in
  let dist_mean := dist_sum / INR (length ms) in
  OK (map fst (filter (fun q => Rltb (snd q) (dist_mean * 3)) (combine ms ds))).

(** *** Feature tracks *)
Definition feature_map := amap (list FeaturePoint).
(** [m_feature_points_map[static_cast<unsigned int>(class_id)].push_back(point)]:
    a negative class id does not occur (see Proofs/Tracks.v) and is undefined here. *)
Definition push_point (m : feature_map) (p : FeaturePoint) : res feature_map :=
  let id := kp_class (fp_kp p) in
  let* _ := guard (Z.leb 0 id) in
  OK (mset (Z.to_nat id) (mget [] (Z.to_nat id) m ++ [p]) m).
Fixpoint push_points (m : feature_map) (l : list FeaturePoint) : res feature_map :=
  match l with
  | [] => OK m
  | p :: l => let* m := push_point m p in push_points m l
  end.

(** feature_tracker.cpp 243-262, sim_feature_tracker.cpp 152-173: tracks to
    hand over and tracks to keep.  [back()] of an empty vector is undefined. *)
Fixpoint flush (frame min_len max_len : nat) (m : feature_map) : res (list (list FeaturePoint) * feature_map) :=
  match m with
  | [] => OK ([], [])
  | (k, l) :: m =>
      let* _ := guard (negb (Nat.eqb (length l) 0)) in
      let back := last l (mkFP 0 0 (mkKP 0 0 0)) in
      let* (out, kept) := flush frame min_len max_len m in
      if Nat.ltb (fp_frame back) frame || Nat.leb max_len (length l) then
        OK (if Nat.leb min_len (length l) then l :: out else out, kept)
      else OK (out, (k, l) :: kept)
  end.

(** *** The tracker on camera images, feature_tracker.hpp 156-193 *)
Record image_tracker : Type := mkIT {
  it_min : nat; it_max : nat; it_ratio : R;
  it_prev : list KeyPoint; it_prev_frame : nat; it_prev_time : R; it_map : feature_map }.
(** tracker.cpp 20-28, feature_tracker.cpp 35-55.  [m_prev_frame_id] is
    uninitialised but not read before the first frame has been stored. *)
Definition image_tracker_new (min_len max_len : nat) (now : R) : image_tracker :=
  mkIT min_len max_len (7 / 10) [] 0 now [].

(** What OpenCV makes of one image: its size, the detected points, the
    points for which a descriptor could be computed, the two nearest
    neighbours of each descriptor in both directions, the mask of the
    fundamental matrix.  [im_ids] counts the feature numbers that other
    trackers took since the previous image. *)
Record image : Type := mkIm {
  im_rows : Z; im_cols : Z; im_detected : list KeyPoint; im_described : list KeyPoint -> list KeyPoint;
  im_forward : list (list DMatch); im_backward : list (list DMatch); im_mask : list nat; im_ids : nat }.

Definition set_class (p : KeyPoint) (id : Z) : KeyPoint := mkKP (kp_x p) (kp_y p) id.
Fixpoint vset {A} (l : list A) (i : nat) (a : A) : list A :=
  match l, i with
  | [], _ => []
  | _ :: l, O => a :: l
  | b :: l, S i => b :: vset l i a
  end.

(** feature_tracker.cpp 226-241: one match *)
Definition track_match (t : image_tracker) (frame : nat) (now : R)
  (q : nat * list KeyPoint * list KeyPoint * feature_map) (m : DMatch) :
  res (nat * list KeyPoint * list KeyPoint * feature_map) :=
  let '(n, prev, curr, fm) := q in
  let* p := vnth prev (dm_query m) in
  let* (n, p, prev, fm) :=
    (if Z.eqb (kp_class p) (-1) then
       let p := set_class p (Z.of_nat n) in
       let* fm := push_point fm (mkFP (it_prev_frame t) (it_prev_time t) p) in
       OK (S n, p, vset prev (dm_query m) p, fm)
     else OK (n, p, prev, fm)) in
  let* c := vnth curr (dm_train m) in
  let c := set_class c (kp_class p) in
  let* fm := push_point fm (mkFP frame now c) in
  OK (n, prev, vset curr (dm_train m) c, fm).
Fixpoint track_matches (t : image_tracker) (frame : nat) (now : R) (ms : list DMatch)
  (q : nat * list KeyPoint * list KeyPoint * feature_map) :
  res (nat * list KeyPoint * list KeyPoint * feature_map) :=
  match ms with
  | [] => OK q
  | m :: ms => let* q := track_match t frame now q m in track_matches t frame now ms q
  end.

(** 203-216 *)
Definition final_matches (t : image_tracker) (im : image) (curr : list KeyPoint) : res (list DMatch) :=
  let forward := RatioTest (it_ratio t) (im_forward im) in
  let backward := RatioTest (it_ratio t) (im_backward im) in
  let* ransac := RANSAC (im_mask im) (it_prev t) curr (SymmetryTest forward backward) in
  DistanceTest (it_prev t) curr ransac.

(** 184-193: detect, thin out, describe *)
Definition current_points (im : image) : list KeyPoint :=
  im_described im (GridFeatures (im_rows im) (im_cols im) (im_detected im)).

(** 166-271.  [now] is GetCurrentTime() when the image is processed and
    [after] the same once the filter has been updated; [n] is the static
    feature counter.  Result: the tracks handed to the updater (no update if
    there are none), the counter, the tracker. *)
Definition Track (t : image_tracker) (n : nat) (now after : R) (frame : nat) (im : image) :
  res (list (list FeaturePoint) * nat * image_tracker) :=
  let n := (n + im_ids im)%nat in
  let curr := current_points im in
  if negb (Nat.eqb (length (it_prev t)) 0) && negb (Nat.eqb (length curr) 0) then
    let* ms := final_matches t im curr in
    let* (n, _, curr, fm) := track_matches t frame now ms (n, it_prev t, curr, it_map t) in
    let* (out, fm) := flush frame (it_min t) (it_max t) fm in
    OK (out, n, mkIT (it_min t) (it_max t) (it_ratio t) curr frame after fm)
  else OK ([], n, mkIT (it_min t) (it_max t) (it_ratio t) curr frame after (it_map t)).

(** *** Simulated features, truth_engine.cpp 150-215 *)
Record features : Type := mkFeat { f_points : list V3; f_map : amap V3 }.
(** truth_engine.cpp 154-164: the points of one cell of the grid *)
Definition grid_points (room gx gy : R) : list V3 :=
  let h := room / 2 in
  [mkV3 h gx gy; mkV3 (- h) gx gy; mkV3 gx h gy; mkV3 gx (- h) gy; mkV3 gx gy h; mkV3 gx gy (- h)].
(** 152-171 *)
Definition GenerateGridFeatures (grid_size : nat) (room : R) (f : features) : features :=
  let pos := fun i : nat => INR i / INR grid_size * room - room / 2 in
  let pts := f_points f ++
    flat_map (fun i => flat_map (fun j => grid_points room (pos i) (pos j)) (seq 0 grid_size)) (seq 0 grid_size) in
  mkFeat pts (fold_left (fun m q => mset (fst q) (snd q) m) (combine (seq 0 (length pts)) pts) (f_map f)).
(** 172-205.  [fresh] are the random positions. *)
Definition GenerateVisibleFeatures (fresh : list V3) (f : features) : features :=
  fold_left (fun f p => mkFeat (f_points f ++ [p]) (mset (length (f_map f)) p (f_map f))) fresh f.
(** 212-215: an unknown id inserts and returns the default point. *)
Definition GetFeature (f : features) (id : nat) : V3 * features :=
  (mget v0 id (f_map f), mkFeat (f_points f) (mtouch v0 id (f_map f))).

(** *** The simulated tracker, sim_feature_tracker.cpp *)
Record sim_tracker : Type := mkST {
  st_min : nat; st_max : nat; st_count : nat; st_no_errors : bool; st_map : feature_map }.
Definition sim_tracker_new (min_len max_len count : nat) (no_errors : bool) : sim_tracker :=
  mkST min_len max_len count no_errors [].
(** What a frame sees: pose of the camera, intrinsics, projection of a point
    (cv::projectPoints), random new features. *)
Record view : Type := mkView {
  vw_rot : mat R; vw_pos : V3; vw_width : R; vw_height : R; vw_project : V3 -> R * R; vw_fresh : nat -> list V3 }.
(** C [round]: half away from zero *)
Definition c_round (x : R) : R := if Rltb x 0 then - IZR (Int_part (- x + 1 / 2)) else IZR (Int_part (x + 1 / 2)).
(** 105, 116: [cam_plane_vec.dot(point_eig)], [cam_plane_vec] being the third
    column of [rot_c_to_l] *)
Definition in_front (v : view) (p : V3) : bool :=
  Rltb 0 (ent (vw_rot v) 0 2 * (vx p - vx (vw_pos v)) + ent (vw_rot v) 1 2 * (vy p - vy (vw_pos v)) +
          ent (vw_rot v) 2 2 * (vz p - vz (vw_pos v))).
(** 114-121 *)
Definition visible (v : view) (p : V3) : bool :=
  let px := vw_project v p in
  in_front v p && Rleb 0 (fst px) && Rleb 0 (snd px) && Rleb (fst px) (vw_width v) && Rleb (snd px) (vw_height v).
(** 122-131 *)
Definition key_point (no_errors : bool) (v : view) (i : nat) (p : V3) : KeyPoint :=
  let px := vw_project v p in
  if no_errors then mkKP (fst px) (snd px) (Z.of_nat i)
  else mkKP (c_round (fst px)) (c_round (snd px)) (Z.of_nat i).
(** 96-135 *)
Definition FilterInvisiblePoints (no_errors : bool) (v : view) (pts : list V3) : list KeyPoint :=
  flat_map (fun q => if visible v (snd q) then [key_point no_errors v (fst q) (snd q)] else [])
    (combine (seq 0 (length pts)) pts).
(** 46-94 *)
Definition GetVisibleKeypoints (s : sim_tracker) (v : view) (f : features) : list KeyPoint * features :=
  let kps := FilterInvisiblePoints (st_no_errors s) v (f_points f) in
  if Nat.ltb (length kps) (st_count s) then
    let f := GenerateVisibleFeatures (vw_fresh v (st_count s - length kps)) f in
    (FilterInvisiblePoints (st_no_errors s) v (f_points f), f)
  else (kps, f).
(** 160-168 *)
Fixpoint with_truth (f : features) (l : list (list FeaturePoint)) : list FeatureTrack * features :=
  match l with
  | [] => ([], f)
  | t :: l =>
      let id := Z.to_nat (kp_class (fp_kp (hd (mkFP 0 0 (mkKP 0 0 0)) t))) in
      let '(p, f) := GetFeature f id in
      let '(r, f) := with_truth f l in
      (mkFT t (Some p) :: r, f)
  end.
(** 137-181.  With a minimum length of 0 an empty track cannot occur. *)
Definition GenerateMessage (s : sim_tracker) (f : features) (time : R) (frame : nat) (v : view) :
  res (list FeatureTrack * sim_tracker * features) :=
  let '(kps, f) := GetVisibleKeypoints s v f in
  let* m := push_points (st_map s) (map (mkFP frame time) kps) in
  let* (out, m) := flush frame (st_min s) (st_max s) m in
  let '(tracks, f) := with_truth f out in
  OK (tracks, mkST (st_min s) (st_max s) (st_count s) (st_no_errors s) m, f).
