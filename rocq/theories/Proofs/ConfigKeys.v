(** Keys that are not known have no effect. *)
From Coq Require Import Reals List Arith Bool String Lia.
From Verif Require Import Base.Res Base.Mat Base.RMat Base.LinAlg Base.RDec Base.Geom Model.TypeHelper Model.Types Model.Ekf
  Model.Sensors Model.TruthEngine Model.SimMain Model.RosNode Model.SimConfig Spec.Ros Spec.Config Proofs.Config.
Import ListNotations.
Open Scope string_scope.
Open Scope R_scope.

Definition alikes (s : schema) (a b : option ynode) : Prop :=
  match a, b with None, None => True | Some x, Some y => alike s x y | _, _ => False end.
Lemma alike_refl : forall s a, alike s a a.
Proof. intros [|f] a; left; reflexivity. Qed.
Lemma alikes_refl : forall s a, alikes s a a.
Proof. intros s [a|]; [apply alike_refl | exact I]. Qed.
Lemma alikes_value : forall a b, alikes Value a b -> a = b.
Proof. intros [a|] [b|] H; cbn in H; try easy. destruct H as [->|[]]. reflexivity. Qed.

Inductive same_res (s : schema) : res (option ynode) -> res (option ynode) -> Prop :=
| same_ub : same_res s UB UB
| same_ok : forall a b, alikes s a b -> same_res s (OK a) (OK b).
Lemma child_alike : forall f n m k s, alikes (Keys f) n m -> f k = Some s -> same_res s (child n k) (child m k).
Proof.
  intros f n m k s H Hk. destruct n as [n|], m as [m|]; cbn in H; try easy; [|constructor; exact I].
  destruct H as [<-|(l & l' & -> & -> & H)].
  - destruct n; cbn [child]; constructor; apply alikes_refl.
  - cbn [child]. constructor. specialize (H k). rewrite Hk in H. rewrite !entry_find.
    destruct (find _ l), (find _ l'); cbn [option_map alikes]; easy.
Qed.
Definition key (l : list (string * schema)) (k : string) : option schema :=
  match find (fun x => String.eqb (fst x) k) l with Some x => Some (snd x) | None => None end.
Lemma child_known : forall l n m k s, alikes (known l) n m -> key l k = Some s -> same_res s (child n k) (child m k).
Proof. intros l n m k s H Hk. exact (child_alike _ n m k s H Hk). Qed.
Lemma child_value : forall l n m k, alikes (known l) n m -> key l k = Some Value -> child n k = child m k.
Proof. intros l n m k H Hk. destruct (child_known l n m k Value H Hk) as [|a b E]; [reflexivity|]. apply alikes_value in E. now subst. Qed.
Lemma child_name : forall s n m k, alikes (each_name s) n m -> same_res s (child n k) (child m k).
Proof. intros s n m k H. exact (child_alike _ n m k s H eq_refl). Qed.

Section Alike.
Variables (l : list (string * schema)) (n m : option ynode).
Hypothesis A : alikes (known l) n m.
Lemma real_alike : forall k d, key l k = Some Value -> real n k d = real m k d.
Proof. intros k d Hk. unfold real. now rewrite (child_value l n m k A Hk). Qed.
Lemma natural_alike : forall k d, key l k = Some Value -> natural n k d = natural m k d.
Proof. intros k d Hk. unfold natural. now rewrite (child_value l n m k A Hk). Qed.
Lemma flag_alike : forall k d, key l k = Some Value -> flag n k d = flag m k d.
Proof. intros k d Hk. unfold flag. now rewrite (child_value l n m k A Hk). Qed.
Lemma text_alike : forall k d, key l k = Some Value -> text n k d = text m k d.
Proof. intros k d Hk. unfold text. now rewrite (child_value l n m k A Hk). Qed.
Lemma reals_alike : forall k d, key l k = Some Value -> reals n k d = reals m k d.
Proof. intros k d Hk. unfold reals. now rewrite (child_value l n m k A Hk). Qed.
Lemma vec_alike : forall asserts k, key l k = Some Value -> vec asserts n k = vec asserts m k.
Proof. intros asserts k Hk. unfold vec. now rewrite (reals_alike k _ Hk). Qed.
Lemma vecx_alike : forall asserts k, key l k = Some Value -> vecx asserts n k = vecx asserts m k.
Proof. intros asserts k Hk. unfold vecx. now rewrite (reals_alike k _ Hk). Qed.
Lemma rotation_alike : forall k, key l k = Some Value -> rotation n k = rotation m k.
Proof. intros k Hk. unfold rotation. now rewrite (reals_alike k _ Hk). Qed.
End Alike.

(** Replace every read below [n] by the same read below [m]. *)
Ltac exchange A := match type of A with alikes (known ?l) ?n ?m =>
  repeat match goal with
  | |- context [real n ?k ?d] => rewrite (real_alike l n m A k d eq_refl)
  | |- context [natural n ?k ?d] => rewrite (natural_alike l n m A k d eq_refl)
  | |- context [flag n ?k ?d] => rewrite (flag_alike l n m A k d eq_refl)
  | |- context [text n ?k ?d] => rewrite (text_alike l n m A k d eq_refl)
  | |- context [reals n ?k ?d] => rewrite (reals_alike l n m A k d eq_refl)
  | |- context [vec ?a n ?k] => rewrite (vec_alike l n m A a k eq_refl)
  | |- context [vecx ?a n ?k] => rewrite (vecx_alike l n m A a k eq_refl)
  | |- context [rotation n ?k] => rewrite (rotation_alike l n m A k eq_refl)
  end end.
Ltac descend A k B := match type of A with alikes (known ?l) ?n ?m =>
  destruct (child_known l n m k _ A eq_refl) as [|? ? B]; [reflexivity|]; cbn [snd] in B; cbn [bind] end.
Lemma bind_ext : forall X Y (r : res X) (f g : X -> res Y), (forall x, f x = g x) -> bind r f = bind r g.
Proof. intros X Y [x|] f g H; [apply H | reflexivity]. Qed.

Lemma imu_alike : forall asserts n m, alikes imu_keys n m -> read_imu asserts n = read_imu asserts m.
Proof.
  intros asserts n m A. unfold imu_keys in A. unfold read_imu. descend A "sim_params" B. exchange A.
  exchange B. reflexivity.
Qed.
Lemma tracker_alike : forall n m, alikes tracker_keys n m -> read_tracker n = read_tracker m.
Proof. intros n m A. unfold tracker_keys in A. unfold read_tracker. descend A "sim_params" B. exchange A. exchange B. reflexivity. Qed.
Lemma board_alike : forall asserts n m, alikes board_keys n m -> read_board asserts n = read_board asserts m.
Proof. intros asserts n m A. unfold board_keys in A. unfold read_board. descend A "sim_params" B. exchange A. exchange B. reflexivity. Qed.
Lemma gps_alike : forall asserts n m, alikes gps_keys n m -> read_gps asserts n = read_gps asserts m.
Proof. intros asserts n m A. unfold gps_keys in A. unfold read_gps. descend A "sim_params" B. exchange A. exchange B. reflexivity. Qed.

Lemma intrinsics_alike : forall n m, alikes (known (values ["f_x"; "f_y"; "k_1"; "k_2"; "p_1"; "p_2"; "width"; "height"; "pixel_size"])) n m ->
  read_intrinsics n = read_intrinsics m.
Proof. intros n m A. unfold read_intrinsics. exchange A. reflexivity. Qed.
Lemma cam_alike : forall asserts n m, alikes cam_keys n m -> read_camera asserts n = read_camera asserts m.
Proof.
  intros asserts n m A. unfold cam_keys in A. unfold read_camera. descend A "sim_params" B. exchange A. exchange B.
  do 8 (apply bind_ext; intros ?). descend A "intrinsics" HI. rewrite (intrinsics_alike _ _ HI). reflexivity.
Qed.
Lemma params_alike : forall n m, alikes top_keys n m -> read_params n = read_params m.
Proof. intros n m A. unfold top_keys in A. unfold read_params. exchange A. reflexivity. Qed.
Lemma noise_alike : forall n m, alikes (known (values ["pos"; "vel"; "acc"; "ang_pos"; "ang_vel"; "ang_acc"])) n m ->
  LoadProcessNoise n = LoadProcessNoise m.
Proof. intros n m A. unfold LoadProcessNoise. exchange A. reflexivity. Qed.
Lemma each_alike : forall A (rd : option ynode -> res A) s n m kind names,
  (forall a b, alikes s a b -> rd a = rd b) -> same_res (each_name s) (child n kind) (child m kind) ->
  read_each rd n kind names = read_each rd m kind names.
Proof.
  intros A rd s n m kind names H S. unfold read_each. induction names as [|x names IH]; [reflexivity|]. cbn [mapM].
  rewrite IH. f_equal. destruct S as [|a b S]; [reflexivity|]. cbn [bind].
  destruct (child_name s a b x S) as [|c d C]; [reflexivity|]. cbn [bind]. rewrite (H c d C). reflexivity.
Qed.
Lemma engine_alike : forall asserts fit max rnd n m, alikes (known (values ["seed"; "max_time"; "truth_type"; "stationary_time"; "pos_frequency"; "ang_frequency"; "pos_offset"; "ang_offset";
     "pos_amplitude"; "ang_amplitude"; "times"; "positions"; "angles"; "pos_errors"; "ang_errors";
     "pos_b_in_l_error"; "ang_b_to_l_error"; "pos_e_in_g_error"; "ang_l_to_e_error"])) n m ->
  read_engine asserts fit n max rnd = read_engine asserts fit m max rnd.
Proof. intros asserts fit max rnd n m A. unfold read_engine. exchange A. reflexivity. Qed.
Theorem config_alike : forall asserts fit f g rnd, alike file_keys f g ->
  read_config asserts fit f rnd = read_config asserts fit g rnd.
Proof.
  intros asserts fit f g rnd H. unfold read_config. assert (A0 : alikes file_keys (Some f) (Some g)) by exact H. unfold file_keys in A0.
  descend A0 "/EkfCalNode" HA1. descend HA1 "ros__parameters" A. rewrite (params_alike _ _ A). unfold top_keys in A.
  match type of A with alikes (known ?l) ?n ?m =>
    rewrite (child_value l n m "imu_list" A eq_refl), (child_value l n m "camera_list" A eq_refl), (child_value l n m "tracker_list" A eq_refl),
      (child_value l n m "fiducial_list" A eq_refl), (child_value l n m "gps_list" A eq_refl) end.
  exchange A. do 12 (apply bind_ext; intros ?). descend A "process_noise" HN. rewrite (noise_alike _ _ HN).
  do 5 (apply bind_ext; intros ?). descend A "sim_params" HS.
  exchange HS. apply bind_ext; intros ?. rewrite (engine_alike _ _ _ _ _ _ HS).
  do 5 (apply bind_ext; intros ?).
  match type of A with alikes (known ?l) ?n ?m =>
    rewrite (each_alike _ (read_imu asserts) imu_keys n m "imu" _ (imu_alike asserts) (child_known l n m "imu" _ A eq_refl));
    rewrite (each_alike _ read_tracker tracker_keys n m "tracker" _ tracker_alike (child_known l n m "tracker" _ A eq_refl));
    rewrite (each_alike _ (read_board asserts) board_keys n m "fiducial" _ (board_alike asserts) (child_known l n m "fiducial" _ A eq_refl));
    rewrite (each_alike _ (read_camera asserts) cam_keys n m "camera" _ (cam_alike asserts) (child_known l n m "camera" _ A eq_refl));
    rewrite (each_alike _ (read_gps asserts) gps_keys n m "gps" _ (gps_alike asserts) (child_known l n m "gps" _ A eq_refl)) end.
  reflexivity.
Qed.

(** *** Writing under a path that is not known *)
Fixpoint strange (p : list string) (s : schema) : bool :=
  match p with
  | [] => false
  | k :: p => match s with Value => false | Keys f => match f k with None => true | Some s' => strange p s' end end
  end.
Lemma put_alike : forall p s f v, strange p s = true -> alike s f (put p v f).
Proof.
  induction p as [|k p IH]; intros s f v H; [discriminate|]. destruct s as [|g]; [discriminate|]. cbn [strange] in H.
  destruct f as [|x|l|l]; try apply alike_refl. cbn [put]. right.
  match goal with |- context [YMap (?go l)] => set (w := go) end. exists l, (w l). split; [reflexivity|]. split; [reflexivity|].
  intros q. destruct (g q) as [s'|] eqn:Eq; [|exact I].
  induction l as [|[x n] l IHl].
  - cbn. destruct p as [|k' p]; cbn; [|exact I]. destruct (String.eqb k q) eqn:E; [|exact I].
    apply String.eqb_eq in E. subst q. rewrite Eq in H. discriminate.
  - change (w ((x, n) :: l)) with (if String.eqb x k then (x, put p v n) :: l else (x, n) :: w l). destruct (String.eqb x k) eqn:E.
    + cbn [find fst snd]. destruct (String.eqb x q) eqn:E'.
      * apply String.eqb_eq in E, E'. subst x q. rewrite Eq in H. cbn [snd]. apply IH. exact H.
      * destruct (find _ l); [apply alike_refl | exact I].
    + cbn [find fst]. destruct (String.eqb x q); [apply alike_refl | exact IHl].
Qed.
Lemma documented_strange : forall p, documented_only p -> strange p file_keys = true.
Proof.
  intros p [H|[H|(n & H)]].
  - cbn [map In] in H. repeat destruct H as [<-|H]; try reflexivity. destruct H.
  - cbn [map In] in H. repeat destruct H as [<-|H]; try reflexivity. destruct H.
  - cbn [map In] in H. repeat match goal with H : _ \/ _ |- _ => destruct H as [H|H] end; try contradiction; subst p; reflexivity.
Qed.
Theorem documented_ignored : forall asserts fit f rnd p v, documented_only p ->
  read_config asserts fit (put p v f) rnd = read_config asserts fit f rnd.
Proof. intros asserts fit f rnd p v H. symmetry. apply config_alike, put_alike, documented_strange, H. Qed.
(** Writing does write. *)
Lemma put_lookup : forall p v f g k, lookup p f = Some (YMap g) -> lookup (p ++ [k]) (put (p ++ [k]) v f) = Some v.
Proof.
  induction p as [|x p IH]; intros v f g k H.
  - cbn [lookup] in H. injection H as ->. cbn [app put].
    match goal with |- context [YMap (?go g)] => set (w := go) end. cbn [lookup].
    assert (E : find (fun x => String.eqb (fst x) k) (w g) = Some (k, v)); [|rewrite E; reflexivity].
    induction g as [|[y n] g IHg].
    + cbn. rewrite String.eqb_refl. reflexivity.
    + change (w ((y, n) :: g)) with (if String.eqb y k then (y, v) :: g else (y, n) :: w g). destruct (String.eqb y k) eqn:E.
      * cbn [find fst]. rewrite E. apply String.eqb_eq in E. now subst.
      * cbn [find fst]. rewrite E. exact IHg.
  - destruct f as [| | |l]; try discriminate. cbn [app put]. 
    match goal with |- context [YMap (?go l)] => set (w := go) end. cbn [lookup] in *.
    destruct (find (fun z => String.eqb (fst z) x) l) as [[y n]|] eqn:E; [|discriminate]. cbn [snd] in H.
    assert (F : find (fun z => String.eqb (fst z) x) (w l) = Some (y, put (p ++ [k]) v n)).
    { revert E. induction l as [|[z m] l IHl]; intros E; [discriminate|].
      change (w ((z, m) :: l)) with (if String.eqb z x then (z, put (p ++ [k]) v m) :: l else (z, m) :: w l). cbn [find fst] in E.
      destruct (String.eqb z x) eqn:Ez; cbn [find fst]; rewrite Ez; [injection E as -> ->; reflexivity | apply IHl, E]. }
    rewrite F. cbn [snd]. eapply IH, H.
Qed.
