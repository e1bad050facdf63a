(** Reading the configuration file. *)
From Coq Require Import Reals List Arith Bool String Lia Lra.
From Verif Require Import Base.Res Base.Mat Base.RMat Base.LinAlg Base.RDec Base.Geom Model.TypeHelper Model.Types Model.Ekf
  Model.Sensors Model.TruthEngine Model.SimMain Model.RosNode Model.SimConfig Spec.Ros Spec.Config Proofs.RosLoad.
Import ListNotations.
Open Scope string_scope.
Open Scope R_scope.

(** *** Paths *)
Lemma entry_find : forall k l, entry k l = option_map snd (find (fun x => String.eqb (fst x) k) l).
Proof. intros k l. induction l as [|[x n] l IH]; [reflexivity|]. cbn [entry find fst]. destruct (String.eqb x k); [reflexivity | exact IH]. Qed.
Lemma lookup_app : forall p q f, lookup (p ++ q)%list f = match lookup p f with Some g => lookup q g | None => None end.
Proof.
  induction p as [|k p IH]; intros q f; [reflexivity|]. cbn [app lookup]. destruct f as [| | |l]; try reflexivity.
  destruct (find _ l) as [x|]; [apply IH | reflexivity].
Qed.
Lemma child_at : forall f p k c, child (lookup p f) k = OK c -> c = lookup (p ++ [k]) f.
Proof.
  intros f p k c H. rewrite lookup_app. destruct (lookup p f) as [[| | |l]|]; cbn [child] in H; try discriminate; injection H as <-; try reflexivity.
  rewrite entry_find. cbn [lookup]. destruct (find _ l); reflexivity.
Qed.
Ltac via H E := apply bind_OK in H; destruct H as (? & E & H); apply child_at in E; subst.
Lemma real_at : forall f p k d x, real (lookup p f) k d = OK x -> x = dflt d (number f (p ++ [k])).
Proof.
  intros f p k d x H. unfold real in H. via H E. injection H as <-. unfold number, scalar_at, as_scalar.
  destruct (lookup (p ++ [k]) f) as [[|s| |]|]; reflexivity.
Qed.
Lemma natural_at : forall f p k d x, natural (lookup p f) k d = OK x -> x = dflt d (whole f (p ++ [k])).
Proof.
  intros f p k d x H. unfold natural in H. via H E. injection H as <-. unfold whole, scalar_at, as_scalar.
  destruct (lookup (p ++ [k]) f) as [[|s| |]|]; reflexivity.
Qed.
Lemma flag_at : forall f p k d x, flag (lookup p f) k d = OK x -> x = dflt d (yes_no f (p ++ [k])).
Proof.
  intros f p k d x H. unfold flag in H. via H E. injection H as <-. unfold yes_no, scalar_at, as_scalar.
  destruct (lookup (p ++ [k]) f) as [[|s| |]|]; reflexivity.
Qed.
Lemma text_at : forall f p k d x, text (lookup p f) k d = OK x -> x = dflt d (said f (p ++ [k])).
Proof.
  intros f p k d x H. unfold text in H. via H E. unfold as_text in H. unfold said, scalar_at.
  destruct (lookup (p ++ [k]) f) as [[|s| |]|]; cbn [dflt]; congruence.
Qed.
Lemma mapM_rows : forall A B (f : A -> res B) (P : A -> B -> Prop), (forall a b, f a = OK b -> P a b) ->
  forall l m, mapM f l = OK m -> Forall2 P l m.
Proof.
  intros A B f P HP l. induction l as [|a l IH]; intros m H; cbn [mapM] in H; [injection H as <-; constructor|].
  apply bind_OK in H. destruct H as (b & Hb & H). apply bind_OK in H. destruct H as (m' & Hm & H). injection H as <-.
  constructor; [apply HP, Hb | apply IH, Hm].
Qed.
Lemma reals_at : forall f p k d x, reals (lookup p f) k d = OK x -> row f (p ++ [k]) d x.
Proof.
  intros f p k d x H. unfold reals in H. via H E. unfold as_reals in H. unfold row.
  destruct (lookup (p ++ [k]) f) as [[|s|l|]|]; try (injection H as <-; reflexivity).
  eapply mapM_rows; [|exact H]. intros [|s| |] b Hb; try discriminate. destruct (ys_real s) as [r|] eqn:E; [|discriminate].
  injection Hb as <-. exists s. split; [reflexivity | exact E].
Qed.
Lemma to_V3_row : forall asserts l v, to_V3 asserts l = OK v -> l = triple v.
Proof.
  intros asserts l v H. unfold to_V3 in H. apply bind_OK in H. destruct H as (w & E & H). apply vecx_inv in E. destruct E as [-> _].
  destruct l as [|a [|b [|c [|]]]]; try discriminate. injection H as <-. reflexivity.
Qed.
Lemma vec_at : forall asserts f p k x, vec asserts (lookup p f) k = OK x -> point f (p ++ [k]) x.
Proof.
  intros asserts f p k x H. unfold vec in H. apply bind_OK in H. destruct H as (l & E & H). apply reals_at in E. apply to_V3_row in H.
  subst l. exact E.
Qed.
Lemma vecx_at : forall asserts f p k x, vecx asserts (lookup p f) k = OK x ->
  row f (p ++ [k]) [0; 0; 0] x /\ (asserts = true -> List.length x = 3%nat).
Proof.
  intros asserts f p k x H. unfold vecx in H. apply bind_OK in H. destruct H as (l & E & H). apply reals_at in E. apply vecx_inv in H.
  destruct H as [-> L]. split; [exact E | exact L].
Qed.
Lemma rotation_at : forall f p k x, rotation (lookup p f) k = OK x -> turned f (p ++ [k]) x.
Proof.
  intros f p k x H. unfold rotation in H. apply bind_OK in H. destruct H as (l & E & H). apply reals_at in E. injection H as <-.
  exists l. split; [exact E|]. split; [apply quat_oriented|].
  intros L. destruct l as [|a [|b [|c [|d [|]]]]]; try reflexivity. now elim L.
Qed.

(** *** Settings *)
Ltac opens H := repeat (let E := fresh "E" in let x := fresh "x" in apply bind_OK in H; destruct H as (x & E & H)).
Ltac reads := repeat match goal with
  | E : child (lookup _ _) _ = OK _ |- _ => apply child_at in E; subst
  | E : real (lookup _ _) _ _ = OK _ |- _ => apply real_at in E
  | E : natural (lookup _ _) _ _ = OK _ |- _ => apply natural_at in E
  | E : flag (lookup _ _) _ _ = OK _ |- _ => apply flag_at in E
  | E : text (lookup _ _) _ _ = OK _ |- _ => apply text_at in E
  | E : reals (lookup _ _) _ _ = OK _ |- _ => apply reals_at in E
  | E : vec _ (lookup _ _) _ = OK _ |- _ => apply vec_at in E
  | E : rotation (lookup _ _) _ = OK _ |- _ => apply rotation_at in E
  | E : vecx _ (lookup _ _) _ = OK _ |- _ => apply vecx_at in E; destruct E as [E ?]
  end.
Ltac given := match goal with E : _ |- _ => exact E end.

Lemma imu_at : forall asserts f n c, read_imu asserts (lookup (part "imu" n []) f) = OK c ->
  imu_read f n c /\ (asserts = true -> List.length (ip_var (ic_par c)) = 3%nat).
Proof.
  intros asserts f n c H. unfold read_imu in H. opens H. reads. injection H as <-. rewrite nano_e9 in *.
  split; [constructor; cbn [ic_par ic_rate ic_no_errors ic_acc_error ic_omg_error ic_pos_error ic_acc_bias_error ic_omg_bias_error
    ip_ext ip_int ip_pos_stab ip_ang_stab ip_acc_stab ip_omg_stab ip_pos ip_ang ip_acc_bias ip_omg_bias ip_var]; given | given].
Qed.
Lemma tracker_at : forall f n c, read_tracker (lookup (part "tracker" n []) f) = OK c -> tracker_read f n c.
Proof. intros f n c H. unfold read_tracker in H. opens H. reads. injection H as <-. constructor; cbn [tc_px tc_min_len tc_max_len tc_min_dist tc_count tc_no_errors]; given. Qed.
Lemma board_at : forall asserts f n c, read_board asserts (lookup (part "fiducial" n []) f) = OK c ->
  board_read f n c /\ (asserts = true -> List.length (fp_var (bc_par c)) = 3%nat).
Proof.
  intros asserts f n c H. unfold read_board in H. opens H. reads. injection H as <-.
  split; [constructor; cbn [bc_par bc_pos_error bc_t_error bc_r_error bc_no_errors fp_id fp_ext fp_cam_ext fp_pos fp_ang fp_var]; given | given].
Qed.
Lemma name_of_word : forall f p, name_of (dflt "" (said f p)) = name_said f p.
Proof. intros f p. unfold name_said. destruct (said f p) as [[|a s]|]; reflexivity. Qed.
Lemma cam_at : forall asserts f n c, read_camera asserts (lookup (part "camera" n []) f) = OK c ->
  cam_read f n c /\ (asserts = true -> List.length (cp_var (cc_par c)) = 3%nat).
Proof.
  intros asserts f n c H. unfold read_camera in H. opens H. reads. injection H as <-. rewrite nano_e9 in *.
  match goal with E : read_intrinsics _ = OK _ |- _ => rename E into I end. unfold read_intrinsics in I. opens I. reads. injection I as <-.
  split; [constructor; cbn [cc_par cc_pos_error cc_no_errors cc_tracker cc_board cp_ext cp_rate cp_pos_stab cp_ang_stab cp_pos cp_ang cp_intr cp_var
    in_f_x in_f_y in_k_1 in_k_2 in_p_1 in_p_2 in_width in_height in_pixel_size]; first [given | subst; apply name_of_word] | given].
Qed.
Lemma gps_at : forall asserts f n c, read_gps asserts (lookup (part "gps" n []) f) = OK c -> gps_read f n c.
Proof.
  intros asserts f n c H. unfold read_gps in H. opens H. reads. injection H as <-.
  constructor; cbn [gc_par gc_rate gc_no_errors gc_lla_error gc_pos_error gp_ext gp_pos_stab gp_pos gp_var]; given.
Qed.

Lemma names_at : forall f p l, LoadNodeList (lookup p f) = OK l -> names f p l.
Proof.
  intros f p l H. unfold LoadNodeList in H. unfold names. destruct (lookup p f) as [[|s|ns|[|]]|]; try discriminate; try (injection H as <-; reflexivity).
  eapply mapM_rows; [|exact H]. intros [|s| |] b Hb; try discriminate. injection Hb as <-. eauto.
Qed.
Lemma each_at : forall A (rd : option ynode -> res A) f p kind ns l, read_each rd (lookup p f) kind ns = OK l ->
  Forall2 (fun n x => fst x = n /\ rd (lookup (p ++ [kind; n]) f) = OK (snd x)) ns l.
Proof.
  intros A rd f p kind ns l H. unfold read_each in H. eapply mapM_rows; [|exact H]. intros n x Hx. cbn beta in Hx. opens Hx. reads.
  injection Hx as <-. cbn [fst snd]. split; [reflexivity|]. rewrite <- app_assoc in *. given.
Qed.
Lemma Forall2_imp : forall A B (P Q : A -> B -> Prop), (forall a b, P a b -> Q a b) -> forall l m, Forall2 P l m -> Forall2 Q l m.
Proof. intros A B P Q H l m F. induction F; constructor; auto. Qed.
Lemma indexed_from : forall A (l : list A) k i x, nth_error (combine (seq k (List.length l)) l) i = Some x ->
  fst x = (k + i)%nat /\ nth_error l i = Some (snd x).
Proof.
  intros A l. induction l as [|a l IH]; intros k i x H; [destruct i; discriminate|].
  destruct i as [|i]; cbn in H; [injection H as <-; cbn; split; [lia|reflexivity]|]. apply IH in H. destruct H. split; [lia|assumption].
Qed.
Lemma with_draws_drawn : forall A d (l : list (string * A)), drawn d (with_draws d l).
Proof.
  intros A d l i x H. unfold with_draws in H. rewrite nth_error_map in H. destruct (nth_error (indexed l) i) as [y|] eqn:E; [|discriminate].
  injection H as <-. cbn [snd]. apply indexed_from in E. destruct E as [-> _]. reflexivity.
Qed.
Lemma with_draws_F2 : forall A d (l : list (string * A)) (P : string -> A -> Prop) ns,
  Forall2 (fun n x => P n (snd x)) ns l -> Forall2 (fun n x => P n (fst x)) ns (with_draws d l).
Proof.
  intros A d l P ns F. unfold with_draws, indexed. generalize 0%nat. induction F as [|n x ns l Hx F IH]; intros k; [constructor|].
  cbn [List.length seq combine map]. constructor; [exact Hx | apply IH].
Qed.

Lemma params_at : forall f n p, n = top [] -> read_params (lookup n f) = OK p ->
  aug_number (p_aug p) = dflt 1%nat (whole f (top ["augmenting_type"])) /\
  p_aug_dt p = dflt 1 (number f (top ["augmenting_delta_time"])) /\
  p_aug_pos_err p = dflt (1 / 10) (number f (top ["augmenting_pos_error"])) /\
  p_aug_ang_err p = dflt (1 / 10) (number f (top ["augmenting_ang_error"])) /\
  init_number (p_gps_init p) = dflt 0%nat (whole f (top ["gps_init_type"])) /\
  p_gps_baseline p = dflt 1 (number f (top ["gps_init_baseline_dist"])) /\
  p_gps_pos_thresh p = dflt 1 (number f (top ["gps_init_pos_thresh"])) /\
  p_gps_ang_thresh p = dflt 1 (number f (top ["gps_init_ang_thresh"])) /\
  p_chi2 p = dflt 1 (number f (top ["motion_detection_chi_squared"])) /\
  p_imu_scale p = dflt 100 (number f (top ["imu_noise_scale_factor"])) /\
  p_root p = dflt true (yes_no f (top ["use_root_covariance"])) /\
  p_fej p = dflt false (yes_no f (top ["use_first_estimate_jacobian"])).
Proof.
  intros f n p -> H. unfold read_params in H. opens H. reads. injection H as <-.
  repeat match goal with |- _ /\ _ => split end;
    cbn [p_aug p_aug_dt p_aug_pos_err p_aug_ang_err p_gps_init p_gps_baseline p_gps_pos_thresh p_gps_ang_thresh p_chi2 p_imu_scale p_root p_fej];
    try given.
  - match goal with E : aug_of ?a = OK _, F : ?a = _ |- _ => etransitivity; [|exact F]; destruct a as [|[|[|[|[|]]]]]; cbn in E; try discriminate; injection E as <-; reflexivity end.
  - match goal with E : gps_init_of ?a = OK _, F : ?a = _ |- _ => etransitivity; [|exact F]; destruct a as [|[|[|]]]; cbn in E; try discriminate; injection E as <-; reflexivity end.
Qed.
Lemma noise_at : forall f n q, n = top ["process_noise"] -> LoadProcessNoise (lookup n f) = OK q ->
  (nr q = 18%nat /\ nc q = 1%nat) /\
  (forall g k i, nth_error ["pos"; "vel"; "acc"; "ang_pos"; "ang_vel"; "ang_acc"] g = Some k -> (i < 3)%nat ->
    ent q (3 * g + i) 0 = dflt (1 / 100) (number f (top ["process_noise"; k]))).
Proof.
  intros f n q -> H. unfold LoadProcessNoise in H. opens H. reads. injection H as <-. split; [split; reflexivity|].
  intros g k i Hk Hi. unfold g_body_state_size.
  destruct g as [|[|[|[|[|[|g]]]]]]; cbn [nth_error] in Hk; try (injection Hk as <-); try (destruct g; discriminate);
    destruct i as [|[|[|i]]]; try lia; subst; reflexivity.
Qed.

Lemma F2_length : forall A B (P : A -> B -> Prop) l m, Forall2 P l m -> List.length l = List.length m.
Proof. intros A B P l m F. induction F; cbn [List.length]; congruence. Qed.
Lemma points_at : forall draw size flat err l, control_points size flat err draw = OK l -> points_of draw size flat err l.
Proof.
  intros draw size flat err l H. unfold control_points in H. split.
  - apply mapM_rows with (P := fun _ _ => True) in H; [|auto]. apply F2_length in H. rewrite seq_length in H. congruence.
  - intros i p Hp. revert Hp. apply mapM_rows with (P := fun i p => exists x y z, vindex flat (3 * i) = OK x /\ vindex flat (3 * i + 1) = OK y /\
      vindex flat (3 * i + 2) = OK z /\ p = if (i =? 0)%nat then mkV3 x y z else draw i (mkV3 x y z) err) in H.
    2: { intros a b Hb. cbn beta in Hb. opens Hb. injection Hb as <-. eauto 10. }
    intros Hp. assert (X : forall (l : list V3) k m, Forall2 (fun i p => exists x y z, vindex flat (3 * i) = OK x /\ vindex flat (3 * i + 1) = OK y /\
      vindex flat (3 * i + 2) = OK z /\ p = if (i =? 0)%nat then mkV3 x y z else draw i (mkV3 x y z) err) (seq k m) l ->
      forall i p, nth_error l i = Some p -> exists x y z, vindex flat (3 * (k + i)) = OK x /\ vindex flat (3 * (k + i) + 1) = OK y /\
      vindex flat (3 * (k + i) + 2) = OK z /\ p = if (k + i =? 0)%nat then mkV3 x y z else draw (k + i)%nat (mkV3 x y z) err).
    { clear. induction l as [|a l IH]; intros k m F i p Hp; [destruct i; discriminate|].
      inversion F as [|j b js bs Hab F' E1 E2]; subst. destruct m as [|m]; [discriminate|]. cbn [seq] in E1. injection E1 as -> ->.
      destruct i as [|i]; cbn [nth_error] in Hp; [injection Hp as <-; rewrite Nat.add_0_r; exact Hab|].
      rewrite Nat.add_succ_r, <- Nat.add_succ_l. eapply IH; eassumption. }
    destruct (X _ _ _ H _ _ Hp) as (x & y & z & H1 & H2 & H3 & H4). rewrite Nat.add_0_l in *. exists x, y, z.
    unfold vindex in *. destruct (nth_error flat (3 * i)); [|discriminate]. destruct (nth_error flat (3 * i + 1)); [|discriminate].
    destruct (nth_error flat (3 * i + 2)); [|discriminate]. injection H1 as ->. injection H2 as ->. injection H3 as ->.
    split; [reflexivity|]. split; [reflexivity|]. split; [reflexivity|]. rewrite H4. destruct i; reflexivity.
Qed.
Lemma said_other : forall (f : ynode) p d w, dflt d (said f p) = w -> w <> d -> said f p = Some w.
Proof. intros f p d w H N. destruct (said f p) as [x|]; cbn in H; [now subst | congruence]. Qed.
Lemma engine_at : forall asserts fit rnd f n max e, n = top ["sim_params"] -> read_engine asserts fit (lookup n f) max rnd = OK e ->
  truth_read fit rnd f (Rmax (dflt (1 / 10) (number f (sim "stationary_time"))) (1 / 10)) max e.
Proof.
  intros asserts fit rnd f n max e -> H. unfold read_engine in H.
  apply bind_OK in H. destruct H as (w & Ew & H). apply bind_OK in H. destruct H as (st & Es & H). apply text_at in Ew. apply real_at in Es.
  change (st = dflt (1 / 10) (number f (sim "stationary_time"))) in Es. change (w = dflt "cyclic" (said f (sim "truth_type"))) in Ew.
  rewrite <- Es. symmetry in Ew. destruct (String.eqb w "cyclic") eqn:C.
  { apply String.eqb_eq in C. subst w. opens H. reads. injection H as <-.
    apply tr_cyclic; cbn [cy_pos_frequency cy_ang_frequency cy_pos_offset cy_ang_offset cy_pos_amplitude cy_ang_amplitude cy_stationary_time]; first [given | reflexivity]. }
  apply String.eqb_neq in C. apply said_other in Ew; [|exact C]. destruct (String.eqb w "smoother") eqn:S.
  { apply String.eqb_eq in S. subst w. opens H. reads. injection H as <-. eapply tr_smoother; given. }
  apply String.eqb_neq in S. destruct (String.eqb w "spline") eqn:P.
  { apply String.eqb_eq in P. subst w. opens H. reads. injection H as <-.
    match goal with E1 : control_points _ _ _ (rd_pos _) = _, E2 : control_points _ _ _ (rd_ang _) = _ |- _ => apply points_at in E1, E2 end.
    eapply tr_spline; given. }
  apply String.eqb_neq in P. injection H as <-. eapply tr_unknown; eassumption.
Qed.

Definition short_rows (c : sim_cfg) : Prop :=
  (forall x, In x (sc_imus c) -> List.length (ip_var (ic_par (fst x))) = 3%nat) /\
  (forall x, In x (sc_cams c) -> List.length (cp_var (cc_par (fst x))) = 3%nat) /\
  (forall x, In x (sc_boards c) -> List.length (fp_var (bc_par (snd x))) = 3%nat).
Lemma F2_In_r : forall A B (P : A -> B -> Prop) l m, Forall2 P l m -> forall y, In y m -> exists x, In x l /\ P x y.
Proof.
  intros A B P l m F. induction F as [|a b l m H F IH]; intros y Hy; [destruct Hy|]. destruct Hy as [<-|Hy]; [exists a; split; [left; reflexivity|exact H]|].
  destruct (IH y Hy) as (x & Hx & Px). exists x. split; [right; exact Hx | exact Px].
Qed.
Lemma with_draws_In : forall A d (l : list (string * A)) x, In x (with_draws d l) -> exists n, In (n, fst x) l.
Proof.
  intros A d l x H. unfold with_draws in H. apply in_map_iff in H. destruct H as ([i [n a]] & <- & H). unfold indexed in H.
  apply in_combine_r in H. exists n. exact H.
Qed.

Theorem config_read : forall asserts fit f rnd c, read_config asserts fit f rnd = OK c ->
  filter_read f c /\ sim_read fit rnd f c /\ sensors_read rnd f c /\ (asserts = true -> short_rows c).
Proof.
  intros asserts fit f rnd c H. unfold read_config in H. change (Some f) with (lookup [] f) in H.
  opens H.
  repeat match goal with E : child (lookup _ _) _ = OK _ |- _ => apply child_at in E; cbn [app] in E; subst end.
  repeat match goal with E : LoadNodeList (lookup _ _) = OK _ |- _ => apply names_at in E end.
  injection H as <-.
  repeat match goal with E : read_each _ (lookup _ _) _ _ = OK _ |- _ => apply each_at in E; cbn [app] in E end.
  match goal with E : read_params _ = OK _ |- _ => apply params_at in E; [|reflexivity]; rename E into Hp end.
  match goal with E : LoadProcessNoise _ = OK _ |- _ => apply noise_at in E; [|reflexivity]; destruct E as [Hn1 Hn2] end.
  match goal with E : read_engine _ _ _ _ _ = OK _ |- _ => apply engine_at in E; [|reflexivity]; rename E into He end.
  reads. cbn [app] in *.
  destruct Hp as (P1 & P2 & P3 & P4 & P5 & P6 & P7 & P8 & P9 & P10 & P11 & P12).
  split; [constructor; cbn [sc_par sc_noise sc_pos sc_ang sc_ref sc_heading sc_log_rate]; given|].
  split; [constructor; cbn [sc_max_time sc_engine sc_pos_error sc_ang_error sc_ref_error sc_heading_error sc_vec sc_scalar]; first [given | reflexivity]|].
  match goal with
  | E1 : Forall2 (fun n x => _ /\ read_imu _ _ = _) ?l1 ?m1, E2 : Forall2 (fun n x => _ /\ read_tracker _ = _) ?l2 ?m2,
    E3 : Forall2 (fun n x => _ /\ read_board _ _ = _) ?l3 ?m3, E4 : Forall2 (fun n x => _ /\ read_camera _ _ = _) ?l4 ?m4,
    E5 : Forall2 (fun n x => _ /\ read_gps _ _ = _) ?l5 ?m5 |- _ =>
    rename E1 into I; rename E2 into T; rename E3 into B; rename E4 into C; rename E5 into G
  end.
  split.
  - constructor; cbn [sc_imus sc_cams sc_gps sc_trackers sc_boards].
    + split; [|apply with_draws_drawn]. eexists. split; [given|]. apply with_draws_F2 with (P := imu_read f).
      eapply Forall2_imp; [|exact I]. intros n x [_ Hx]. cbn beta. apply (imu_at asserts f n (snd x)). exact Hx.
    + split; [|apply with_draws_drawn]. eexists. split; [given|]. apply with_draws_F2 with (P := cam_read f).
      eapply Forall2_imp; [|exact C]. intros n x [_ Hx]. cbn beta. apply (cam_at asserts f n (snd x)). exact Hx.
    + split; [|apply with_draws_drawn]. eexists. split; [given|]. apply with_draws_F2 with (P := gps_read f).
      eapply Forall2_imp; [|exact G]. intros n x [_ Hx]. cbn beta. apply (gps_at asserts f n (snd x)). exact Hx.
    + eexists. split; [given|]. eapply Forall2_imp; [|exact T]. intros n x [Hn Hx]. split; [exact Hn|]. apply (tracker_at f n (snd x)). exact Hx.
    + eexists. split; [given|]. eapply Forall2_imp; [|exact B]. intros n x [Hn Hx]. split; [exact Hn|]. apply (board_at asserts f n (snd x)). exact Hx.
  - intros A. split; [|split]; cbn [sc_imus sc_cams sc_boards]; intros x Hx.
    + apply with_draws_In in Hx. destruct Hx as (n & Hx). destruct (F2_In_r _ _ _ _ _ I _ Hx) as (m & _ & _ & R).
      apply (proj2 (imu_at asserts f m _ R) A).
    + apply with_draws_In in Hx. destruct Hx as (n & Hx). destruct (F2_In_r _ _ _ _ _ C _ Hx) as (m & _ & _ & R).
      apply (proj2 (cam_at asserts f m _ R) A).
    + destruct (F2_In_r _ _ _ _ _ B _ Hx) as (m & _ & _ & R). apply (proj2 (board_at asserts f m _ R) A).
Qed.
