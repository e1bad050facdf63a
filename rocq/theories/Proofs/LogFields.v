(** Log rows hold, column by column, what their headers name. *)
From Coq Require Import Reals List Arith Bool String Ascii ZArith Lia Lra.
From Verif Require Import Base.Res Base.Mat Base.LinAlg Base.RSum Base.Geom Base.AMap Base.RMat
  Model.TypeHelper Model.Types Model.StringHelper Model.Ekf Model.Ops Model.LogRows
  Spec.Csv Spec.LogFields Spec.Layout Spec.Named Spec.Contract
  Proofs.Strings Proofs.Wf Proofs.Invariant Proofs.Named Proofs.Sizes Proofs.Columns.
Import ListNotations.
Open Scope string_scope.
Open Scope nat_scope.

Lemma fst_group : forall sh n l, map fst (group_with sh n l) = map (group_name n) (seq 0 (List.length l)).
Proof.
  intros sh n l. unfold group_with. change (fun i => (n ++ "_" ++ to_string i)%string) with (group_name n).
  assert (L : List.length (map (group_name n) (seq 0 (List.length l))) = List.length (map sh l))
    by now rewrite !map_length, seq_length.
  revert L. generalize (map (group_name n) (seq 0 (List.length l))) (map sh l).
  induction l0 as [|a l0 IH]; intros [|b l1] L; cbn in *; try discriminate; [reflexivity|].
  f_equal. apply IH. lia.
Qed.
Lemma snd_group : forall sh n l, map snd (group_with sh n l) = map sh l.
Proof.
  intros sh n l. unfold group_with. change (fun i => (n ++ "_" ++ to_string i)%string) with (group_name n).
  assert (L : List.length (map (group_name n) (seq 0 (List.length l))) = List.length (map sh l))
    by now rewrite !map_length, seq_length.
  revert L. generalize (map (group_name n) (seq 0 (List.length l))) (map sh l).
  induction l0 as [|a l0 IH]; intros [|b l1] L; cbn in *; try discriminate; [reflexivity|].
  f_equal. apply IH. lia.
Qed.

Lemma columns_next : forall a b, no_comma b -> columns ((a ++ ",") ++ b)%string = (columns a ++ [b])%list.
Proof. intros a b H. rewrite app_assoc_s. now apply columns_add. Qed.

Lemma diag_block_eq : forall m i n d, diag_block m i n = OK d -> d = map (fun k => ent m k k) (seq i n).
Proof.
  intros m i n d. unfold diag_block, block. destruct (_ && _); cbn [bind]; [|discriminate].
  intros E. injection E as <-. cbn [ent].
  assert (S : forall i, seq i n = map (fun k => i + k) (seq 0 n)).
  { clear. induction n as [|n IH]; intros i; [reflexivity|]. cbn [seq map]. rewrite Nat.add_0_r. f_equal.
    rewrite (IH (S i)), (IH 1), map_map. apply map_ext. intros; lia. }
  rewrite (S i), map_map. apply map_ext. intros k. reflexivity.
Qed.

Lemma cov_diag_eq : forall e i n, reachable e -> i + n <= e_size e -> cov_diag e i n = OK (vars (logged e) i n).
Proof.
  intros e i n Hr H. destruct (cov_diag_ok e i n Hr H) as [d [E _]]. rewrite E. f_equal.
  unfold cov_diag in E. destruct (diag_block (e_cov e) i n) as [d'|] eqn:D; [|discriminate]. cbn [bind] in E.
  injection E as <-. apply diag_block_eq in D. subst d'. unfold vars, logged, is_root.
  destruct (p_root (e_par e)); [|reflexivity]. unfold squares. now rewrite map_map.
Qed.

Lemma sq_diag_eq : forall e i n, reachable e -> i + n <= e_size e ->
  exists d, diag_block (e_cov e) i n = OK d /\ squares d = vars (logged_sq e) i n.
Proof.
  intros e i n Hr H. destruct (dims_ok e (reachable_inv e Hr)) as [H1 [H2 _]].
  destruct (diag_block_ok (e_cov e) i n) as [d [E _]]; [lia|lia|].
  exists d. split; [exact E|]. apply diag_block_eq in E. subst d. unfold squares, vars, logged_sq. now rewrite map_map.
Qed.

Lemma v3list_xyz : forall v, v3list v = xyz v. Proof. reflexivity. Qed.

Lemma fold_tail : forall {A} (f : A -> string) (g : A -> list string),
  (forall p x, columns (p ++ f x)%string = (columns p ++ g x)%list) ->
  forall l p, columns (p ++ fold_left (fun s x => (s ++ f x)%string) l "")%string = (columns p ++ flat_map g l)%list.
Proof.
  intros A f g H l p. rewrite fold_app, app_empty_r. revert p.
  induction l as [|x l IH]; intros p; cbn [fold_left flat_map]; [now rewrite app_nil_r|].
  now rewrite IH, H, app_assoc.
Qed.

Ltac plainn := cbn; repeat (split; [intro; discriminate|]); exact I.
(** Bring a line into left-nested form and split it. *)
Ltac splits H :=
  rewrite ?app_empty_r; rewrite <- ?app_assoc_s; rewrite ?app_empty_r;
  repeat first
    [ rewrite (vector_columns _ _ _ H) | rewrite (quat_columns _ _ _ H)
    | rewrite (columns_next _ _ (H _)) | rewrite (columns_next _ _ (int_string_plain _))
    | rewrite (columns_next _ _ (to_string_plain _)) | rewrite (columns_plain _ (H _))
    | rewrite (columns_plain _ (to_string_plain _)) | rewrite enumerate_columns by plainn ].
Ltac fields := rewrite ?map_app, ?fst_group, ?snd_group; cbn [map fst snd]; rewrite <- ?app_assoc; reflexivity.

Lemma body_reads : forall show e d, plain_show show -> reachable e ->
  reads (body_row show e d) body_header (body_fields show e (logged e) d).
Proof.
  intros show e d H Hr. unfold body_row. pose proof (size_ge e (proj1 (reachable_inv e Hr))) as G.
  change (0 + g_body_state_size <= e_size e) in G. rewrite (cov_diag_eq e 0 g_body_state_size Hr G). cbn [bind].
  eexists. split; [reflexivity|]. split.
  - unfold body_fields, group. fields.
  - unfold body_fields, group. splits H. fields.
Qed.

Lemma aug_reads : forall show e, plain_show show -> reads (OK (aug_row show e)) aug_header (aug_fields show e).
Proof.
  intros show e H. eexists. split; [reflexivity|]. unfold aug_fields, group. split; [fields|].
  unfold aug_row. splits H. fields.
Qed.

Lemma imu_indices : forall e id s, reachable e -> mfind id (s_imu (e_state e)) = Some s ->
  i_size s = (if i_ext s then 6 else 0) + (if i_int s then 6 else 0) /\
  (i_ext s = true -> i_index_ext s = i_index s) /\
  (i_int s = true -> i_index_int s = i_index s + (if i_ext s then 6 else 0)).
Proof.
  intros e id s Hr Hf. pose proof (mfind_in _ _ _ _ Hf) as Hin.
  destruct (partition_ok e Hr) as [[_ [HI _]] _]. destruct (HI id s Hin) as [_ [_ [J3 J4]]]. clear HI.
  destruct (reachable_inv e Hr) as [W _]. destruct (wf_ix _ W) as [_ [HA _]].
  pose proof (imus_at_in _ _ _ _ HA Hin) as JJ.
  destruct (imu_bounds e id s Hr Hf) as [L _]. split; [exact L|]. split.
  - intros E. rewrite (J3 E). reflexivity.
  - intros E. destruct (i_ext s) eqn:X; [now apply JJ|]. rewrite (J4 eq_refl E). lia.
Qed.

Lemma vars_app : forall var i a b, vars var i (a + b) = (vars var i a ++ vars var (i + a) b)%list.
Proof. intros. unfold vars. now rewrite seq_app, map_app. Qed.
Lemma vars_length : forall var i n, List.length (vars var i n) = n.
Proof. intros. unfold vars. now rewrite map_length, seq_length. Qed.

Ltac fields_vars := rewrite ?map_app, ?fst_group, ?snd_group; rewrite ?vars_length; cbn [map fst snd];
  rewrite <- ?app_assoc; reflexivity.

Lemma imu_reads : forall show e id s t acc omg resid d, plain_show show -> reachable e ->
  mfind id (s_imu (e_state e)) = Some s -> nr resid = 6 ->
  reads (imu_row show e id (i_ext s) (i_int s) t acc omg resid d) (imu_header (i_ext s) (i_int s))
    (imu_fields show s (logged e) t "0" (p_chi2 (e_par e)) acc omg (vlist resid) d).
Proof.
  intros show e id s t acc omg resid d H Hr Hf Hres. unfold imu_row, mget. rewrite Hf.
  destruct (imu_bounds e id s Hr Hf) as [_ [B _]].
  destruct (imu_indices e id s Hr Hf) as [L [I1 I2]].
  assert (R6 : List.length (vlist resid) = 6) by now rewrite vlist_length.
  assert (C : (if i_ext s || i_int s then let* d := cov_diag e (i_index s) (i_size s) in OK (VectorToCommaString show d)
     else OK ""%string) = OK (VectorToCommaString show
       ((if i_ext s then vars (logged e) (i_index_ext s) 6 else []) ++ (if i_int s then vars (logged e) (i_index_int s) 6 else [])))).
  { destruct (i_ext s || i_int s) eqn:E.
    - rewrite (cov_diag_eq e _ _ Hr (B eq_refl)). cbn [bind]. do 2 f_equal. rewrite L.
      destruct (i_ext s) eqn:X, (i_int s) eqn:Y; try discriminate E.
      + rewrite vars_app, (I1 eq_refl), (I2 eq_refl). reflexivity.
      + rewrite (I1 eq_refl), app_nil_r. reflexivity.
      + rewrite (I2 eq_refl), Nat.add_0_r. reflexivity.
    - destruct (i_ext s), (i_int s); try discriminate E. reflexivity. }
  rewrite C. cbn [bind]. eexists. split; [reflexivity|].
  change ",0,"%string with ("," ++ "0" ++ ",")%string. unfold imu_fields, group, imu_header. split.
  - rewrite !map_app, !fst_group, R6. destruct (i_ext s), (i_int s); cbn [when];
      rewrite ?map_app, ?fst_group; rewrite ?vars_length; reflexivity.
  - splits H. rewrite (columns_next _ "0" ltac:(plainn)). splits H.
    rewrite !map_app, !snd_group. destruct (i_ext s), (i_int s); cbn [when app]; rewrite ?map_app, ?snd_group;
      cbn [map fst snd]; rewrite <- ?app_assoc; reflexivity.
Qed.

Lemma imu_zero_reads : forall show e id s t score acc omg resid d, plain_show show -> reachable e ->
  mfind id (s_imu (e_state e)) = Some s -> nr resid = (if i_int s then 6 else 3) ->
  reads (imu_zero_row show e id (i_ext s) (i_int s) t score acc omg resid d) (imu_header (i_ext s) (i_int s))
    (imu_fields show s (logged_sq e) t "1" score acc omg (vlist resid ++ if i_int s then [] else [0; 0; 0]%R) d).
Proof.
  intros show e id s t score acc omg resid d H Hr Hf Hres. unfold imu_zero_row, mget. rewrite Hf.
  destruct (imu_bounds e id s Hr Hf) as [_ [_ [B1 B2]]].
  assert (R6 : List.length (vlist resid ++ if i_int s then [] else [0; 0; 0]%R) = 6).
  { rewrite app_length, vlist_length, Hres. destruct (i_int s); reflexivity. }
  assert (E : forall (b : bool) i, (b = true -> i + 6 <= e_size e) ->
     (if b then let* d := diag_block (e_cov e) i 6 in OK (VectorToCommaString show (squares d)) else OK ""%string) =
     OK (VectorToCommaString show (if b then vars (logged_sq e) i 6 else []))).
  { intros b i Hb. destruct b; [|reflexivity]. destruct (sq_diag_eq e i 6 Hr (Hb eq_refl)) as [x [E1 E2]].
    rewrite E1. cbn [bind]. now rewrite E2. }
  rewrite (E _ _ B1), (E _ _ B2). cbn [bind]. eexists. split; [reflexivity|].
  change ",1,"%string with ("," ++ "1" ++ ",")%string. unfold imu_fields, group, imu_header. split.
  - rewrite !map_app, !fst_group, R6. destruct (i_ext s), (i_int s); cbn [when];
      rewrite ?map_app, ?fst_group; rewrite ?vars_length; reflexivity.
  - replace (if negb (i_int s) then VectorToCommaString show (v3list v0) else ""%string)
      with (VectorToCommaString show (if i_int s then [] else [0; 0; 0]%R)) by (now destruct (i_int s)).
    splits H. rewrite (columns_next _ "1" ltac:(plainn)). splits H.
    rewrite !map_app, !snd_group. destruct (i_ext s), (i_int s); cbn [when app]; rewrite ?map_app, ?snd_group;
      cbn [map fst snd]; rewrite <- ?app_assoc; reflexivity.
Qed.

Lemma gps_reads : forall show show12 e id s t lla pos ref hd resid d, plain_show show -> plain_show show12 -> reachable e ->
  mfind id (s_gps (e_state e)) = Some s ->
  reads (gps_row show show12 e id (g_ext s) t lla pos ref hd resid d) (gps_header (g_ext s))
    (gps_fields show show12 s (logged e) t lla pos ref hd (e_lla_init e) resid d).
Proof.
  intros show show12 e id s t lla pos ref hd resid d H H12 Hr Hf. unfold gps_row, mget. rewrite Hf.
  assert (E : (if g_ext s then let* d := cov_diag e (g_index s) g_gps_extrinsic_state_size in
       OK (VectorToCommaString show (v3list (g_pos s)) ++ VectorToCommaString show d)%string else OK ""%string) =
     OK (if g_ext s then (VectorToCommaString show (v3list (g_pos s)) ++ VectorToCommaString show (vars (logged e) (g_index s) 3))%string else ""%string)).
  { destruct (g_ext s) eqn:E; [|reflexivity]. change g_gps_extrinsic_state_size with 3.
    now rewrite (cov_diag_eq e (g_index s) 3 Hr (gps_bounds e id s Hr Hf E)). }
  rewrite E. clear E. cbn [bind]. eexists. split; [reflexivity|]. unfold gps_fields, group, gps_header. split.
  - destruct (g_ext s); cbn [when]; rewrite !map_app, ?fst_group; reflexivity.
  - destruct (g_ext s); cbn [when]; splits H;
      rewrite (columns_next _ (if e_lla_init e then _ else _)) by (destruct (e_lla_init e); plainn);
      rewrite ?(columns_next _ _ (H _)), !(vector_columns _ _ _ H12), !(vector_columns _ _ _ H), !(vector_columns _ _ _ H12),
        (columns_plain _ (H t)); fields.
Qed.

Lemma fid_reads : forall show e id cam f c dflt t p q resid d, plain_show show -> reachable e ->
  mfind id (s_fid (e_state e)) = Some f -> mfind cam (s_cam (e_state e)) = Some c -> nr resid = 6 ->
  reads (fid_row show e id cam (f_ext f) (c_ext c) dflt t p q resid d) (fid_header (f_ext f) (c_ext c))
    (fid_fields show id f c (logged e) t p q (vlist resid) d).
Proof.
  intros show e id cam f c dflt t p q resid d H Hr Hf Hc Hres. unfold fid_row, mget. rewrite Hf, Hc.
  assert (R6 : List.length (vlist resid) = 6) by now rewrite vlist_length.
  assert (E : (if f_ext f then let* d := cov_diag e (f_index f) g_fid_extrinsic_state_size in
       OK (VectorToCommaString show (v3list (f_pos f)) ++ QuaternionToCommaString show (f_ang f) ++ VectorToCommaString show d)%string
       else OK ""%string) = OK (if f_ext f then (VectorToCommaString show (v3list (f_pos f)) ++
         QuaternionToCommaString show (f_ang f) ++ VectorToCommaString show (vars (logged e) (f_index f) 6))%string else ""%string)).
  { destruct (f_ext f) eqn:E; [|reflexivity]. change g_fid_extrinsic_state_size with 6.
    now rewrite (cov_diag_eq e (f_index f) 6 Hr (fid_bounds e id f Hr Hf E)). }
  assert (E' : (if c_ext c then let* d := cov_diag e (c_index c) g_cam_extrinsic_state_size in
       OK (VectorToCommaString show d) else OK ""%string) =
       OK (if c_ext c then VectorToCommaString show (vars (logged e) (c_index c) 6) else ""%string)).
  { destruct (c_ext c) eqn:E1; [|reflexivity]. change g_cam_extrinsic_state_size with 6.
    now rewrite (cov_diag_eq e (c_index c) 6 Hr (cam_bounds e cam c Hr Hc E1)). }
  rewrite E, E'. clear E E'. cbn [bind]. eexists. split; [reflexivity|]. unfold fid_fields, group, fid_header. split.
  - rewrite !map_app, !fst_group, R6. destruct (f_ext f), (c_ext c); cbn [when]; rewrite ?map_app, ?fst_group; reflexivity.
  - destruct (f_ext f), (c_ext c); cbn [when]; splits H; fields.
Qed.

Lemma msckf_reads : forall show e id c ix t n d, plain_show show -> reachable e ->
  mfind id (s_cam (e_state e)) = Some c -> ix = c_index c ->
  reads (msckf_row show e id (c_ext c) ix t n d) (msckf_header (c_ext c)) (msckf_fields show c (logged e) t n d).
Proof.
  intros show e id c ix t n d H Hr Hf ->. unfold msckf_row, mget. rewrite Hf.
  assert (E' : (if c_ext c then let* d := cov_diag e (c_index c) g_cam_extrinsic_state_size in
       OK (VectorToCommaString show d) else OK ""%string) =
       OK (if c_ext c then VectorToCommaString show (vars (logged e) (c_index c) 6) else ""%string)).
  { destruct (c_ext c) eqn:E1; [|reflexivity]. change g_cam_extrinsic_state_size with 6.
    now rewrite (cov_diag_eq e (c_index c) 6 Hr (cam_bounds e id c Hr Hf E1)). }
  rewrite E'. clear E'. cbn [bind]. eexists. split; [reflexivity|]. unfold msckf_fields, group, msckf_header. split.
  - destruct (c_ext c); cbn [when]; rewrite ?map_app, ?fst_group; reflexivity.
  - destruct (c_ext c); cbn [when]; splits H; fields.
Qed.

Lemma tri_reads : forall show show3 t f p, plain_show show -> plain_show show3 ->
  reads (OK (tri_row show show3 t f p)) tri_header (tri_fields show show3 t f p).
Proof.
  intros show show3 t f p H H3. eexists. split; [reflexivity|]. split; [reflexivity|].
  unfold tri_row. splits H. rewrite (columns_plain _ (H3 t)). reflexivity.
Qed.

Lemma board_reads : forall show id p q, plain_show show ->
  reads (OK (board_row show id p q)) board_header (board_fields show id p q).
Proof.
  intros show id p q H. eexists. split; [reflexivity|]. split; [reflexivity|].
  unfold board_row. splits H. reflexivity.
Qed.

Lemma feature_reads : forall show i x y z, plain_show show ->
  reads (OK (feature_row show i x y z)) feature_header (feature_fields show i x y z).
Proof.
  intros show i x y z H. eexists. split; [reflexivity|]. split; [reflexivity|].
  unfold feature_row. splits H. reflexivity.
Qed.

(** ** The truth log *)
Lemma numbered_cons : forall {A} k (x : A) l, numbered k (x :: l) = (k, x) :: numbered (S k) l.
Proof. reflexivity. Qed.

Lemma map_flat : forall {A B C} (h : B -> C) (g : A -> list B) l, map h (flat_map g l) = flat_map (fun x => map h (g x)) l.
Proof. induction l as [|x l IH]; [reflexivity|]. cbn. now rewrite map_app, IH. Qed.

Lemma flat_numbered_names : forall {A} (g : nat * A -> list string) (h : nat -> list string) l k,
  (forall j x, g (j, x) = h j) -> flat_map g (numbered k l) = flat_map h (seq k (List.length l)).
Proof.
  induction l as [|x l IH]; intros k H; [reflexivity|]. rewrite numbered_cons. cbn [flat_map List.length seq].
  now rewrite H, IH.
Qed.
Lemma flat_numbered_vals : forall {A} (g : nat * A -> list string) (h : A -> list string) l k,
  (forall j x, g (j, x) = h x) -> flat_map g (numbered k l) = flat_map h l.
Proof.
  induction l as [|x l IH]; intros k H; [reflexivity|]. rewrite numbered_cons. cbn [flat_map]. now rewrite H, IH.
Qed.

Lemma enum_to : forall p name c n, no_comma name ->
  columns (p ++ EnumerateHeader (name ++ to_string c) n)%string =
  (columns p ++ map (group_name (name ++ to_string c)) (seq 0 n))%list.
Proof. intros. apply enumerate_columns, no_comma_app; [assumption|apply to_string_plain]. Qed.

Ltac enums := repeat first [rewrite enumerate_columns by plainn | rewrite enum_to by plainn].

Lemma truth_reads : forall show t x, plain_show show ->
  reads (OK (truth_row show t x)) (truth_header (List.length (ts_imus x)) (List.length (ts_cams x)) (List.length (ts_gpss x)))
    (truth_fields show t x).
Proof.
  intros show t x H. eexists. split; [reflexivity|]. unfold truth_fields, group. split.
  - unfold truth_header. rewrite <- !app_assoc_s.
    replace (if negb (List.length (ts_gpss x) =? 0) then ",ref_lat,ref_lon,ref_alt,ref_heading"%string else ""%string)
      with (match ts_gpss x with [] => ""%string | _ => ("," ++ "ref_lat,ref_lon,ref_alt,ref_heading")%string end)
      by (destruct (ts_gpss x); reflexivity).
    assert (T : forall p, columns (p ++ match ts_gpss x with [] => ""%string | _ => ("," ++ "ref_lat,ref_lon,ref_alt,ref_heading")%string end)%string
      = (columns p ++ match ts_gpss x with [] => [] | _ => ["ref_lat"; "ref_lon"; "ref_alt"; "ref_heading"]%string end)%list).
    { intros p. destruct (ts_gpss x); [now rewrite app_empty_r, app_nil_r|]. now rewrite columns_comma. }
    rewrite T. clear T.
    rewrite (fold_tail (fun c => EnumerateHeader ("gps_pos_" ++ to_string c) 3)
      (fun c => map (group_name ("gps_pos_" ++ to_string c)) (seq 0 3))) by (intros; enums; reflexivity).
    rewrite (fold_tail (fun c => (EnumerateHeader ("cam_pos_" ++ to_string c) 3 ++
        EnumerateHeader ("cam_ang_pos_" ++ to_string c) 4)%string)
      (fun c => map (group_name ("cam_pos_" ++ to_string c)) (seq 0 3) ++ map (group_name ("cam_ang_pos_" ++ to_string c)) (seq 0 4))%list)
      by (intros; rewrite <- !app_assoc_s; enums; rewrite <- !app_assoc; reflexivity).
    rewrite (fold_tail (fun c => (EnumerateHeader ("imu_pos_" ++ to_string c) 3 ++
      EnumerateHeader ("imu_ang_pos_" ++ to_string c) 4 ++ EnumerateHeader ("imu_acc_bias_" ++ to_string c) 3 ++
      EnumerateHeader ("imu_gyr_bias_" ++ to_string c) 3)%string)
      (fun c => map (group_name ("imu_pos_" ++ to_string c)) (seq 0 3) ++ map (group_name ("imu_ang_pos_" ++ to_string c)) (seq 0 4) ++
        map (group_name ("imu_acc_bias_" ++ to_string c)) (seq 0 3) ++ map (group_name ("imu_gyr_bias_" ++ to_string c)) (seq 0 3))%list)
      by (intros; rewrite <- !app_assoc_s; enums; rewrite <- !app_assoc; reflexivity).
    enums. rewrite !map_app, !fst_group, !map_flat.
    rewrite (flat_numbered_names _ (fun c => map (group_name ("imu_pos_" ++ to_string c)) (seq 0 3) ++ map (group_name ("imu_ang_pos_" ++ to_string c)) (seq 0 4) ++
        map (group_name ("imu_acc_bias_" ++ to_string c)) (seq 0 3) ++ map (group_name ("imu_gyr_bias_" ++ to_string c)) (seq 0 3))%list (ts_imus x)) by (intros j [[[p q] ab] gb]; rewrite !map_app, !fst_group; reflexivity).
    rewrite (flat_numbered_names _ (fun c => map (group_name ("cam_pos_" ++ to_string c)) (seq 0 3) ++ map (group_name ("cam_ang_pos_" ++ to_string c)) (seq 0 4))%list (ts_cams x)) by (intros j [p q]; rewrite !map_app, !fst_group; reflexivity).
    rewrite (flat_numbered_names _ (fun c => map (group_name ("gps_pos_" ++ to_string c)) (seq 0 3)) (ts_gpss x)) by (intros j p; rewrite !fst_group; reflexivity).
    rewrite <- !app_assoc. cbn [map fst List.length xyz wxyz].
    repeat apply f_equal2; try reflexivity. destruct (ts_gpss x); reflexivity.
  - unfold truth_row.
    set (TL := if negb (List.length (ts_gpss x) =? 0) then (VectorToCommaString show (v3list (ts_ref x)) ++ "," ++ show (ts_heading x))%string else ""%string).
    assert (T : forall p, columns (p ++ TL)%string
      = (columns p ++ match ts_gpss x with [] => [] | _ => (map show (v3list (ts_ref x)) ++ [show (ts_heading x)])%list end)%list).
    { intros p. unfold TL. destruct (ts_gpss x); cbn [List.length Nat.eqb negb]; [now rewrite app_empty_r, app_nil_r|].
      splits H. now rewrite <- app_assoc. }
    clearbody TL. rewrite <- !app_assoc_s.
    rewrite T. clear T.
    rewrite (fold_tail (fun g => VectorToCommaString show (v3list g)) (fun g => map show (v3list g))) by (intros; splits H; reflexivity).
    assert (M2 : forall l, fold_left (fun s (c : V3 * quat) => match c with (p, q) =>
         (s ++ VectorToCommaString show (v3list p) ++ QuaternionToCommaString show q)%string end) l ""%string =
       fold_left (fun s c => (s ++ (VectorToCommaString show (v3list (fst c)) ++ QuaternionToCommaString show (snd c)))%string) l ""%string).
    { intros l. generalize ""%string. induction l as [|[p q] l IH]; intros s; [reflexivity|]. cbn [fold_left fst snd]. now rewrite IH. }
    rewrite M2. clear M2.
    rewrite (fold_tail (fun c : V3 * quat => (VectorToCommaString show (v3list (fst c)) ++ QuaternionToCommaString show (snd c))%string)
      (fun c => (map show (v3list (fst c)) ++ [show (qw (snd c)); show (qx (snd c)); show (qy (snd c)); show (qz (snd c))])%list))
      by (intros; rewrite <- !app_assoc_s; splits H; rewrite <- !app_assoc; reflexivity).
    assert (M1 : forall l, fold_left (fun s (i : V3 * quat * V3 * V3) => match i with (p, q, ab, gb) =>
         (s ++ VectorToCommaString show (v3list p) ++ QuaternionToCommaString show q ++ VectorToCommaString show (v3list ab) ++
          VectorToCommaString show (v3list gb))%string end) l ""%string =
       fold_left (fun s i => (s ++ (VectorToCommaString show (v3list (fst (fst (fst i)))) ++ QuaternionToCommaString show (snd (fst (fst i))) ++
          VectorToCommaString show (v3list (snd (fst i))) ++ VectorToCommaString show (v3list (snd i))))%string) l ""%string).
    { intros l. generalize ""%string. induction l as [|[[[p q] ab] gb] l IH]; intros s; [reflexivity|]. cbn [fold_left fst snd]. now rewrite IH. }
    rewrite M1. clear M1.
    rewrite (fold_tail (fun i : V3 * quat * V3 * V3 => (VectorToCommaString show (v3list (fst (fst (fst i)))) ++ QuaternionToCommaString show (snd (fst (fst i))) ++
          VectorToCommaString show (v3list (snd (fst i))) ++ VectorToCommaString show (v3list (snd i)))%string)
      (fun i => (map show (v3list (fst (fst (fst i)))) ++ [show (qw (snd (fst (fst i)))); show (qx (snd (fst (fst i)))); show (qy (snd (fst (fst i)))); show (qz (snd (fst (fst i))))] ++
          map show (v3list (snd (fst i))) ++ map show (v3list (snd i)))%list))
      by (intros; rewrite <- !app_assoc_s; splits H; rewrite <- !app_assoc; reflexivity).
    splits H. rewrite !map_app, !snd_group, !map_flat.
    rewrite (flat_numbered_vals _ (fun i => (map show (v3list (fst (fst (fst i)))) ++ [show (qw (snd (fst (fst i)))); show (qx (snd (fst (fst i)))); show (qy (snd (fst (fst i)))); show (qz (snd (fst (fst i))))] ++
          map show (v3list (snd (fst i))) ++ map show (v3list (snd i)))%list) (ts_imus x))
      by (intros j [[[p q] ab] gb]; rewrite !map_app, !snd_group; reflexivity).
    rewrite (flat_numbered_vals _ (fun c => (map show (v3list (fst c)) ++ [show (qw (snd c)); show (qx (snd c)); show (qy (snd c)); show (qz (snd c))])%list) (ts_cams x))
      by (intros j [p q]; rewrite !map_app, !snd_group; reflexivity).
    rewrite (flat_numbered_vals _ (fun p => map show (v3list p)) (ts_gpss x)) by (intros j p; rewrite !snd_group; reflexivity).
    rewrite <- !app_assoc. cbn [map snd].
    repeat apply f_equal2; try reflexivity. destruct (ts_gpss x); reflexivity.
Qed.

Lemma reads_fits : forall row header fs, reads row header fs -> fits row header.
Proof. intros row header fs [r [E [H1 H2]]]. exists r. split; [exact E|]. now rewrite H1, H2, !map_length. Qed.

(** ** No header names two columns alike *)
Fixpoint differ (l : list string) : bool :=
  match l with [] => true | x :: t => negb (existsb (String.eqb x) t) && differ t end.
Lemma differ_nodup : forall l, differ l = true -> NoDup l.
Proof.
  induction l as [|x l IH]; intros H; [constructor|]. cbn in H. apply andb_true_iff in H. destruct H as [H1 H2].
  constructor; [|auto]. intros Hin. apply negb_true_iff in H1.
  assert (X : existsb (String.eqb x) l = true).
  { apply existsb_exists. exists x. split; [exact Hin|apply String.eqb_refl]. }
  congruence.
Qed.
Lemma headers_differ : NoDup (columns body_header) /\ NoDup (columns aug_header) /\
  (forall a b, NoDup (columns (imu_header a b))) /\ (forall a, NoDup (columns (gps_header a))) /\
  (forall a b, NoDup (columns (fid_header a b))) /\ (forall a, NoDup (columns (msckf_header a))) /\
  NoDup (columns tri_header) /\ NoDup (columns board_header) /\ NoDup (columns feature_header).
Proof.
  repeat (match goal with |- _ /\ _ => split end);
    repeat match goal with |- forall _ : bool, _ => intros [|] end; apply differ_nodup; vm_compute; reflexivity.
Qed.
